(** * HeaderSpec: histories that differ only in record headers *)
From Verif Require Export TraceSpec.
From stdpp Require Import list.
Open Scope Z_scope.
Open Scope list_scope.

(** Two event lists are alike if they differ only in the headers given to
    ExtendedPost (which are byte strings in both). *)
Definition headers_ok (h : list (bytes * option bytes)) : bool :=
  forallb (fun e => all_bytes (fst e) && obytes (snd e)) h.
Inductive alike : event -> event -> Prop :=
| alike_same ev : alike ev ev
| alike_post t p k v h h' ts : headers_ok h = true -> headers_ok h' = true ->
    alike (EvCall (CallPost t p k v h ts)) (EvCall (CallPost t p k v h' ts)).

(** Two observations are alike if they differ only in the headers of a record. *)
Inductive alike_obs : obs -> obs -> Prop :=
| alike_obs_same o : alike_obs o o
| alike_obs_post i t p a ts k v h h' :
    alike_obs (OPosted i t p (Rec a ts k v h)) (OPosted i t p (Rec a ts k v h')).
