(** * CloseSpec: words used in the statements about Close *)
From Verif Require Export Closing StreamSpec.
From stdpp Require Import list.
Open Scope Z_scope.
Open Scope list_scope.

(** What [Server.v] observes of a run. *)
Definition srv (os : list kobs) : list obs :=
  flat_map (fun o => match o with KSrv x => [x] | _ => [] end) os.
(** The events of the server and its clients in a run. *)
Definition evs_of (es : list kevent) : list event :=
  flat_map (fun e => match e with KEv ev => [ev] | _ => [] end) es.
(** No call of Close panics. *)
Definition no_panic (os : list kobs) : Prop := forall i, ~ In (KPanicked i) os.
(** Nobody has begun closing (set the flag). *)
Definition not_begun (os : list kobs) : Prop := forall i, ~ In (KStopped i) os.
(** Nothing is read from c, taken up on it or written to it. *)
Definition untouched (c : nat) (os : list obs) : Prop := reads c os = [] /\ frames c os = [] /\ writes c os = [].
(** All bytes read from c so far belong to requests taken up, but for a part of
    one frame. *)
Definition caught_up (c : nat) (os : list obs) : Prop :=
  exists rest, framed_with c os rest /\ no_frame rest /\ zlen rest < 2 ^ 32.
