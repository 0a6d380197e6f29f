(** * InertSpec: histories that differ in what the records say *)
From Verif Require Export TraceSpec.
From stdpp Require Import gmap list.
Open Scope Z_scope.
Open Scope list_scope.

(** Length of a key or value; nil has length 0. *)
Definition size_of (o : option bytes) : nat := match o with Some b => length b | None => 0 end.

(** Two posts to the same partition, with keys of the same length and values of
    the same length.  What the bytes are, the headers, and the time may differ. *)
Inductive alike_call : call -> call -> Prop :=
| al_post t p k v h ts k' v' h' ts' : size_of k = size_of k' -> size_of v = size_of v' ->
    alike_call (CallPost t p k v h ts) (CallPost t p k' v' h' ts')
| al_same c : alike_call c c.

(** The same schedule and the same requests; the wall clock may show anything. *)
Inductive alike_ev : event -> event -> Prop :=
| ae_call c c' : alike_call c c' -> call_ok c = true -> call_ok c' = true -> alike_ev (EvCall c) (EvCall c')
| ae_wall w w' : alike_ev (EvWall w) (EvWall w')
| ae_same e : alike_ev e e.

(** A request that shows records or their times: Fetch (key 1), ListOffsets (key
    2). *)
Definition asks_records (m : bytes) : bool :=
  bool_decide (firstn 2 m = [0; 1]) || bool_decide (firstn 2 m = [0; 2]).

Definition alike_rec (r r' : krecord) : Prop :=
  rAttr r = rAttr r' /\ size_of (rKey r) = size_of (rKey r') /\ size_of (rVal r) = size_of (rVal r').

(** One observation of each history; [now c]: connection c's last request was
    for records.  Then what is written has the same length, else it is the same. *)
Definition alike_obs (now : nat -> bool) (x y : obs) : Prop :=
  match x, y with
  | OWall _, OWall _ => True
  | OPosted i t p r, OPosted i' t' p' r' => (i, t, p) = (i', t', p') /\ alike_rec r r'
  | OWrite c b, OWrite c' b' => c = c' /\ if now c then length b = length b' else b = b'
  | _, _ => x = y
  end.
Definition next_now (now : nat -> bool) (x : obs) : nat -> bool :=
  match x with OFrame c m => fun d => if Nat.eqb c d then asks_records m else now d | _ => now end.
Fixpoint like_traces (now : nat -> bool) (a b : list obs) : Prop :=
  match a, b with
  | [], [] => True
  | x :: a', y :: b' => alike_obs now x y /\ like_traces (next_now now x) a' b'
  | _, _ => False
  end.
(** At the beginning no connection has sent anything. *)
Definition none (c : nat) : bool := false.
