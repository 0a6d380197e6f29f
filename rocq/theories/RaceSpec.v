(** * RaceSpec: what a data race is.

    The Go memory model, as far as mutexes go: within a goroutine events are
    ordered as the program does them, and an Unlock of a mutex is ordered before
    every later Lock of it.  Two accesses race if they touch the same memory from
    two goroutines, at least one writes, and they are not ordered. *)
From Verif Require Import Race.
From stdpp Require Import gmap.
Open Scope Z_scope.
Open Scope list_scope.

Inductive hb (tr : list ev) : nat -> nat -> Prop :=
| hb_po a b e f : tr !! a = Some e -> tr !! b = Some f -> (a < b)%nat -> evTid e = evTid f -> hb tr a b
| hb_sync a b e f m : tr !! a = Some e -> tr !! b = Some f -> (a < b)%nat ->
    evAct e = AUnlock m -> evAct f = ALock m -> hb tr a b
| hb_trans a b c : hb tr a b -> hb tr b c -> hb tr a c.

(** The memory an event touches, and whether it writes. *)
Definition touches (x : act) : option (loc * bool) :=
  match x with
  | ALock _ | AUnlock _ => None
  | ARead l => Some (l, false)
  | AWrite l | AInit l => Some (l, true)
  end.

Definition race (tr : list ev) (a b : nat) (e f : ev) : Prop :=
  tr !! a = Some e /\ tr !! b = Some f /\ (a < b)%nat /\ evTid e <> evTid f /\
  (exists l w1 w2, touches (evAct e) = Some (l, w1) /\ touches (evAct f) = Some (l, w2) /\ (w1 || w2 = true)) /\
  ~ hb tr a b.

(** The operation asks ListOffsets for partition (t,p). *)
Definition lists (o : dsop) (t : bytes) (p : Z) : Prop :=
  exists rq ps q, o = DList rq /\ In (t, ps) (lqTopics rq) /\ In q ps /\ lpIndex q = p.
(** It posts to partition (t,p). *)
Definition posts (o : dsop) (t : bytes) (p : Z) : Prop :=
  exists w p0 k v h ts, o = DCall w (CallPost t p0 k v h ts) /\ swrap 32 p0 = p.
(** It is a SyncGroup. *)
Definition syncs (o : dsop) : Prop := exists ch chs, o = DSync ch chs.
(** It creates topics or partitions that are missing. *)
Definition makes (o : dsop) : Prop :=
  (exists t p, posts o t p) \/ exists w t ts p, o = DCall w (CallCreate (t :: ts) p).

(** The two kinds of racing pairs. *)
Definition pair_races (o1 o2 : dsop) : Prop :=
  (exists t p, lists o1 t p /\ posts o2 t p) \/ (syncs o1 /\ makes o2).

(** Running at the same time, on some store, the two can race. *)
Definition can_race (o1 o2 : dsop) : Prop :=
  exists ds is_ s tr a b e f, frun (finit ds [o1; o2]) is_ = (s, tr) /\ race tr a b e f.
