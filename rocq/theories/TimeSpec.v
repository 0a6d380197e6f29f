(** * TimeSpec: when records were posted, and the times they carry

    SimplePost stamps its record with time.Now() (kafka-mock.go:96-106) before
    it takes the partition's lock. *)
From Verif Require Export CallSpec ReplySpec.
From stdpp Require Import gmap list.
From Coq Require Export Sorted.
Open Scope Z_scope.
Open Scope list_scope.

(** The wall clock never shows less than it did before. *)
Definition clock_forward (os : list obs) : Prop :=
  forall A B, A `prefix_of` B -> B `prefix_of` os -> tr_wall A <= tr_wall B.

(** A post to partition (t, p). *)
Definition post_to (t : bytes) (p : Z) (c : call) : Prop :=
  match c with CallPost t' p' _ _ _ _ => t' = t /\ as_int32 p' = p | _ => False end.
(** A post that takes its time from the clock (SimplePost). *)
Definition takes_now (c : call) : Prop :=
  match c with CallPost _ _ _ _ _ ts => ts = None | _ => False end.

(** All posts to (t, p) take their time from the clock. *)
Definition all_now (t : bytes) (p : Z) (cl : list (list obs * call)) : Prop :=
  forall i A c, cl !! i = Some (A, c) -> post_to t p c -> takes_now c.
(** The posts to (t, p) are made one after the other: when one is made, those
    made before it have returned. *)
Definition one_by_one (t : bytes) (p : Z) (cl : list (list obs * call)) : Prop :=
  forall i j A B c d, (i < j)%nat -> cl !! i = Some (A, c) -> cl !! j = Some (B, d) ->
    post_to t p c -> post_to t p d -> In (OReturn i) B.

(** The times in a log, in its order. *)
Definition times (log : list krecord) : list Z := map rTs log.
Definition in_time_order (log : list krecord) : Prop := StronglySorted Z.le (times log).
