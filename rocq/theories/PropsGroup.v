(** * PropsGroup: C52, the clients of a consumer group *)
From Verif Require Import GroupDemo.
From stdpp Require Import gmap list.
Open Scope Z_scope.
Open Scope list_scope.

(** Any number of clients read and commit, and may stop at any point.  As long as
    each commits only what has been received, the group's offset does not go
    back, each batch holds the records from its offset on, and every record the
    group's offset has passed has been received. *)
Theorem C52_at_least_once port ch t p g A0 D evs s : run (init port ch) evs = (s, A0 ++ D) -> careful port ch t p g A0 D ->
  posts_small (A0 ++ D) -> 0 <= tr_off t p g A0 -> l_i64 (tr_off t p g A0) = true ->
  tr_off t p g A0 <= tr_off t p g (A0 ++ D) /\
  (forall o batch, has_read port ch t p g A0 (A0 ++ D) o batch ->
     tr_off t p g A0 <= o <= tr_off t p g (A0 ++ D) /\
     batch = firstn (length batch) (skipn (Z.to_nat o) (map msg_of_rec (tr_log t p (A0 ++ D))))) /\
  forall i, tr_off t p g A0 <= i < tr_off t p g (A0 ++ D) ->
    exists o batch x, has_read port ch t p g A0 (A0 ++ D) o batch /\ o <= i < o + zlen batch /\
      nth_error (tr_log t p (A0 ++ D)) (Z.to_nat i) = Some x /\ nth_error batch (Z.to_nat (i - o)) = Some (msg_of_rec x).
Proof. exact (group_complete port ch t p g A0 D evs s). Qed.
Print Assumptions C52_at_least_once.

(** But not always once: a client reads the record at offset 1 and stops before it
    commits; the next reads it again, and commits. *)
Theorem C52_once_refuted : exists D1 D2 evs s, run (init 9092 []) evs = (s, trace_of demo_setup ++ D1 ++ D2) /\
  careful 9092 [] topicA 2 groupA (trace_of demo_setup) (D1 ++ D2) /\ posts_small (trace_of demo_setup ++ D1 ++ D2) /\
  tr_off topicA 2 groupA (trace_of demo_setup) = 1 /\ tr_off topicA 2 groupA (trace_of demo_setup ++ D1 ++ D2) = 2 /\
  has_read 9092 [] topicA 2 groupA (trace_of demo_setup) (trace_of demo_setup ++ D1) 1 [(77, None, Some [])] /\
  has_read 9092 [] topicA 2 groupA (trace_of demo_setup ++ D1) (trace_of demo_setup ++ D1 ++ D2) 1 [(77, None, Some [])].
Proof. exact group_demo. Qed.
Print Assumptions C52_once_refuted.
