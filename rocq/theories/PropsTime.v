(** * PropsTime: C59 *)
From Verif Require Import TimeSpec TimeProofs.
From stdpp Require Import gmap list.
Open Scope Z_scope.
Open Scope list_scope.

(** A record of SimplePost carries a time the wall clock showed after the call
    was made and before the record was in the log. *)
Theorem C59_time_of_post port ch evs s B i t q r C A c : run (init port ch) evs = (s, B ++ OPosted i t q r :: C) ->
  calls (init port ch) [] evs !! i = Some (A, c) -> takes_now c -> since A B (fun A1 => rTs r = tr_wall A1).
Proof. exact (time_of_post port ch evs s B i t q r C A c). Qed.
Print Assumptions C59_time_of_post.

(** If the clock does not go back, no record is from the future, and asking for
    a time after now gives the end of the log. *)
Theorem C59_not_ahead port ch evs s os t p : run (init port ch) evs = (s, os) -> clock_forward os ->
  all_now t p (calls (init port ch) [] evs) -> forall r, In r (tr_log t p os) -> rTs r <= tr_wall os.
Proof. exact (not_ahead port ch evs s os t p). Qed.
Print Assumptions C59_not_ahead.
Theorem C59_ask_future port ch evs s os t p : run (init port ch) evs = (s, os) -> clock_forward os ->
  all_now t p (calls (init port ch) [] evs) ->
  forall T i tm o, list_right os t (p, T) (i, 0, tm, o) -> T <> -1 -> T <> -2 -> tr_wall os < T -> o = zlen (tr_log t p os).
Proof. exact (fun H Hf Ha T i tm o Hr H1 H2 => ask_future port ch evs s os t p H Hf Ha T o tm (right_by_time os t p T i tm o H1 H2 Hr)). Qed.
Print Assumptions C59_ask_future.

(** A post that had returned when another was made comes before it in the log,
    and its time is not later. *)
Theorem C59_order port ch evs s B i j t p r' C Ai Aj ci cj : run (init port ch) evs = (s, B ++ OPosted j t p r' :: C) ->
  calls (init port ch) [] evs !! i = Some (Ai, ci) -> calls (init port ch) [] evs !! j = Some (Aj, cj) ->
  post_to t p ci -> takes_now ci -> takes_now cj -> In (OReturn i) Aj -> clock_forward (B ++ OPosted j t p r' :: C) ->
  exists B1 r B2, B = B1 ++ OPosted i t p r :: B2 /\ rTs r <= rTs r'.
Proof. exact (in_turn_order port ch evs s B i j t p r' C Ai Aj ci cj). Qed.
Print Assumptions C59_order.

(** So a log written by SimplePosts one after the other is in time order, and
    ListOffsets finds exactly the first record at or after the time asked for. *)
Theorem C59_in_time_order port ch evs s os t p : run (init port ch) evs = (s, os) -> clock_forward os ->
  all_now t p (calls (init port ch) [] evs) -> one_by_one t p (calls (init port ch) [] evs) -> in_time_order (tr_log t p os).
Proof. exact (sorted_log port ch evs s os t p). Qed.
Print Assumptions C59_in_time_order.
Theorem C59_ask port ch evs s os t p : run (init port ch) evs = (s, os) -> clock_forward os ->
  all_now t p (calls (init port ch) [] evs) -> one_by_one t p (calls (init port ch) [] evs) ->
  forall T i tm o, list_right os t (p, T) (i, 0, tm, o) -> T <> -1 -> T <> -2 ->
  forall k r, nth_error (tr_log t p os) k = Some r -> (Z.of_nat k < o <-> rTs r < T).
Proof. exact (fun H Hf Ha Ho T i tm o Hr H1 H2 => ask_sorted port ch evs s os t p H Hf Ha Ho T o tm (right_by_time os t p T i tm o H1 H2 Hr)). Qed.
Print Assumptions C59_ask.

(** Every answer is exact if and only if the log is in time order. *)
Theorem C59_exact_iff_in_order log :
  (forall T o tm, by_time log T o tm -> forall k r, nth_error log k = Some r -> (Z.of_nat k < o <-> rTs r < T)) <->
  in_time_order log.
Proof. exact (exact_iff_sorted log). Qed.
Print Assumptions C59_exact_iff_in_order.

(** Two SimplePosts at the same time can leave the log out of order though the
    clock only goes forward: the time is taken before the partition is locked.
    A record is then not found by its time. *)
Theorem C59_in_time_order_overlap_refuted : exists port ch evs s os t p, run (init port ch) evs = (s, os) /\ clock_forward os /\
  all_now t p (calls (init port ch) [] evs) /\ (forall i, (i < Datatypes.length (calls (init port ch) [] evs))%nat -> In (OReturn i) os) /\
  ~ in_time_order (tr_log t p os) /\
  exists T o tm r, by_time (tr_log t p os) T o tm /\ 0 < o /\ nth_error (tr_log t p os) 0 = Some r /\ T <= rTs r.
Proof. exact overlap_unsorted. Qed.
Print Assumptions C59_in_time_order_overlap_refuted.
(** And so can a clock that is set back. *)
Theorem C59_in_time_order_clock_back_refuted : exists port ch evs s os t p, run (init port ch) evs = (s, os) /\
  all_now t p (calls (init port ch) [] evs) /\ one_by_one t p (calls (init port ch) [] evs) /\ ~ in_time_order (tr_log t p os).
Proof. exact back_unsorted. Qed.
Print Assumptions C59_in_time_order_clock_back_refuted.

(** Two posts, one after the other, at 10 and at 20. *)
Example C59_ex : run (init 9092 []) t_turn = (t_fin t_turn, t_trace t_turn) /\ clock_forward (t_trace t_turn) /\
  all_now ttA 0 (calls (init 9092 []) [] t_turn) /\ one_by_one ttA 0 (calls (init 9092 []) [] t_turn) /\
  times (tr_log ttA 0 (t_trace t_turn)) = [10; 20].
Proof. exact (conj (fin_run t_turn) turn_ok). Qed.
