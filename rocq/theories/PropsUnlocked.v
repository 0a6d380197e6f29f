(** * PropsUnlocked: C50, reading without the lock *)
From Verif Require Import UnlockedDemo.
From stdpp Require Import gmap list.
Open Scope Z_scope.
Open Scope list_scope.

(** ListOffsets by time, access by access, with anything going on in between:
    the answer is right for the log as it was at one moment meanwhile. *)
Theorem C50_by_time port ch e0 s0 A t p T es s r B : run (init port ch) e0 = (s0, A) -> urun s0 (UTime t p T) es = (s, r, B) ->
  r <> UPanic /\ forall tm o, r = UList tm o -> sometime A B (fun os => by_time (tr_log t p os) T o tm).
Proof. exact (unlocked_time port ch e0 s0 A t p T es s r B). Qed.
Print Assumptions C50_by_time.
(** So for the earliest offset. *)
Theorem C50_earliest port ch e0 s0 A t p es s r B : run (init port ch) e0 = (s0, A) -> urun s0 (UFirst t p) es = (s, r, B) ->
  r <> UPanic /\ forall tm o, r = UList tm o -> sometime A B (fun os => o = 0 /\ tm = match tr_log t p os with [] => 0 | x :: _ => rTs x end).
Proof. exact (unlocked_first port ch e0 s0 A t p es s r B). Qed.
Print Assumptions C50_earliest.
(** For the latest, offset and time are each right at some moment, *)
Theorem C50_latest port ch e0 s0 A t p es s r B : run (init port ch) e0 = (s0, A) -> urun s0 (ULast t p None None) es = (s, r, B) ->
  r <> UPanic /\ forall tm o, r = UList tm o -> sometime A B (fun os => tm = tr_wall os) /\ sometime A B (fun os => o = zlen (tr_log t p os)).
Proof. exact (unlocked_last port ch e0 s0 A t p es s r B). Qed.
Print Assumptions C50_latest.
(** but not always at the same: log length 3 is reported with time 5, though the
    clock showed 9 when the third record was posted. *)
Theorem C50_latest_one_moment_refuted : exists s B, urun u_s0 (ULast utA 0 None None) u_last = (s, UList 5 3, B) /\
  ~ sometime u_A B (fun os => 5 = tr_wall os /\ 3 = zlen (tr_log utA 0 os)).
Proof. exact last_apart. Qed.
Print Assumptions C50_latest_one_moment_refuted.

(** SyncGroup: the assignment has every topic and partition there was at the
    beginning, only such as there are at the end, and none twice. *)
Theorem C50_sync port ch e0 s0 A es s r B : run (init port ch) e0 = (s0, A) -> urun s0 USync es = (s, r, B) ->
  r <> UPanic /\ forall asg, r = UAssign asg ->
    NoDup (map fst asg) /\
    (forall t, tr_topic t A = true -> In t (map fst asg)) /\ (forall t, In t (map fst asg) -> tr_topic t (A ++ B) = true) /\
    forall t ps, In (t, ps) asg -> NoDup ps /\ (forall p, tr_has t p A = true -> In p ps) /\ (forall p, In p ps -> tr_has t p (A ++ B) = true).
Proof. exact (unlocked_sync port ch e0 s0 A es s r B). Qed.
Print Assumptions C50_sync.
(** It need not be right for any one moment: topic b is in it, but not partition
    1 of topic a, which was made before b. *)
Theorem C50_sync_one_moment_refuted : exists s B, urun u_s0 USync u_sync = (s, UAssign [(utA, [0]); (utB, [0])], B) /\
  ~ sometime u_A B (fun os => (tr_topic utB os = true) /\ (forall p, In p [0] <-> tr_has utA p os = true)).
Proof. exact sync_apart. Qed.
Print Assumptions C50_sync_one_moment_refuted.

(** The start of these executions; the scan for time 15 of a log with times 10, 20
    while records of times 1 and 2 are posted. *)
Example C50_ex_start : run (init 9092 []) u_start = (u_s0, u_A) /\ map rTs (tr_log utA 0 u_A) = [10; 20] /\ tr_wall u_A = 5.
Proof. split; [exact u_run|vm_compute; auto]. Qed.
Example C50_ex_scan : exists s B, urun u_s0 (UTime utA 0 15) u_scan = (s, UList 10 1, B) /\ zlen (tr_log utA 0 (u_A ++ B)) = 4.
Proof. exact scan_demo. Qed.
