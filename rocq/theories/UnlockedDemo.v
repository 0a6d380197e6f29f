(** * UnlockedDemo: executions for the examples of PropsUnlocked.v *)
From Verif Require Export UnlockedProofs.
From stdpp Require Import gmap list.
Open Scope Z_scope.
Open Scope list_scope.

Definition utA : bytes := str "a".
Definition utB : bytes := str "b".
Definition api (i n : nat) : list event := repeat (EvApi i) n.
Definition upost (i : nat) (t : bytes) (p ts : Z) : list event := EvCall (CallPost t p None None [] (Some ts)) :: api i 4.
(** Topic a with partition 0 and two records, at wall clock 5. *)
Definition u_start : list event := EvWall 5 :: upost 0 utA 0 10 ++ upost 1 utA 0 20.
Definition u_s0 : sys := fst (run (init 9092 []) u_start).
Definition u_A : list obs := snd (run (init 9092 []) u_start).
Lemma u_run : run (init 9092 []) u_start = (u_s0, u_A).
Proof. apply surjective_pairing. Qed.

(** The scan for time 15 while two records with earlier times are posted. *)
Definition u_scan : list uevent :=
  URead UGo :: map UServer (upost 2 utA 0 1) ++ URead UGo :: map UServer (upost 3 utA 0 2) ++ [URead UGo; URead UGo].
(** The clock is read, then it moves on and a record is posted, then the length. *)
Definition u_last : list uevent := URead UClock :: UServer (EvWall 9) :: map UServer (upost 2 utA 0 9) ++ [URead UGo].
(** SyncGroup: topic a is read; then partition 1 of it and topic b are made; then
    b is read. *)
Definition u_sync : list uevent :=
  [URead UGo; URead (UTopic utA); URead (UPart 0); URead UEnd] ++ map UServer (EvCall (CallCreate [utA] 1) :: api 2 3) ++
  map UServer (EvCall (CallCreate [utB] 0) :: api 3 3) ++ [URead (UTopic utB); URead (UPart 0); URead UEnd; URead UEnd].

Lemma urun_at s r es r' : snd (fst (urun s r es)) = r' -> urun s r es = (fst (fst (urun s r es)), r', snd (urun s r es)).
Proof. intros <-. now destruct (urun s r es) as [[? ?] ?]. Qed.
Definition one_moment (B : list obs) (P : list obs -> bool) : bool := existsb (fun n => P (u_A ++ firstn n B)) (seq 0 (S (length B))).
Lemma no_moment B (P : list obs -> Prop) (b : list obs -> bool) : (forall os, P os -> b os = true) -> one_moment B b = false -> ~ sometime u_A B P.
Proof.
  intros H E (B1 & [C ->] & HP). unfold one_moment in E. apply not_true_iff_false in E. apply E. apply existsb_exists.
  exists (length B1). split; [|rewrite firstn_app, Nat.sub_diag, firstn_all, app_nil_r; auto]. apply in_seq. rewrite app_length. lia.
Qed.
Lemma last_apart : exists s B, urun u_s0 (ULast utA 0 None None) u_last = (s, UList 5 3, B) /\
  ~ sometime u_A B (fun os => 5 = tr_wall os /\ 3 = zlen (tr_log utA 0 os)).
Proof.
  exists (fst (fst (urun u_s0 (ULast utA 0 None None) u_last))), (snd (urun u_s0 (ULast utA 0 None None) u_last)).
  split; [apply urun_at; vm_compute; reflexivity|].
  apply (no_moment _ _ (fun os => (5 =? tr_wall os) && (3 =? zlen (tr_log utA 0 os)))); [|vm_compute; reflexivity].
  intros os [<- <-]. reflexivity.
Qed.
Lemma sync_apart : exists s B, urun u_s0 USync u_sync = (s, UAssign [(utA, [0]); (utB, [0])], B) /\
  ~ sometime u_A B (fun os => (tr_topic utB os = true) /\ (forall p, In p [0] <-> tr_has utA p os = true)).
Proof.
  exists (fst (fst (urun u_s0 USync u_sync))), (snd (urun u_s0 USync u_sync)).
  split; [apply urun_at; vm_compute; reflexivity|].
  apply (no_moment _ _ (fun os => tr_topic utB os && negb (tr_has utA 1 os))); [|vm_compute; reflexivity].
  intros os [-> H]. destruct (tr_has utA 1 os) eqn:E; [|reflexivity]. apply H in E as [E|[]]. discriminate E.
Qed.
Lemma scan_demo : exists s B, urun u_s0 (UTime utA 0 15) u_scan = (s, UList 10 1, B) /\ zlen (tr_log utA 0 (u_A ++ B)) = 4.
Proof.
  exists (fst (fst (urun u_s0 (UTime utA 0 15) u_scan))), (snd (urun u_s0 (UTime utA 0 15) u_scan)).
  split; [apply urun_at|]; vm_compute; reflexivity.
Qed.
