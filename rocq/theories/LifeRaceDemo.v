(** * LifeRaceDemo: the executions used in the examples of PropsLifeRace.v *)
From Verif Require Export LifeFoot LifeDemo.
From stdpp Require Import gmap list.
Open Scope Z_scope.
Open Scope list_scope.

Ltac race_demo := cbn zeta; split; [apply st_tr|]; split; [discriminate|]; split; [vm_compute; reflexivity|];
  do 5 eexists; split; [vm_compute; reflexivity|]; split; [cbn; auto|]; split; [vm_compute; reflexivity|]; cbn; auto.
Definition cancel_events : list levent := LCall CStart :: go 0 4 ++ [LCall CFinish].
Definition lane_events : list levent := LCall CStart :: go 0 4 ++ [LCall CWait].
Definition listener_events : list levent := LCall CStart :: go 0 2 ++ LCall CStop :: go 1 3 ++ go 0 8 ++ go 1 1 ++ go 2 1.
Lemma race_cancel : lreach (st cancel_events) (tr cancel_events) /\ lraces (st cancel_events) 1 0 FCancel.
Proof. race_demo. Qed.
Lemma race_lane : lreach (st lane_events) (tr lane_events) /\ lraces (st lane_events) 1 0 FLane.
Proof. race_demo. Qed.
Lemma race_listener : lreach (st listener_events) (tr listener_events) /\ lraces (st listener_events) 1 2 FListener.
Proof. race_demo. Qed.
Lemma races_refuted :
  (exists s A, lreach s A /\ lraces s 1 0 FCancel /\ In (LBegin 1 CFinish) A /\ In (LBegin 0 CStart) A) /\
  (exists s A, lreach s A /\ lraces s 1 0 FLane /\ In (LBegin 1 CWait) A /\ In (LBegin 0 CStart) A) /\
  (exists s A, lreach s A /\ lraces s 1 2 FListener /\ In (LBegin 1 CStop) A /\ exists g r, lT s !! 2%nat = Some (Gor (KRun g) r)).
Proof.
  split; [|split].
  - exists (st cancel_events), (tr cancel_events). destruct race_cancel as [R H]. split; [exact R|]. split; [exact H|]. vm_compute. tauto.
  - exists (st lane_events), (tr lane_events). destruct race_lane as [R H]. split; [exact R|]. split; [exact H|]. vm_compute. tauto.
  - exists (st listener_events), (tr listener_events). destruct race_listener as [R H]. split; [exact R|]. split; [exact H|].
    split; [vm_compute; tauto|]. do 2 eexists. vm_compute. reflexivity.
Qed.
(** RequestStop of [stop_events] about to close the listener; the callback of the
    first connection about to remove its entry. *)
Definition closing_events : list levent := two_events ++ LCall CStop :: go 4 4.
Definition forget_events : list levent := ev_start ++ ev_conn ++ ev_conn ++ LRun 2 XEnd :: go 2 1.
Lemma foot_demo :
  (lreach (st closing_events) (tr closing_events) /\ (exists r, lT (st closing_events) !! 4%nat = Some (Gor (KCall CStop) (CloseL :: r))) /\
   ~ keeps FListener (lG (st closing_events)) (lG (fst (lstep (st closing_events) (LRun 4 XGo))))) /\
  (lreach (st forget_events) (tr forget_events) /\ (exists r, lT (st forget_events) !! 2%nat = Some (Gor (KClient 0 1) (Forget 0 :: r)) /\ untouched FListener (KClient 0 1) (Forget 0 :: r)) /\
   ~ keeps FClients (lG (st forget_events)) (lG (fst (lstep (st forget_events) (LRun 2 XGo)))) /\
   exists h2, same_but FListener (lG (st forget_events)) h2 /\ ~ keeps FListener (lG (st forget_events)) h2).
Proof.
  split; [split; [apply st_tr|]; split; [eexists; vm_compute; reflexivity|vm_compute; discriminate]|].
  split; [apply st_tr|]. split.
  { eexists. split; [vm_compute; reflexivity|]. intros f' w H. cbn in H. destruct H as [H|[H|[]]]; injection H as <- <-; split; try discriminate; intros [E|E]; discriminate E. }
  split; [vm_compute; discriminate|].
  exists (set_listener None (lG (st forget_events))). split; [|vm_compute; discriminate].
  split; [|vm_compute; repeat split]. intros []; [right; left; reflexivity|left; vm_compute; reflexivity..| ]. left. cbn [keeps]. unfold num. now destruct (lG (st forget_events)).
Qed.

(** Decides whether one call ends before the next begins. *)
Fixpoint begun_in (i : nat) (A : list lobs) : bool :=
  match A with [] => false | LBegin j _ :: A' => bool_decide (i = j) || begun_in i A' | _ :: A' => begun_in i A' end.
Fixpoint first_over (i j : nat) (A : list lobs) : bool :=
  match A with
  | [] => false
  | LReturn k :: A' => (bool_decide (i = k) && begun_in j A') || first_over i j A'
  | LPanic k _ :: A' => (bool_decide (i = k) && begun_in j A') || first_over i j A'
  | _ :: A' => first_over i j A'
  end.
Lemma begun_ok i A : begun_in i A = true -> exists c, In (LBegin i c) A.
Proof.
  induction A as [|a A IH]; [discriminate|]. intros H.
  assert (G : begun_in i A = true -> exists c, In (LBegin i c) (a :: A)) by (intros E; destruct (IH E) as [c Hc]; exists c; now right).
  destruct a; cbn in H; auto. apply orb_true_iff in H as [H|H]; [|auto]. apply bool_decide_eq_true in H as ->. eexists. left. reflexivity.
Qed.
Lemma first_ok i j A : first_over i j A = true -> before_call A i j.
Proof.
  induction A as [|a A IH]; [discriminate|]. intros H.
  assert (G : first_over i j A = true -> before_call (a :: A) i j).
  { intros E. destruct (IH E) as (c & [(B & C & -> & Hc)|(p & B & C & -> & Hc)]); exists c; [left|right; exists p]; exists (a :: B), C; auto. }
  destruct a; cbn in H; auto; apply orb_true_iff in H as [H|H]; auto; apply andb_true_iff in H as [H1 H2];
    apply bool_decide_eq_true in H1 as ->; apply begun_ok in H2 as [c Hc]; exists c; [left|right; eexists]; exists [], A; auto.
Qed.
Definition calls_in (A : list lobs) : list nat := omap (fun o => match o with LBegin i _ => Some i | _ => None end) A.
Lemma calls_ok A i c : In (LBegin i c) A -> In i (calls_in A).
Proof. intros H. apply elem_of_list_In, elem_of_list_omap. exists (LBegin i c). split; [now apply elem_of_list_In|reflexivity]. Qed.
Lemma in_turn A : forallb (fun i => forallb (fun j => bool_decide (i = j) || first_over i j A || first_over j i A) (calls_in A)) (calls_in A) = true ->
  forall a b, ~ overlap A a b.
Proof.
  intros H a b (Hne & (c & Ha) & (c' & Hb) & H1 & H2). rewrite forallb_forall in H. specialize (H _ (calls_ok _ _ _ Ha)). rewrite forallb_forall in H.
  specialize (H _ (calls_ok _ _ _ Hb)). apply orb_true_iff in H as [H|H]; [apply orb_true_iff in H as [H|H]|].
  - apply bool_decide_eq_true in H. contradiction.
  - apply H1. now apply first_ok.
  - apply H2. now apply first_ok.
Qed.
Lemma race_quiet : lreach (st full_events) (tr full_events) /\
  (exists i cl, In (LBegin i cl) (tr full_events) /\ cl = CRestart) /\
  (forall a b cb, In (LBegin b cb) (tr full_events) -> cb = CStart \/ cb = CRestart -> ~ overlap (tr full_events) a b).
Proof.
  split; [apply st_tr|]. split; [exists 6%nat, CRestart; split; [vm_compute; tauto|reflexivity]|].
  intros a b _ _ _. apply in_turn. vm_compute. reflexivity.
Qed.
