(** * LifeApi: what the calls have done when they return *)
From Verif Require Export LifePanics.
From stdpp Require Import gmap list.
From Coq Require Import ZifyBool.
Open Scope Z_scope.
Open Scope list_scope.

(** If goroutines get into codes with Q only when P, then Q implies P. *)
Lemma code_inv (Q : kind -> list op -> bool) (P : nat -> list lobs -> Prop) :
  (forall i A o, P i A -> P i (A ++ o)) ->
  (forall k, Q k (match k with KCall c => lcall_code c | KRun g => run_code g | KClient g _ => [Work g] end) = false) ->
  (forall k w c, Q k (Woken w :: c) = true -> Q k (Sleep w :: c) = true) ->
  (forall s A i k o c x h pre sp wk os, lreach s A -> lT s !! i = Some (Gor k (o :: c)) -> In (o :: c) (codes k) ->
     exec (lG s) i k o x = Next h pre sp wk os -> Q k (pre ++ c) = true -> Q k (o :: c) = true \/ P i (A ++ os)) ->
  (forall s A i k o c x pre p, lreach s A -> lT s !! i = Some (Gor k (o :: c)) -> In (o :: c) (codes k) ->
     exec (lG s) i k o x = Panics pre p -> Q k pre = true -> Q k (o :: c) = true \/ P i (A ++ [LPanic i p])) ->
  forall s A, lreach s A -> forall i k c, lT s !! i = Some (Gor k c) -> Q k c = true -> P i A.
Proof.
  intros Hm H0 Hw Hn Hp s A. revert s A.
  apply (lreach_ind (fun s A => forall i k c, lT s !! i = Some (Gor k c) -> Q k c = true -> P i A)); [intros i k c H; discriminate H|].
  intros s A e s' o R I IH H i k c Hi HQ.
  apply lstep_cases in H as [[-> ->]|[(p & -> & -> & _)|[(cl & -> & _ & -> & ->)|[(-> & _ & -> & ->)|(i0 & x & k0 & o' & c0 & -> & _ & Hi0 & [(h & pre & sp & wk & Hx & ->)|(pre & p & Hx & -> & ->)])]]]]; cbn [lT lG] in *; eauto.
  - apply lookup_call in Hi as [Hi|[-> E]]; [eauto|]. injection E as -> ->. specialize (H0 (KCall cl)). cbn in H0. congruence.
  - pose proof (v_codes s I _ _ Hi0) as Hc0. cbn [gCode gKind] in Hc0.
    apply (after_lookup _ _ _ _ _ _ _ _ Hi0) in Hi as [([kv cv] & Hv & Hne & Ek & Hwk)|[(-> & Ek & Hwk)|(m & -> & Hsp)]]; cbn [gKind gCode] in *.
    + subst kv. apply Hm. destruct Hwk as [[-> _]|(w & c' & -> & -> & ->)]; eauto.
    + subst k. assert (HQ' : Q k0 (pre ++ c0) = true) by (destruct Hwk as [[-> _]|(w & c' & -> & -> & ->)]; eauto).
      destruct (Hn _ _ _ _ _ _ _ _ _ _ _ _ R Hi0 Hc0 Hx HQ') as [?|?]; [|assumption]. apply Hm. eauto.
    + apply (exec_spawn _ _ _ _ _ _ _ _ _ _ _ _ Hx) in Hsp as [_ [(g' & _ & _ & E)|(g' & _ & E)]]; injection E as -> ->.
      * specialize (H0 (KRun g')). cbn in H0. congruence.
      * specialize (H0 (KClient g' (S (num g' (lG s))))). cbn in H0. congruence.
  - pose proof (v_codes s I _ _ Hi0) as Hc0. cbn [gCode gKind] in Hc0.
    apply (insert_cases _ _ _ _ _ _ Hi0) in Hi as [[_ Hi]|[-> E]]; [eauto|]. injection E as -> ->.
    destruct (Hp _ _ _ _ _ _ _ _ _ R Hi0 Hc0 Hx HQ) as [?|?]; [|assumption]. apply Hm. eauto.
Qed.
Global Instance kind_dec : EqDecision kind.
Proof. solve_decision. Defined.
Definition has (o : op) (c : list op) : bool := existsb (fun o' => bool_decide (o' = o)) c.
Definition panicked (A : list lobs) (i : nat) : Prop := exists p, In (LPanic i p) A.
Lemma in_mono {X} (x : X) A o : In x A -> In x (A ++ o).
Proof. intros; apply in_or_app; auto. Qed.
Lemma panicked_mono A o i : panicked A i -> panicked (A ++ o) i.
Proof. intros [p Hp]. exists p. now apply in_mono. Qed.
Lemma panicked_now A i p : panicked (A ++ [LPanic i p]) i.
Proof. exists p. apply in_elt. Qed.

Lemma started_up s A : lreach s A -> forall i k c, lT s !! i = Some (Gor k c) ->
  (match k with KCall CStart | KCall CRestart => negb (has SwapStarted c) | _ => false end) = true -> In (LUp i) A \/ panicked A i.
Proof.
  apply (code_inv (fun k c => match k with KCall CStart | KCall CRestart => negb (has SwapStarted c) | _ => false end) (fun i A => In (LUp i) A \/ panicked A i)).
  - intros i B o [H|H]; [left; now apply in_mono|right; now apply panicked_mono].
  - intros [[]| |]; reflexivity.
  - intros [[]| |] w c H; exact H.
  - intros s0 B i k o c x h pre sp wk os R Hi Hc Hx HQ.
    destruct o; cbn in Hx; exec_cases Hx k; injection Hx as <- <- <- <- <-; auto; try (destruct k as [[]| |]; try discriminate HQ; auto; left; cbn in HQ |- *; rewrite ?HQ; auto; fail).
    destruct k as [[]| |]; try discriminate HQ; right; left; apply in_elt.
  - intros. right. right. apply panicked_now.
Qed.
Lemma finish_cancel s A : lreach s A -> forall i k c, lT s !! i = Some (Gor k c) ->
  (match k with KCall CFinish => negb (has CancelFn c) | _ => false end) = true -> (exists g, In (LCancel i g) A) \/ panicked A i.
Proof.
  apply (code_inv (fun k c => match k with KCall CFinish => negb (has CancelFn c) | _ => false end) (fun i A => (exists g, In (LCancel i g) A) \/ panicked A i)).
  - intros i B o [[g H]|H]; [left; exists g; now apply in_mono|right; now apply panicked_mono].
  - intros [[]| |]; reflexivity.
  - intros [[]| |] w c H; exact H.
  - intros s0 B i k o c x h pre sp wk os R Hi Hc Hx HQ.
    destruct o; cbn in Hx; exec_cases Hx k; injection Hx as <- <- <- <- <-; auto; try (destruct k as [[]| |]; try discriminate HQ; auto; left; cbn in HQ |- *; rewrite ?HQ; auto; fail).
    right. left. eexists. apply in_elt.
  - intros. right. right. apply panicked_now.
Qed.
Lemma wait_free s A : lreach s A -> forall i k c, lT s !! i = Some (Gor k c) ->
  (match k with KCall CWait | KCall CRestart => negb (to_wait c) | _ => false end) = true -> In (LFree i) A \/ panicked A i.
Proof.
  apply (code_inv (fun k c => match k with KCall CWait | KCall CRestart => negb (to_wait c) | _ => false end) (fun i A => In (LFree i) A \/ panicked A i)).
  - intros i B o [H|H]; [left; now apply in_mono|right; now apply panicked_mono].
  - intros [[]| |]; reflexivity.
  - intros [[]| |] w c H; destruct w; exact H.
  - intros s0 B i k o c x h pre sp wk os R Hi Hc Hx HQ.
    destruct o; cbn in Hx; exec_cases Hx k; injection Hx as <- <- <- <- <-; auto; try destruct w; try (destruct k as [[]| |]; try discriminate HQ; auto; left; cbn in HQ |- *; rewrite ?HQ; auto; fail);
      try (right; left; apply in_elt).
  - intros. right. right. apply panicked_now.
Qed.
(** Only a RequestStop that set [stopped] goes on to close the listener. *)
Lemma stopper s A : lreach s A -> forall i k c, lT s !! i = Some (Gor k c) ->
  (match k with KCall CFinish => false | _ => has LoadStarted c || has CloseL c || has CancelFn c end) = true -> In (LStop i) A.
Proof.
  apply (code_inv (fun k c => match k with KCall CFinish => false | _ => has LoadStarted c || has CloseL c || has CancelFn c end) (fun i A => In (LStop i) A)).
  - intros i B o H. now apply in_mono.
  - intros [[]| |]; reflexivity.
  - intros [[]| |] w c H; exact H.
  - intros s0 B i k o c x h pre sp wk os R Hi Hc Hx HQ.
    destruct o; cbn in Hx; exec_cases Hx k; injection Hx as <- <- <- <- <-; auto;
      try (left; destruct k as [[]| |]; auto; try discriminate HQ; cbn in HQ |- *; rewrite ?HQ; auto; rewrite ?orb_true_r; auto; fail).
    right. apply in_elt.
  - intros s0 B i k o c x pre p R Hi Hc Hx HQ. exfalso. destruct (panic_call _ _ _ _ _ _ _ Hx) as [cl ->].
    destruct o; cbn in Hx; exec_cases Hx (KCall cl); injection Hx as <- <-; destruct cl; discriminate HQ.
Qed.

(** ** [stopped] *)
Fixpoint stop_from (b : bool) (A : list lobs) : bool :=
  match A with
  | [] => b
  | LStop _ :: A' => stop_from true A'
  | LReset _ :: A' => stop_from false A'
  | _ :: A' => stop_from b A'
  end.
Lemma stop_from_app A B : forall b, stop_from b (A ++ B) = stop_from (stop_from b A) B.
Proof. induction A as [|[] A IH]; intros b; cbn; auto. Qed.
Lemma stopped_trace s A : lreach s A -> hStopped (lG s) = stop_from false A.
Proof.
  revert s A. apply (lreach_ind (fun s A => hStopped (lG s) = stop_from false A)); [reflexivity|].
  intros s A e s' o R I IH H. rewrite stop_from_app, <- IH.
  apply lstep_cases in H as [[-> ->]|[(p & -> & -> & _)|[(cl & -> & _ & -> & ->)|[(-> & _ & -> & ->)|(i0 & x & k & o' & c0 & -> & _ & Hi0 & [(h & pre & sp & wk & Hx & ->)|(pre & p & Hx & -> & ->)])]]]]; cbn [lT lG] in *; try reflexivity.
  - now destruct (lG s).
  - destruct (lG s). destruct o'; cbn in Hx; exec_cases Hx k; injection Hx as <- <- <- <- <-; try destruct w; cbn in *; congruence.
Qed.
Lemma stop_from_keep A : forall b, (forall i, ~ In (LReset i) A) -> b = true -> stop_from b A = true.
Proof.
  induction A as [|o A IH]; intros b H Hb; [assumption|]. assert (forall i, ~ In (LReset i) A) by (intros i Hi; apply (H i); right; assumption).
  destruct o; cbn; auto. exfalso. apply (H i). left. reflexivity.
Qed.
Lemma not_reset A : (forall i, ~ In (LReset i) A) \/ exists i, In (LReset i) A.
Proof.
  induction A as [|o A [IH|[i IH]]]; [left; intros i []| |right; exists i; right; assumption].
  destruct o; try (left; intros j [E|Hj]; [discriminate E|now apply (IH j)]). right. exists i. left. reflexivity.
Qed.
Lemma stop_step_false s e s' i : lstep s e = (s', [LStop i]) -> hStopped (lG s) = false.
Proof.
  intros H. apply lstep_cases in H as [[_ E]|[(p' & _ & E & _)|[(cl & _ & _ & _ & E)|[(_ & _ & _ & E)|(i0 & x & k & o' & c0 & _ & _ & Hi & [(h & pre & sp & wk & Hx & _)|(pre & p' & Hx & _ & E)])]]]]; try discriminate E.
  destruct o'; cbn in Hx; exec_cases Hx k; injection Hx; intros; try discriminate. first [assumption|reflexivity].
Qed.
(** RequestStop has an effect at most once per Start. *)
Theorem stop_once s A B i M j C : lreach s A -> A = B ++ LStop i :: M ++ LStop j :: C -> exists k, In (LReset k) M.
Proof.
  intros R E. destruct (not_reset M) as [Hn|?]; [|assumption]. exfalso.
  replace (B ++ LStop i :: M ++ LStop j :: C) with ((B ++ LStop i :: M) ++ LStop j :: C) in E by now rewrite <- app_assoc.
  destruct (lobs_split _ _ _ _ _ R E) as (s1 & e & s2 & R1 & H). apply stop_step_false in H. rewrite (stopped_trace _ _ R1), stop_from_app in H. cbn in H.
  now rewrite stop_from_keep in H.
Qed.
(** Only a RequestStop that had that effect touches the server. *)
Lemma op_of_obs s e s' x : lstep s e = (s', [x]) ->
  match x with
  | LClose i g => exists k c, lT s !! i = Some (Gor k (CloseL :: c)) /\ hListener (lG s) = Some g
  | LCancel i g => exists k c, lT s !! i = Some (Gor k (CancelFn :: c)) /\ hLane (lG s) = Some g
  | LReturn i => exists k c, lT s !! i = Some (Gor k (Ret :: c))
  | _ => True
  end.
Proof.
  intros H. apply lstep_cases in H as [[_ E]|[(p' & _ & E & _)|[(cl & _ & _ & _ & E)|[(_ & _ & _ & E)|(i0 & x' & k & o' & c0 & _ & _ & Hi & [(h & pre & sp & wk & Hx & _)|(pre & p' & Hx & _ & E)])]]]]; try discriminate E; try (injection E as ->; exact Logic.I).
  destruct o'; cbn in Hx; exec_cases Hx k; injection Hx; intros; subst x || discriminate; eauto.
Qed.
Theorem stop_touches s A B x C : lreach s A -> A = B ++ x :: C ->
  match x with
  | LClose i g => In (LStop i) B
  | LCancel i g => In (LStop i) B \/ In (LBegin i CFinish) B
  | _ => True
  end.
Proof.
  intros R E. destruct (lobs_split _ _ _ _ _ R E) as (s1 & e & s2 & R1 & H). apply op_of_obs in H. destruct x; try exact Logic.I.
  - destruct H as (k & c & Hi & _). pose proof (v_codes s1 (lreach_inv _ _ R1) _ _ Hi) as Hc. cbn [gKind gCode] in Hc.
    apply (stopper _ _ R1 _ _ _ Hi). destruct k as [[]| |]; cbn; rewrite ?orb_true_r; try reflexivity. exfalso. cbn in Hc. repeat destruct Hc as [Hc|Hc]; try discriminate Hc; contradiction.
  - destruct H as (k & c & Hi & _). destruct (decide (k = KCall CFinish)) as [->|Hne]; [right; eapply thread_begin; eassumption|].
    left. apply (stopper _ _ R1 _ _ _ Hi). destruct k as [[]| |]; cbn; rewrite ?orb_true_r; try reflexivity. contradiction.
Qed.

(** ** Returns *)
Lemma return_at s A B i C cl : lreach s A -> A = B ++ LReturn i :: C -> In (LBegin i cl) B ->
  exists s1 c, lreach s1 B /\ lT s1 !! i = Some (Gor (KCall cl) (Ret :: c)) /\ ~ panicked B i.
Proof.
  intros R E Hb. destruct (lobs_split _ _ _ _ _ R E) as (s1 & e & s2 & R1 & H). apply op_of_obs in H as (k & c & Hi).
  destruct (begin_thread _ _ R1 _ _ Hb) as [code Hc]. rewrite Hi in Hc. injection Hc as -> <-. exists s1, c. do 2 (split; [assumption|]).
  intros [p Hp]. destruct (panic_thread _ _ R1 _ _ Hp) as (cl' & code & Hi' & He). rewrite Hi in Hi'. injection Hi' as <- <-. discriminate He.
Qed.
Theorem start_returns s A B i C : lreach s A -> A = B ++ LReturn i :: C -> In (LBegin i CStart) B \/ In (LBegin i CRestart) B -> In (LUp i) B.
Proof.
  intros R E [Hb|Hb]; destruct (return_at _ _ _ _ _ _ R E Hb) as (s1 & c & R1 & Hi & Hn);
   pose proof (codes_ret _ _ (v_codes s1 (lreach_inv _ _ R1) _ _ Hi)) as ->; destruct (started_up _ _ R1 _ _ _ Hi eq_refl); auto; contradiction.
Qed.
Theorem finish_returns s A B i C : lreach s A -> A = B ++ LReturn i :: C -> In (LBegin i CFinish) B -> exists g, In (LCancel i g) B.
Proof.
  intros R E Hb; destruct (return_at _ _ _ _ _ _ R E Hb) as (s1 & c & R1 & Hi & Hn);
   pose proof (codes_ret _ _ (v_codes s1 (lreach_inv _ _ R1) _ _ Hi)) as ->; destruct (finish_cancel _ _ R1 _ _ _ Hi eq_refl); auto; contradiction.
Qed.
Theorem wait_returns s A B i C : lreach s A -> A = B ++ LReturn i :: C -> In (LBegin i CWait) B ->
  In (LFree i) B /\ ((exists j, start_overlaps B i j) \/ (up B = false /\ all_gone B /\ all_down B)).
Proof.
  intros R E Hb; destruct (return_at _ _ _ _ _ _ R E Hb) as (s1 & c & R1 & Hi & Hn);
   pose proof (codes_ret _ _ (v_codes s1 (lreach_inv _ _ R1) _ _ Hi)) as ->. split; [destruct (wait_free _ _ R1 _ _ _ Hi eq_refl); auto; contradiction|].
  destruct (calm_or _ _ R1 _ _ Hi) as [[_ Hc]|?]; [|auto]. right. cbn in Hc. specialize (Hc eq_refl). rewrite (up_started _ _ R1) in Hc. split; [assumption|]. now apply (down_all s1).
Qed.

(** ** Before the first Start *)
Definition early (t : gor) : Prop :=
  match gKind t with
  | KCall CStop => In (gCode t) [[SwapStopped; Ret]; [LoadStarted; Ret]; [Ret]; []]
  | KCall CWait => In (gCode t) [[Wait WWg; SwapStopped; Ret]; [SwapStopped; Ret]; [LoadStarted; Ret]; [Ret]; []]
  | KCall CFinish => In (gCode t) [[CancelFn; Ret]; []]
  | _ => False
  end.
Definition no_start (A : list lobs) : Prop := forall i, ~ In (LBegin i CStart) A /\ ~ In (LBegin i CRestart) A.
Definition quiet_obs (x : lobs) : Prop :=
  match x with LBegin _ _ | LReturn _ | LPanic _ PNil | LStop _ | LFree _ => True | _ => False end.
Lemma no_start_app A o : no_start (A ++ o) -> no_start A.
Proof. intros H i. split; intros Hi; [apply (proj1 (H i))|apply (proj2 (H i))]; now apply in_mono. Qed.
Lemma early_inv s A : lreach s A -> no_start A ->
  (exists sp pa, lG s = Glob false sp None 0 0 0 None ∅ None ∅ pa 0 ∅ ∅) /\ lCrash s = false /\ (forall i t, lT s !! i = Some t -> early t) /\ Forall quiet_obs A.
Proof.
  revert s A. apply (lreach_ind (fun s A => no_start A -> (exists sp pa, lG s = Glob false sp None 0 0 0 None ∅ None ∅ pa 0 ∅ ∅) /\ lCrash s = false /\ (forall i t, lT s !! i = Some t -> early t) /\ Forall quiet_obs A)).
  { intros _. split; [exists false, false; reflexivity|]. split; [reflexivity|]. split; [intros i t H; discriminate H|constructor]. }
  intros s A e s' o R I IH H Hno. destruct (IH (no_start_app _ _ Hno)) as ((sp & pa & Hg) & Hcr & Ht & Hq). clear IH.
  apply lstep_cases in H as [[-> ->]|[(p & -> & -> & _ & (i & x & k & o' & c & _ & Hi & Hx))|[(cl & -> & _ & -> & ->)|[(-> & _ & -> & ->)|(i0 & x & k & o' & c0 & -> & _ & Hi0 & [(h & pre & spw & wk & Hx & ->)|(pre & p & Hx & -> & ->)])]]]]; cbn [lT lG lCrash] in *.
  - rewrite app_nil_r. eauto 10.
  - exfalso. specialize (Ht _ _ Hi). destruct k as [[]| |]; try contradiction; cbn in Ht; repeat destruct Ht as [E|Ht]; try discriminate E; try contradiction; injection E as <- <-; rewrite Hg in Hx; cbn in Hx; try destruct sp; discriminate Hx.
  - split; [eauto|]. split; [reflexivity|]. split; [|apply Forall_app; split; [assumption|repeat constructor]].
    intros i t Hi. apply lookup_call in Hi as [Hi|[-> ->]]; [eauto|]. destruct cl; cbn; auto.
    + apply (proj1 (Hno (length (lT s)))). apply in_elt.
    + apply (proj2 (Hno (length (lT s)))). apply in_elt.
  - rewrite app_nil_r. rewrite Hg. cbn. eauto 10.
  - pose proof (Ht _ _ Hi0) as He. assert (Hr : (exists sp', h = Glob false sp' None 0 0 0 None ∅ None ∅ pa 0 ∅ ∅) /\ spw = [] /\ wk = None /\ early (Gor k (pre ++ c0)) /\ Forall quiet_obs o).
    { destruct k as [[]| |]; try contradiction; cbn in He; repeat destruct He as [E|He]; try discriminate E; try contradiction; injection E as <- <-; rewrite Hg in Hx; cbn in Hx; try destruct sp; try discriminate Hx; injection Hx as <- <- <- <- <-;
        (split; [eexists; reflexivity|]); do 2 (split; [reflexivity|]); (split; [cbn; tauto|repeat constructor]). }
    destruct Hr as ((sp' & ->) & -> & -> & Hc & Ho). split; [eauto|]. split; [reflexivity|]. split; [|now apply Forall_app].
    intros i t Hi. rewrite app_nil_r in Hi. cbn [wake] in Hi. apply (insert_cases _ _ _ _ _ _ Hi0) in Hi as [[_ Hi]|[-> ->]]; eauto.
  - pose proof (Ht _ _ Hi0) as He. assert (Hr : early (Gor k pre) /\ p = PNil).
    { destruct k as [[]| |]; try contradiction; cbn in He; repeat destruct He as [E|He]; try discriminate E; try contradiction; injection E as <- <-; rewrite Hg in Hx; cbn in Hx; try destruct sp; try discriminate Hx; injection Hx as <- <-; (split; [cbn; tauto|reflexivity]). }
    destruct Hr as [Hc ->]. split; [eauto|]. split; [reflexivity|]. split; [|apply Forall_app; split; [assumption|repeat constructor]].
    intros i t Hi. apply (insert_cases _ _ _ _ _ _ Hi0) in Hi as [[_ Hi]|[-> ->]]; eauto.
Qed.
(** A goroutine that runs alone, when its next operations wake and spawn nothing. *)
Lemma lone_step s i k o c x h pre os : lCrash s = false -> lT s !! i = Some (Gor k (o :: c)) -> exec (lG s) i k o x = Next h pre [] None os ->
  lstep s (LRun i x) = (LSys h (<[i := Gor k (pre ++ c)]> (lT s)) false, os).
Proof. intros Hc Hi Hx. unfold lstep. rewrite Hc, Hi, Hx. cbn [wake]. now rewrite app_nil_r. Qed.
Lemma lone_run s i k o c x h pre os es : lCrash s = false -> lT s !! i = Some (Gor k (o :: c)) -> exec (lG s) i k o x = Next h pre [] None os ->
  let s1 := LSys h (<[i := Gor k (pre ++ c)]> (lT s)) false in
  lrun s (LRun i x :: es) = (fst (lrun s1 es), os ++ snd (lrun s1 es)) /\ lT s1 !! i = Some (Gor k (pre ++ c)).
Proof.
  intros Hc Hi Hx s1. split; [|apply list_lookup_insert; eapply lookup_lt_Some; eassumption].
  cbn [lrun]. rewrite (lone_step _ _ _ _ _ _ _ _ _ Hc Hi Hx). fold s1. now destruct (lrun s1 es).
Qed.
Lemma lrun_ret s i k c es : lCrash s = false -> lT s !! i = Some (Gor k (Ret :: c)) -> In (LReturn i) (snd (lrun s (LRun i XGo :: es))).
Proof.
  intros Hc Hi. destruct (lone_run s i k Ret c XGo (lG s) [] [LReturn i] es Hc Hi eq_refl) as [E _]. cbn beta in E. rewrite E. left. reflexivity.
Qed.
Lemma call_over s A : lreach s A -> forall i k c, lT s !! i = Some (Gor k c) ->
  (match k with KCall _ => bool_decide (c = []) || bool_decide (c = [Unlock]) | _ => false end) = true -> In (LReturn i) A \/ panicked A i.
Proof.
  apply (code_inv (fun k c => match k with KCall _ => bool_decide (c = []) || bool_decide (c = [Unlock]) | _ => false end) (fun i A => In (LReturn i) A \/ panicked A i)).
  - intros j B o [H|H]; [left; now apply in_mono|right; now apply panicked_mono].
  - intros [[]| |]; reflexivity.
  - intros [cl|g|g n] w c H; try discriminate H.
  - intros s0 B j k0 o c x h pre sp0 wk os _ _ Hc Hx HQ. destruct k0 as [cl| |]; try discriminate HQ. cbn [codes] in Hc.
    apply (call_check (fun c => match c with [Ret] | [Unlock] => true | [_] => false | [_; Unlock] => false | _ => true end)) in Hc; [|intros []; vm_compute; reflexivity].
    destruct o; cbn in Hx; exec_cases Hx (KCall cl); injection Hx as <- <- <- <- <-; destruct c as [|o1 [|o2 c]]; try discriminate HQ; try discriminate Hc; try (destruct o1; discriminate || discriminate HQ); auto; try (left; reflexivity); try (right; left; apply in_elt).
  - intros. right. right. apply panicked_now.
Qed.
Theorem early_returns s A i : lreach s A -> no_start A -> In (LBegin i CStop) A \/ In (LBegin i CWait) A ->
  In (LReturn i) (A ++ snd (lrun s (repeat (LRun i XGo) 4))).
Proof.
  intros R Hno Hb. destruct (early_inv _ _ R Hno) as ((sp & pa & Hg) & Hcr & Ht & Hq).
  assert (Hi : exists k c, lT s !! i = Some (Gor k c) /\ (k = KCall CStop \/ k = KCall CWait)) by (destruct Hb as [Hb|Hb]; destruct (begin_thread _ _ R _ _ Hb); eauto).
  destruct Hi as (k & c & Hi & Hk). pose proof (Ht _ _ Hi) as He.
  assert (Hin : In c [[Wait WWg; SwapStopped; Ret]; [SwapStopped; Ret]; [LoadStarted; Ret]; [Ret]; []]) by (destruct Hk as [->| ->]; cbn in He |- *; tauto).
  clear He Hk. apply in_or_app.
  assert (H1 : forall s sp n, lG s = Glob false sp None 0 0 0 None ∅ None ∅ pa 0 ∅ ∅ -> lCrash s = false -> lT s !! i = Some (Gor k [LoadStarted; Ret]) -> (2 <= n)%nat -> In (LReturn i) (snd (lrun s (repeat (LRun i XGo) n)))).
  { clear. intros s sp n Hg Hc Hi Hn. destruct n as [|[|n]]; try lia. cbn [repeat].
    destruct (lone_run s i k LoadStarted [Ret] XGo (lG s) [] [] (LRun i XGo :: repeat (LRun i XGo) n) Hc Hi) as [E Hi2]; [rewrite Hg; reflexivity|]. rewrite E. cbn [snd app]. eapply lrun_ret; [|exact Hi2]. reflexivity. }
  assert (H2 : forall s sp n, lG s = Glob false sp None 0 0 0 None ∅ None ∅ pa 0 ∅ ∅ -> lCrash s = false -> lT s !! i = Some (Gor k [SwapStopped; Ret]) -> (3 <= n)%nat -> In (LReturn i) (snd (lrun s (repeat (LRun i XGo) n)))).
  { clear -H1. intros s sp n Hg Hc Hi Hn. destruct n as [|[|n]]; try lia. destruct sp.
    - cbn [repeat]. destruct (lone_run s i k SwapStopped [Ret] XGo (lG s) [] [] (LRun i XGo :: repeat (LRun i XGo) n) Hc Hi) as [E Hi2]; [rewrite Hg; reflexivity|]. rewrite E. cbn [snd app]. eapply lrun_ret; [|exact Hi2]. reflexivity.
    - change (repeat (LRun i XGo) (S (S n))) with (LRun i XGo :: repeat (LRun i XGo) (S n)). destruct (lone_run s i k SwapStopped [Ret] XGo (set_stopped true (lG s)) [LoadStarted] [LStop i] (repeat (LRun i XGo) (S n)) Hc Hi) as [E Hi2]; [rewrite Hg; reflexivity|]. rewrite E. cbn [snd app].
      right. eapply H1; [rewrite Hg; reflexivity|reflexivity|exact Hi2|lia]. }
  cbn in Hin. repeat destruct Hin as [<-|Hin]; [| | | | |contradiction].
  - right. change (repeat (LRun i XGo) 4) with (LRun i XGo :: repeat (LRun i XGo) 3).
    destruct (lone_run s i k (Wait WWg) [SwapStopped; Ret] XGo (lG s) [] [LFree i] (repeat (LRun i XGo) 3) Hcr Hi) as [E Hi2]; [rewrite Hg; reflexivity|]. rewrite E. right. eapply H2; [exact Hg|reflexivity|exact Hi2|lia].
  - right. eapply H2; eauto.
  - right. eapply H1; eauto.
  - right. eapply lrun_ret; eauto.
  - left.
    destruct (call_over _ _ R _ _ _ Hi) as [?|[p Hp]]; [destruct Hb as [Hb|Hb]; destruct (begin_thread _ _ R _ _ Hb) as [c0 Hc0]; rewrite Hi in Hc0; injection Hc0 as -> _; reflexivity|assumption|].
    exfalso. apply in_split in Hp as (B & C & E). assert (Hb' : In (LBegin i CStop) B \/ In (LBegin i CWait) B).
    { destruct (lobs_split _ _ _ _ _ R E) as (s1 & e & s2 & R1 & H). apply panic_step in H as (x & k1 & o1 & c1 & pre & Hi1 & Hx1). destruct (panic_call _ _ _ _ _ _ _ Hx1) as [cl ->].
      pose proof (thread_begin _ _ R1 _ _ _ Hi1) as Hb1. assert (Hb2 : In (LBegin i cl) A) by (rewrite E; now apply in_mono).
      destruct (begin_thread _ _ R _ _ Hb2) as [? Hq1]. destruct Hb as [Hb|Hb]; destruct (begin_thread _ _ R _ _ Hb) as [? Hq2]; rewrite Hq1 in Hq2; injection Hq2 as -> _; auto. }
    assert (Hov : exists j, start_overlaps B i j) by (destruct Hb' as [Hb'|Hb']; eapply (stop_panics _ _ _ _ _ _ _ R E Hb'); auto).
    destruct Hov as (j & _ & [Hj|Hj] & _); destruct (Hno j) as [N1 N2]; [apply N1|apply N2]; rewrite E; now apply in_mono.
Qed.
Lemma lone_cons s e es s1 o1 h o2 : lstep s e = (s1, o1) -> (exists ts, lrun s1 es = (LSys h ts false, o2)) -> exists ts, lrun s (e :: es) = (LSys h ts false, o1 ++ o2).
Proof. intros H [ts E]. exists ts. cbn [lrun]. now rewrite H, E. Qed.
Lemma lone_spawn s i k o c x h pre sp os : lCrash s = false -> lT s !! i = Some (Gor k (o :: c)) -> exec (lG s) i k o x = Next h pre sp None os ->
  lstep s (LRun i x) = (LSys h (<[i := Gor k (pre ++ c)]> (lT s) ++ sp) false, os).
Proof. intros Hc Hi Hx. unfold lstep. rewrite Hc, Hi, Hx. reflexivity. Qed.
Definition start_alone (n : nat) : list levent := LCall CStart :: repeat (LRun n XGo) 10.
Lemma start_run ts sp : exists ts',
  lrun (LSys (Glob false sp None 0 0 0 None ∅ None ∅ false 0 ∅ ∅) ts false) (start_alone (length ts)) =
  (LSys (Glob true false None 1 1 0 None ∅ (Some 0%nat) ∅ false 1 ∅ ∅) ts' false,
   [LBegin (length ts) CStart; LUp (length ts); LFresh (length ts); LReset (length ts); LLane (length ts) 0; LReturn (length ts)]).
Proof.
  unfold start_alone. set (n := length ts). eapply (lone_cons _ _ _ _ [_]); [reflexivity|]. cbn [lT lG repeat].
  set (T0 := ts ++ [Gor (KCall CStart) (lcall_code CStart)]).
  assert (Hn : T0 !! n = Some (Gor (KCall CStart) (lcall_code CStart))) by (unfold T0, n; rewrite lookup_app_r, Nat.sub_diag by lia; reflexivity).
  clearbody T0. fold n. clearbody n. clear ts. unfold lcall_code, start_code in Hn. cbn [app] in Hn.
  Ltac alone T n Hn T' := 
    match goal with |- exists ts, _ = (_, ?l) => first [eapply (lone_cons _ _ _ _ [] _ l); [eapply lone_spawn; [reflexivity|exact Hn|reflexivity]|] | eapply (lone_cons _ _ _ _ [_] _ (tl l)); [eapply lone_spawn; [reflexivity|exact Hn|reflexivity]|]] end; cbn [app tl];
    match goal with |- context [lrun (LSys _ ?X _) _] => set (T' := X) end;
    match goal with T' := ?X |- _ => let H := fresh in assert (H : T' !! n = (<[n := _]> T) !! n) by (unfold T'; rewrite ?app_nil_r; rewrite ?lookup_app_l by (rewrite insert_length; eapply lookup_lt_Some; exact Hn); reflexivity);
      rewrite list_lookup_insert in H by (eapply lookup_lt_Some; exact Hn); clearbody T'; clear Hn; rename H into Hn end.
  alone T0 n Hn T1. alone T1 n Hn T2. alone T2 n Hn T3. alone T3 n Hn T4. alone T4 n Hn T5. alone T5 n Hn T6. alone T6 n Hn T7. alone T7 n Hn T8. alone T8 n Hn T9. alone T9 n Hn T10.
  eexists. reflexivity.
Qed.
(** A Start after such calls does what it does on a new mock. *)
Theorem early_start s A : lreach s A -> no_start A -> hParent (lG s) = false ->
  lG (fst (lrun s (start_alone (length (lT s))))) = lG (fst (lrun linit (start_alone 0))) /\ In (LReturn (length (lT s))) (snd (lrun s (start_alone (length (lT s))))).
Proof.
  intros R Hno Hp. destruct (early_inv _ _ R Hno) as ((sp & pa & Hg) & Hcr & _ & _). destruct s as [h ts cr]. cbn [lG lT lCrash] in *. subst h cr. cbn in Hp. subst pa.
  destruct (start_run ts sp) as [ts' ->]. cbn [fst snd lG]. split; [vm_compute; reflexivity|]. cbn. tauto.
Qed.

(** ** Counters *)
Definition number (P : gor -> bool) (ts : list gor) : Z := Z.of_nat (length (List.filter P ts)).
Lemma number_cons P t ts : number P (t :: ts) = b2z (P t) + number P ts.
Proof. unfold number. cbn. destruct (P t); cbn [length b2z]; lia. Qed.
Lemma counters s A : lreach s A -> hMu (lG s) = None ->
  hAct (lG s) = number client_live (lT s) /\ hWg (lG s) = number client_live (lT s) + number run_live (lT s).
Proof.
  intros R Hm. pose proof (lreach_inv _ _ R) as I.
  assert (H : forall i t, lT s !! i = Some t -> wt w_act (gCode t) = b2z (client_live t) /\ wt w_wg (gCode t) = b2z (client_live t) + b2z (run_live t)).
  { intros i t Hi. pose proof (v_codes s I _ _ Hi) as Hc. assert (Hcs : in_cs (gCode t) = false).
    { destruct (in_cs (gCode t)) eqn:Ec; [|reflexivity]. apply (v_mu s I _ _ Hi) in Ec. congruence. }
    destruct t as [[cl|g|g n] c]; cbn [gCode gKind codes] in *; unfold client_live, run_live; cbn [gKind gCode].
    - apply (call_check (fun c => in_cs c || (wt w_act c =? 0) && (wt w_wg c =? 0))) in Hc; [|intros []; vm_compute; reflexivity]. rewrite Hcs in Hc. cbn [orb b2z] in *. lia.
    - cbn in Hc. repeat destruct Hc as [<-|Hc]; try contradiction; try discriminate Hcs; cbn; auto.
    - cbn in Hc. repeat destruct Hc as [<-|Hc]; try contradiction; try discriminate Hcs; cbn; auto. }
  change (hAct (lG s)) with (count WAct (lG s)). change (hWg (lG s)) with (count WWg (lG s)). rewrite !(v_cnt s I). cbn [weigh].
  clear -H. induction (lT s) as [|t ts IH]; [split; reflexivity|]. rewrite !number_cons. cbn [tot]. destruct (H 0%nat t eq_refl) as [-> ->].
  destruct IH as [-> ->]; [intros i u Hu; apply (H (S i) u Hu)|]. lia.
Qed.
