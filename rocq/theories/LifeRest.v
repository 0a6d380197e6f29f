(** * LifeRest: bounded work, no deadlock, the stop that wins *)
From Verif Require Export LifeLive.
From stdpp Require Import gmap list.
From Coq Require Import ZifyBool.
Open Scope Z_scope.
Open Scope list_scope.

(** ** Every step but a connection or a call uses up some work *)
Definition pot_op (o : op) : Z :=
  match o with
  | Wait _ => 3 | Sleep _ => 2 | Woken _ => 1 | SwapStarted => 2 | Work _ => 7 | Accept _ => 7 | Register _ => 8
  | CheckLane _ => 20 | GoRun => 11 | LoadStarted => 8 | SwapStopped => 9 | _ => 1
  end.
Definition pot (s : lsys) : Z := if lCrash s then 0 else 1 + tot pot_op (lT s).
Lemma pot_op_pos o : 1 <= pot_op o.
Proof. destruct o; cbn; lia. Qed.
Lemma pot_code c : 0 <= wt pot_op c.
Proof. induction c as [|o c IH]; cbn; [lia|]. pose proof (pot_op_pos o). lia. Qed.
Lemma pot_tot ts : 0 <= tot pot_op ts.
Proof. induction ts as [|t ts IH]; cbn; [lia|]. pose proof (pot_code (gCode t)). lia. Qed.
Lemma pot_nonneg s : 0 <= pot s.
Proof. unfold pot. destruct (lCrash s); [lia|]. pose proof (pot_tot (lT s)). lia. Qed.
Lemma pot_wake wk ts : tot pot_op (wake wk ts) <= tot pot_op ts.
Proof.
  destruct wk as [w|]; cbn [wake]; [|lia]. induction ts as [|t ts IH]; cbn [map tot]; [lia|].
  assert (wt pot_op (gCode (wake1 w t)) <= wt pot_op (gCode t)); [|lia].
  unfold wake1. destruct (gCode t) as [|[] c] eqn:E; try (rewrite E; lia). case_decide; cbn; [|rewrite E; cbn]; lia.
Qed.
Lemma exec_pot h i k o x h' pre sp wk os : exec h i k o x = Next h' pre sp wk os ->
  wt pot_op pre + tot pot_op sp + 1 <= pot_op o + (if match x with XConn => true | _ => false end then 14 else 0).
Proof. intros H. destruct o; cbn in H; exec_cases H k; injection H as <- <- <- <- <-; cbn; try lia; destruct x; lia. Qed.
Lemma exec_pot_panic h i k o x pre p : exec h i k o x = Panics pre p -> wt pot_op pre + 1 <= pot_op o.
Proof. intros H. destruct o; cbn in H; exec_cases H k; injection H as <- <-; cbn; lia. Qed.
Lemma pot_call c : wt pot_op (lcall_code c) <= 45.
Proof. destruct c; cbn; lia. Qed.
Lemma pot_step s e : effective s e ->
  pot (fst (lstep s e)) + 1 <= pot s + (if is_xconn e then 14 else 0) + (if is_lcall e then 46 else 0) + (if is_lparent e then 1 else 0).
Proof.
  intros He. destruct (lstep s e) as [s' o] eqn:H. cbn [fst]. unfold effective in He. rewrite H in He.
  assert (Hcr : lCrash s = false). { destruct (lCrash s) eqn:E; [|reflexivity]. exfalso. apply He. unfold lstep in H. rewrite E in H. congruence. }
  apply lstep_cases in H as [[-> ->]|[(p & -> & -> & _)|[(cl & -> & _ & -> & ->)|[(-> & _ & -> & ->)|(i & x & k & o' & c & -> & _ & Hi & [(h & pre & sp & wk & Hx & ->)|(pre & p & Hx & -> & ->)])]]]]; unfold pot; rewrite Hcr; cbn [lCrash lT].
  - congruence.
  - pose proof (pot_tot (lT s)). destruct (is_xconn e), (is_lcall e), (is_lparent e); lia.
  - cbn [is_xconn is_lcall is_lparent]. rewrite tot_app. cbn [tot gCode]. pose proof (pot_call cl). lia.
  - cbn [is_xconn is_lcall is_lparent]. lia.
  - rewrite tot_app. pose proof (pot_wake wk (<[i := Gor k (pre ++ c)]> (lT s))) as Hw. pose proof (tot_insert pot_op (lT s) i _ (Gor k (pre ++ c)) Hi) as E. cbn [gCode] in E. rewrite wt_app in E. cbn [wt] in E.
    apply exec_pot in Hx. cbn [is_xconn is_lcall is_lparent]. destruct x; lia.
  - pose proof (tot_insert pot_op (lT s) i _ (Gor k pre) Hi) as E. cbn [gCode wt] in E. apply exec_pot_panic in Hx. pose proof (pot_code c). cbn [is_lcall is_lparent]. destruct (is_xconn (LRun i x)); lia.
Qed.
Definition tally (f : levent -> bool) (es : list levent) : Z := Z.of_nat (length (List.filter f es)).
Lemma tally_cons f e es : tally f (e :: es) = (if f e then 1 else 0) + tally f es.
Proof. unfold tally. cbn. destruct (f e); cbn [length]; lia. Qed.
Lemma work_bound es : forall s, working s es ->
  Z.of_nat (length es) <= pot s + 14 * tally is_xconn es + 46 * tally is_lcall es + tally is_lparent es.
Proof.
  induction es as [|e es IH]; intros s; [intros _; pose proof (pot_nonneg s); unfold tally; cbn; lia|].
  intros [He Hw]. specialize (IH _ Hw). pose proof (pot_step _ _ He). rewrite !tally_cons. cbn [length].
  destruct (is_xconn e), (is_lcall e), (is_lparent e); lia.
Qed.

Global Instance gor_dec : EqDecision gor.
Proof. solve_decision. Defined.
Global Instance glob_dec : EqDecision glob.
Proof. solve_decision. Defined.
Global Instance lsys_dec : EqDecision lsys.
Proof. solve_decision. Defined.
Lemma run_dec s e : lstep s e = (s, []) \/ effective s e.
Proof.
  unfold effective. destruct (lstep s e) as [s' [|a o]]; [|right; discriminate].
  destruct (decide (s' = s)) as [->|Hn]; [left; reflexivity|right; congruence].
Qed.

(** ** Where everything comes to rest *)
Lemma run_eff s i x k o c : lCrash s = false -> lT s !! i = Some (Gor k (o :: c)) -> x = XGo \/ x = XEnd -> lstep s (LRun i x) = (s, []) -> exec (lG s) i k o x = Stay.
Proof.
  intros Hc Hi Hxx H. pose proof H as H'. unfold lstep in H'. rewrite Hc, Hi in H'. destruct (exec (lG s) i k o x) eqn:Hx; [reflexivity| | |]; exfalso.
  - injection H' as Es _. pose proof (pot_wake wk (<[i := Gor k (pre ++ c)]> (lT s))) as Hw. pose proof (tot_insert pot_op (lT s) i _ (Gor k (pre ++ c)) Hi) as E. cbn [gCode] in E. rewrite wt_app in E. cbn [wt] in E.
    apply exec_pot in Hx. assert (E2 : tot pot_op (lT s) = tot pot_op (wake wk (<[i := Gor k (pre ++ c)]> (lT s)) ++ spawn)) by (now rewrite <- Es at 1).
    rewrite tot_app in E2. destruct Hxx as [-> | ->]; lia.
  - apply (f_equal snd) in H'. discriminate H'.
  - apply (f_equal snd) in H'. discriminate H'.
Qed.
Definition waits (h : glob) (t : gor) : Prop :=
  gCode t = [] \/ (exists g, t = Gor (KRun g) [Accept g] /\ g ∉ hClosed h) \/ (exists cl c, t = Gor (KCall cl) (Sleep WWg :: c)).
Lemma cs_head k o c : In (o :: c) (codes k) -> in_cs (o :: c) = true ->
  match o with Lock | Sleep _ | Accept _ | Work _ => false | _ => true end = true.
Proof.
  intros H Hc. codes_check (fun c => match c with (Lock | Sleep _ | Accept _ | Work _) :: _ => negb (in_cs c) | _ => true end) H.
  destruct o; try reflexivity; now rewrite Hc in H.
Qed.
Lemma parked_weight k c : In c (codes k) -> match c with [] | Sleep _ :: _ | Accept _ :: _ => true | _ => false end = true ->
  wt w_init c = 0 /\ wt w_act c = 0 /\ (0 < wt w_wg c -> exists g, k = KRun g).
Proof.
  intros H Hh. assert (E : wt w_init c = 0 /\ wt w_act c = 0).
  { pose proof H as H1. codes_check (fun c => match c with [] | Sleep _ :: _ | Accept _ :: _ => (wt w_init c =? 0) && (wt w_act c =? 0) | _ => true end) H1. destruct c as [|[] c]; try discriminate Hh; lia. }
  split; [apply E|]. split; [apply E|]. intros Hw.
  destruct k as [cl|g|g n]; cbn in H.
  - exfalso. apply (call_check (fun c => match c with [] | Sleep _ :: _ | Accept _ :: _ => wt w_wg c =? 0 | _ => true end)) in H; [|intros []; vm_compute; reflexivity]. destruct c as [|[] c]; try discriminate Hh; lia.
  - eauto.
  - exfalso. repeat destruct H as [<-|H]; try contradiction; try discriminate Hh; cbn in Hw; lia.
Qed.
Lemma rest_inv s A : lreach s A -> lCrash s = false -> at_rest s -> forall i t, lT s !! i = Some t -> waits (lG s) t.
Proof.
  intros R Hcr Hr. pose proof (lreach_inv _ _ R) as I.
  assert (Hst : forall i k o c x, lT s !! i = Some (Gor k (o :: c)) -> x = XGo \/ x = XEnd -> exec (lG s) i k o x = Stay) by (intros; eapply run_eff; eauto).
  assert (Hmu : hMu (lG s) = None).
  { destruct (hMu (lG s)) as [j|] eqn:Em; [|reflexivity]. exfalso. destruct (v_owner s I j Em) as [[k c] Hj]. pose proof (proj2 (v_mu s I _ _ Hj) Em) as Hc. cbn in Hc.
    pose proof (v_codes s I _ _ Hj) as Hin. cbn in Hin. destruct c as [|o c]; [discriminate Hc|]. pose proof (cs_head _ _ _ Hin Hc) as Hh.
    pose proof (Hst _ _ _ _ XGo Hj (or_introl eq_refl)) as Hx. destruct o; cbn in Hx; try discriminate Hh; exec_cases Hx k.
    all: try (destruct k; discriminate Hx).
    destruct (a_lane _ _ (lreach_tab _ _ R) _ _ _ Hj) as (g & Hg & _); [|congruence].
    codes_check (fun c => match c with GoRun :: _ => lane_made c | _ => true end) Hin. exact Hin. }
  assert (Hpark : forall i k c, lT s !! i = Some (Gor k c) -> match c with [] | Sleep _ :: _ | Accept _ :: _ => true | _ => false end = true).
  { intros i k [|o c] Hi; [reflexivity|]. pose proof (v_codes s I _ _ Hi) as Hin. cbn in Hin.
    pose proof (Hst _ _ _ _ XGo Hi (or_introl eq_refl)) as Hx. pose proof (Hst _ _ _ _ XEnd Hi (or_intror eq_refl)) as Hx'.
    destruct o; cbn in Hx, Hx'; try reflexivity; exfalso; try discriminate Hx'; exec_cases Hx k; try (destruct k; discriminate Hx); try congruence.
    destruct (a_lane _ _ (lreach_tab _ _ R) _ _ _ Hi) as (g & Hg & _); [|congruence].
    codes_check (fun c => match c with GoRun :: _ => lane_made c | _ => true end) Hin. exact Hin. }
  intros i [k c] Hi. pose proof (Hpark _ _ _ Hi) as Hp. destruct c as [|o c]; [left; reflexivity|]. right.
  pose proof (v_codes s I _ _ Hi) as Hin. cbn in Hin. destruct o; try discriminate Hp.
  - right. assert (Hw : w = WWg).
    { pose proof (v_sleep s I _ _ _ _ Hi) as Hpos. rewrite (v_cnt s I) in Hpos. destruct (tot_pos _ _ Hpos) as (j & [k' c'] & Hj & Hwt). cbn in Hwt.
      destruct (parked_weight _ _ (v_codes s I _ _ Hj) (Hpark _ _ _ Hj)) as (H1 & H2 & _). cbn in H1, H2. destruct w; cbn in Hwt; [lia|reflexivity|lia]. }
    subst w. destruct k as [cl|g|g n]; [eauto|exfalso|exfalso]; cbn in Hin; repeat destruct Hin as [Hin|Hin]; try discriminate Hin; contradiction.
  - left. pose proof (Hst _ _ _ _ XGo Hi (or_introl eq_refl)) as Hx. cbn in Hx. case_bool_decide as Hb; [discriminate Hx|].
    destruct k as [cl|g'|g' n].
    + exfalso. apply (call_check (fun c => match c with Accept _ :: _ => false | _ => true end)) in Hin; [discriminate Hin|intros []; vm_compute; reflexivity].
    + exists g. split; [|assumption]. cbn in Hin. repeat destruct Hin as [Hin|Hin]; try discriminate Hin; try contradiction. injection Hin as -> <-. reflexivity.
    + exfalso. cbn in Hin. repeat destruct Hin as [Hin|Hin]; try discriminate Hin; contradiction.
Qed.
Lemma rest_accept s A : lreach s A -> lCrash s = false -> at_rest s -> 0 < hWg (lG s) -> exists j g, lT s !! j = Some (Gor (KRun g) [Accept g]) /\ g ∉ hClosed (lG s).
Proof.
  intros R Hc Hr Hw. pose proof (lreach_inv _ _ R) as I. pose proof (v_cnt s I WWg) as E. cbn in E. rewrite E in Hw.
  destruct (tot_pos _ _ Hw) as (j & [k c] & Hj & Hwt). pose proof (v_codes s I _ _ Hj) as Hin. cbn in Hwt, Hin.
  destruct (rest_inv _ _ R Hc Hr _ _ Hj) as [Hn|[(g & Et & Hg)|(cl & c' & Et)]].
  - cbn in Hn. subst c. cbn in Hwt. lia.
  - injection Et as -> ->. eauto.
  - injection Et as -> ->. destruct (parked_weight _ _ Hin eq_refl) as (_ & _ & H). destruct (H Hwt). discriminate.
Qed.
(** Execution can always go on to a state of rest. *)
Lemma comes_to_rest s : exists es, Forall goes_on es /\ at_rest (fst (lrun s es)).
Proof.
  remember (Z.to_nat (pot s)) as n eqn:En. revert s En. induction n as [n IH] using lt_wf_ind. intros s ->.
  assert (D : at_rest s \/ exists i x, (x = XGo \/ x = XEnd) /\ effective s (LRun i x)).
  { assert (E : forall i, (length (lT s) <= i)%nat -> forall x, lstep s (LRun i x) = (s, [])).
    { intros i Hi x. unfold lstep. destruct (lCrash s); [reflexivity|]. now rewrite (proj2 (lookup_ge_None (lT s) i)). }
    assert (D : forall n, (forall i x, (i < n)%nat -> x = XGo \/ x = XEnd -> lstep s (LRun i x) = (s, [])) \/ exists i x, (x = XGo \/ x = XEnd) /\ effective s (LRun i x)).
    { induction n as [|n [IHn|IHn]]; [left; intros; lia| |auto]. destruct (run_dec s (LRun n XGo)) as [H1|H1]; [|right; exists n, XGo; auto]. destruct (run_dec s (LRun n XEnd)) as [H2|H2]; [|right; exists n, XEnd; auto].
      left. intros i x Hi Hx. destruct (decide (i = n)) as [->|Hne]; [destruct Hx as [-> | ->]; assumption|]. apply IHn; [lia|assumption]. }
    destruct (D (length (lT s))) as [H|H]; [left|right; exact H]. intros i x Hx. destruct (decide (i < length (lT s))%nat); [auto|]. apply E. lia. }
  destruct D as [D|(i & x & Hx & He)]; [exists []; split; [constructor|assumption]|].
  pose proof (pot_step _ _ He) as Hp. cbn [is_lcall is_lparent] in Hp. pose proof (pot_nonneg (fst (lstep s (LRun i x)))).
  destruct (IH (Z.to_nat (pot (fst (lstep s (LRun i x)))))) with (s := fst (lstep s (LRun i x))) as (es & Hes & Hr); [destruct Hx as [-> | ->]; cbn [is_xconn] in Hp; lia|reflexivity|].
  exists (LRun i x :: es). split; [constructor; [exists i, x; auto|assumption]|]. cbn [lrun]. destruct (lstep s (LRun i x)) as [s1 o1]. cbn [fst] in Hr. destruct (lrun s1 es) as [s2 o2]. exact Hr.
Qed.
