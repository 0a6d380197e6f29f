(** * WholeProofs: serving and starting/stopping fit together *)
From Verif Require Export ServerProofs StreamProofs.
From Verif Require Export WholeSpec LifeCalls.
From stdpp Require Import gmap list.
From Coq Require Import ZifyBool ZifyNat.
Open Scope Z_scope.
Open Scope list_scope.

(** ** Traces *)
Lemma lpart_app A B : lpart (A ++ B) = lpart A ++ lpart B.
Proof. apply omap_app. Qed.
Lemma spart_app A B : spart (A ++ B) = spart A ++ spart B.
Proof. apply omap_app. Qed.
Lemma lpart_WL o : lpart (map WL o) = o.
Proof. induction o as [|x o IH]; [reflexivity|]. cbn. now f_equal. Qed.
Lemma lpart_WS o : lpart (map WS o) = [].
Proof. induction o as [|x o IH]; [reflexivity|]. exact IH. Qed.
Lemma spart_WS o : spart (map WS o) = o.
Proof. induction o as [|x o IH]; [reflexivity|]. cbn. now f_equal. Qed.
Lemma spart_WL o : spart (map WL o) = [].
Proof. induction o as [|x o IH]; [reflexivity|]. exact IH. Qed.
Lemma accepted_parts w e : lpart (accepted w e) = [] /\ spart (accepted w e) = [].
Proof. unfold accepted. destruct (op_of (wL w) e) as [[]|]; try (split; reflexivity). destruct (lane_done _); split; reflexivity. Qed.

Lemma wrun_app w e1 : forall e2, wrun w (e1 ++ e2) = (let '(w1, o1) := wrun w e1 in let '(w2, o2) := wrun w1 e2 in (w2, o1 ++ o2)).
Proof.
  revert w. induction e1 as [|e e1 IH]; intros w e2; cbn [app wrun]; [now destruct (wrun w e2)|].
  destruct (wstep w e) as [w1 o1]. rewrite IH. destruct (wrun w1 e1) as [w2 o2]. destruct (wrun w2 e2) as [w3 o3]. now rewrite app_assoc.
Qed.
Lemma wreach_ind port ch (P : whole -> list wobs -> Prop) : P (winit port ch) [] ->
  (forall w A e w' o, wreach port ch w A -> P w A -> wstep w e = (w', o) -> P w' (A ++ o)) ->
  forall w A, wreach port ch w A -> P w A.
Proof.
  intros H0 Hs w A [es H]. revert w A H. induction es as [|e es IH] using rev_ind; intros w A H.
  - injection H as <- <-. exact H0.
  - rewrite wrun_app in H. destruct (wrun (winit port ch) es) as [w1 A1] eqn:E. cbn in H.
    destruct (wstep w1 e) as [w2 o] eqn:E2. injection H as <- <-. rewrite app_nil_r. eapply Hs; eauto. now exists es.
Qed.
Lemma wreach_step port ch w A e w' o : wreach port ch w A -> wstep w e = (w', o) -> wreach port ch w' (A ++ o).
Proof. intros [es H] H1. exists (es ++ [e]). rewrite wrun_app, H. cbn. rewrite H1. cbn. now rewrite app_nil_r. Qed.

(** Each part is an execution of its machine. *)
Theorem whole_parts port ch w A : wreach port ch w A ->
  lreach (wL w) (lpart A) /\ exists evs, run (init port ch) evs = (wS w, spart A).
Proof.
  revert w A. apply wreach_ind; [split; [apply lreach_nil|now exists []]|].
  intros w A e w' o _ [Rl [evs Rs]] H. unfold wstep in H.
  destruct (lCrash (wL w)); [injection H as <- <-; rewrite !app_nil_r; eauto|].
  destruct e as [e|e].
  - destruct (allowed w e); [|injection H as <- <-; rewrite !app_nil_r; eauto].
    destruct (lstep (wL w) e) as [l' o1] eqn:El. destruct (accepted_parts w e) as [Ea1 Ea2].
    destruct (sCrash (wS w)) eqn:Ec.
    + injection H as <- <-. cbn [wL wS]. rewrite lpart_app, spart_app, lpart_WL, spart_WL, app_nil_r. split; [|eauto].
      eapply lreach_step; eauto.
    + destruct (run (wS w) (effect (wL w) e)) as [s' o2] eqn:Es. injection H as <- <-. cbn [wL wS].
      rewrite !lpart_app, !spart_app, lpart_WL, spart_WL, lpart_WS, spart_WS, Ea1, Ea2, app_nil_r. cbn [app].
      split; [eapply lreach_step; eauto|]. exists (evs ++ effect (wL w) e). exact (run_trans _ _ _ _ _ _ _ Rs Es).
  - destruct (may_serve w e); [|injection H as <- <-; rewrite !app_nil_r; eauto].
    destruct (step (wS w) e) as [s' o1] eqn:Es. injection H as <- <-. cbn [wL wS].
    rewrite lpart_app, spart_app, lpart_WS, spart_WS, app_nil_r. split; [assumption|].
    exists (evs ++ [e]). exact (run_snoc _ _ _ _ _ _ _ Rs Es).
Qed.

(** ** The invariant *)
Definition holds (o : op) : bool := match o with Work _ | Register _ => true | _ => false end.
(** Goroutine i has a connection, not yet registered or being served. *)
Definition has_conn (l : lsys) (i : nat) : Prop := exists k c, lT l !! i = Some (Gor k c) /\ existsb holds c = true.

Record jinv (w : whole) : Prop := {
  j_len : length (wOwner w) = length (sConns (wS w));
  j_lane : sCancel (wS w) = lane_done (lG (wL w));
  j_gen : forall g, (g ∈ hCancelled (lG (wL w)) \/ hLane (lG (wL w)) = Some g) -> (g < hGen (lG (wL w)))%nat;
  j_own : forall c i k, wOwner w !! c = Some i -> sConns (wS w) !! c = Some k -> closed k = false -> has_conn (wL w) i
}.

Lemma serve_step s e s' o : step s e = (s', o) -> match e with EvAccept | EvCancel | EvRestart => False | _ => True end ->
  sCancel s' = sCancel s /\ length (sConns s') = length (sConns s) /\
  forall c k', sConns s' !! c = Some k' -> closed k' = false -> exists k, sConns s !! c = Some k /\ closed k = false.
Proof.
  intros H He.
  assert (Hset : forall c k k0 ds, sConns s !! c = Some k0 -> closed k0 = false -> s' = set_conn s c k ds ->
    sCancel s' = sCancel s /\ length (sConns s') = length (sConns s) /\
    forall c k', sConns s' !! c = Some k' -> closed k' = false -> exists k, sConns s !! c = Some k /\ closed k = false).
  { intros c k k0 ds Hk Hc ->. unfold set_conn. cbn. split; [reflexivity|]. split; [apply insert_length|].
    intros d k' Hd Hcl. destruct (decide (d = c)) as [->|Hne]; [eauto|]. rewrite list_lookup_insert_ne in Hd by auto. eauto. }
  assert (Hsame : sCancel s' = sCancel s -> sConns s' = sConns s ->
    sCancel s' = sCancel s /\ length (sConns s') = length (sConns s) /\
    forall c k', sConns s' !! c = Some k' -> closed k' = false -> exists k, sConns s !! c = Some k /\ closed k = false).
  { intros H1 H2. rewrite H2. split; [assumption|]. split; [reflexivity|]. eauto. }
  unfold step in H. destruct (sCrash s) eqn:Ec; [injection H as <- <-; auto|].
  destruct e as [c|i| |c ch|c chunk|c|c|c|c gone|d|d| |]; try contradiction.
  - destruct (call_ok c); injection H as <- <-; auto.
  - destruct (sThreads s !! i) as [a|]; [|injection H as <- <-; auto].
    destruct (Server.astep i (sWall s) (sDs s) a) as [[ds a'] os]. injection H as <- <-. auto.
  - destruct (sConns s !! c) as [k|] eqn:Ek; [|injection H as <- <-; auto]. unfold Server.conn_step in H.
    destruct k as [inb st]. cbn [cSt cIn] in H. destruct st as [| |corr extra tk|bs| ]; try (injection H as <- <-; now auto).
    all: repeat match type of H with context [match ?x with _ => _ end] => destruct x eqn:? end; injection H as <- <-;
      first [now apply Hsame | eapply Hset; [exact Ek|reflexivity|reflexivity] | now auto].
  - destruct (sConns s !! c) as [[inb []]|] eqn:Ek; try (injection H as <- <-; now auto).
    destruct (_ && _ && _); injection H as <- <-; [|auto]. eapply Hset; [exact Ek|reflexivity|reflexivity].
  - destruct (sConns s !! c) as [[inb []]|] eqn:Ek; injection H as <- <-; auto. eapply Hset; [exact Ek|reflexivity|reflexivity].
  - destruct (sConns s !! c) as [[inb []]|] eqn:Ek; injection H as <- <-; auto. eapply Hset; [exact Ek|reflexivity|reflexivity].
  - destruct (sConns s !! c) as [[inb []]|] eqn:Ek; injection H as <- <-; auto.
  - destruct (sConns s !! c) as [[inb []]|] eqn:Ek; try (injection H as <- <-; now auto).
    destruct gone; injection H as <- <-; auto. eapply Hset; [exact Ek|reflexivity|reflexivity].
  - injection H as <- <-. auto.
  - injection H as <- <-. auto.
Qed.

(** ** Goroutines that hold a connection *)
Lemma woke_holds wk v u : woke wk v u -> existsb holds u = existsb holds v.
Proof. intros [[-> _]|(w & c & _ & -> & ->)]; reflexivity. Qed.
Lemma holds_keep i k o c pre wk sp l h cr j : lT l !! i = Some (Gor k (o :: c)) -> holds o = false ->
  has_conn l j -> has_conn (LSys h (wake wk (<[i := Gor k (pre ++ c)]> (lT l)) ++ sp) cr) j.
Proof.
  intros Hi Ho (kj & cj & Hj & Hc). unfold has_conn. cbn [lT]. destruct (decide (j = i)) as [->|Hne].
  - rewrite Hi in Hj. injection Hj as <- <-. cbn [existsb] in Hc. rewrite Ho in Hc. cbn [orb] in Hc.
    destruct (after_self i _ (Gor k (pre ++ c)) wk sp _ Hi) as ([ku cu] & Hu & _ & Hw). exists ku, cu. split; [exact Hu|].
    apply woke_holds in Hw. cbn [gCode] in Hw. rewrite Hw, existsb_app, Hc. apply orb_true_r.
  - destruct (after_other i (Gor k (pre ++ c)) wk sp _ _ _ Hj Hne) as ([ku cu] & Hu & _ & Hw). exists ku, cu. split; [exact Hu|].
    apply woke_holds in Hw. cbn [gCode] in Hw. now rewrite Hw.
Qed.
Lemma holds_other i t' wk sp l h cr j : j <> i ->
  has_conn l j -> has_conn (LSys h (wake wk (<[i := t']> (lT l)) ++ sp) cr) j.
Proof.
  intros Hne (kj & cj & Hj & Hc). unfold has_conn. cbn [lT].
  destruct (after_other i t' wk sp _ _ _ Hj Hne) as ([ku cu] & Hu & _ & Hw). exists ku, cu. split; [exact Hu|].
  apply woke_holds in Hw. cbn [gCode] in Hw. now rewrite Hw.
Qed.
Lemma call_holds cl c : In c (call_codes cl) -> existsb holds c = false.
Proof.
  intros H. apply (call_check (fun c => negb (existsb holds c))) in H; [now apply negb_true_iff|]. intros []; vm_compute; reflexivity.
Qed.
(** While someone holds a connection the server is up, and wg is not zero. *)
Lemma holds_up s A i : lreach s A -> has_conn s i ->
  exists j g c, lT s !! j = Some (Gor (KRun g) c) /\ 0 < wt w_up c.
Proof.
  intros R (k & c & Hi & Hc). pose proof (lreach_inv _ _ R) as I. pose proof (v_codes s I _ _ Hi) as Hin. cbn [gKind gCode] in Hin.
  destruct k as [cl|g|g n].
  - cbn [codes] in Hin. rewrite (call_holds _ _ Hin) in Hc. discriminate.
  - exists i, g, c. split; [exact Hi|]. cbn in Hin. repeat destruct Hin as [<-|Hin]; try contradiction; try discriminate Hc; cbn; lia.
  - assert (Ha : 0 < wt w_act c) by (cbn in Hin; repeat destruct Hin as [<-|Hin]; try contradiction; try discriminate Hc; cbn; lia).
    destruct (act_run _ _ R _ _ _ _ Hi Ha) as (j & c' & Hj & Ho). exists j, g, c'. split; [exact Hj|].
    unfold open_run in Ho. lia.
Qed.
Lemma holds_wg s A i : lreach s A -> has_conn s i -> hWg (lG s) <> 0.
Proof.
  intros R H Hz. destruct (holds_up _ _ _ R H) as (j & g & c & Hj & Hc). destruct (zero_wg _ _ R Hz) as [Hr _].
  rewrite (Hr _ _ _ Hj) in Hc. lia.
Qed.
Lemma holds_started s A i : lreach s A -> has_conn s i -> hStarted (lG s) = true.
Proof.
  intros R H. destruct (holds_up _ _ _ R H) as (j & g & c & Hj & Hc). pose proof (lreach_inv _ _ R) as I.
  assert (wt w_up (gCode (Gor (KRun g) c)) <= tot w_up (lT s)) as H2.
  { apply (tot_ge w_up (lT s) j); [|assumption]. intros j' u Hne Hu. apply (sum_nonneg s I _ _ Hu). }
  rewrite <- (v_up s I) in H2. cbn [gCode] in H2. destruct (hStarted (lG s)); [reflexivity|]. cbn [b2z] in H2. lia.
Qed.
(** Nobody holds one while a call is about to start a server. *)
Lemma holds_not_starting s A i cl c j : lreach s A -> lT s !! i = Some (Gor (KCall cl) c) -> 0 < wt w_up c -> ~ has_conn s j.
Proof.
  intros R Hi Hc Hj. destruct (holds_up _ _ _ R Hj) as (r & g & cr & Hr & Hcr). pose proof (lreach_inv _ _ R) as I.
  assert (i = r) by (eapply (up_unique s i r); eauto). subst r. rewrite Hi in Hr. discriminate.
Qed.
Lemma newlane_up k c : In (NewLane :: c) (codes k) -> exists cl, k = KCall cl /\ 0 < wt w_up (NewLane :: c).
Proof.
  intros H. destruct k as [cl|g|g n].
  - exists cl. split; [reflexivity|]. apply (call_check (fun c => match c with NewLane :: _ => 0 <? wt w_up c | _ => true end)) in H; [lia|].
    intros []; vm_compute; reflexivity.
  - cbn in H. repeat destruct H as [H|H]; try discriminate; contradiction.
  - cbn in H. repeat destruct H as [H|H]; try discriminate; contradiction.
Qed.

(** ** Lanes *)
Lemma exec_lane h i k o x h' pre sp wk os : exec h i k o x = Next h' pre sp wk os ->
  match o with
  | NewLane => hLane h' = Some (hGen h) /\ hGen h' = S (hGen h) /\ hCancelled h' = hCancelled h /\ hParent h' = hParent h
  | CancelFn => exists g, hLane h = Some g /\ hLane h' = Some g /\ hGen h' = hGen h /\ hCancelled h' = {[g]} ∪ hCancelled h /\ hParent h' = hParent h
  | _ => hLane h' = hLane h /\ hGen h' = hGen h /\ hCancelled h' = hCancelled h /\ hParent h' = hParent h
  end.
Proof.
  intros H. destruct h. destruct o; cbn in H; exec_cases H k; injection H as <- <- <- <- <-; try (destruct w); cbn in *; subst; eauto 10.
Qed.
Lemma lane_same h h' : hLane h' = hLane h -> hCancelled h' = hCancelled h -> hParent h' = hParent h -> lane_done h' = lane_done h.
Proof. unfold lane_done. intros -> -> ->. reflexivity. Qed.

(** ** Every step keeps the invariant *)
Lemma closed_all w i : length (wOwner w) = length (sConns (wS w)) -> may_end w i XEnd = true ->
  forall c k, wOwner w !! c = Some i -> sConns (wS w) !! c = Some k -> closed k = true.
Proof.
  unfold may_end. intros _ H c k Hc Hk. rewrite forallb_forall in H. specialize (H (i, k)). cbn [fst snd] in H.
  rewrite Nat.eqb_refl in H. cbn in H. apply H. apply elem_of_list_In, elem_of_list_lookup. exists c.
  clear - Hc Hk. revert c Hc Hk. generalize (sConns (wS w)). induction (wOwner w) as [|j l IH]; intros [|x ks] [|c] Hc Hk; try discriminate.
  - cbn in *. congruence.
  - exact (IH ks c Hc Hk).
Qed.

Lemma jinv_life w A e l' o s' o' : lreach (wL w) A -> jinv w -> lCrash (wL w) = false -> sCrash (wS w) = false ->
  allowed w e = true -> lstep (wL w) e = (l', o) -> run (wS w) (effect (wL w) e) = (s', o') -> jinv (Whole l' s' (owners w e)).
Proof.
  intros R [J1 J2 J3 J4] Hlc Hsc Hal El Es. pose proof (lreach_inv _ _ R) as I.
  assert (JJ : jinv (Whole (wL w) (wS w) (wOwner w))) by (split; assumption).
  destruct e as [cl|i x|].
  - (* a call *)
    unfold lstep in El. rewrite Hlc in El. injection El as <- <-. cbn in Es. injection Es as <- <-.
    split; cbn [wL wS wOwner owners lG]; auto. intros c i k Hc Hk Hcl. destruct (J4 c i k Hc Hk Hcl) as (kk & cc & H & H').
    exists kk, cc. split; [|assumption]. cbn [lT]. now apply lookup_app_l_Some.
  - unfold lstep in El. rewrite Hlc in El. unfold effect, owners, op_of, allowed, op_of in *. destruct (lT (wL w) !! i) as [[k [|op c]]|] eqn:Hi.
    + injection El as <- <-. cbn in Es. injection Es as <- <-. now split.
    + destruct (exec (lG (wL w)) i k op x) as [|h pre sp wk os|pre p|p] eqn:Ex.
      * (* blocked *)
        injection El as <- <-. destruct op; cbn in Ex; exec_cases Ex k; cbn in Es; injection Es as <- <-; exact JJ.
      * injection El as <- <-. pose proof (exec_lane _ _ _ _ _ _ _ _ _ _ Ex) as HL.
        assert (Hplain : holds op = false -> s' = wS w -> hLane h = hLane (lG (wL w)) /\ hGen h = hGen (lG (wL w)) /\
            hCancelled h = hCancelled (lG (wL w)) /\ hParent h = hParent (lG (wL w)) ->
          jinv (Whole (LSys h (wake wk (<[i:=Gor k (pre ++ c)]> (lT (wL w))) ++ sp) false) s' (wOwner w))).
        { intros Hh -> (H1 & H2 & H3 & H4). split; cbn [wL wS wOwner lG].
          - exact J1.
          - rewrite J2. symmetry. now apply lane_same.
          - intros g Hg. rewrite H2. apply J3. now rewrite <- H1, <- H3.
          - intros d j kk Hd Hk Hcl. eapply holds_keep; [exact Hi|exact Hh|eauto]. }
        destruct op; try (cbn in Es; injection Es as <- <-; exact (Hplain eq_refl eq_refl HL)).
        -- (* NewLane *)
           destruct HL as (H1 & H2 & H3 & H4).
           destruct (newlane_up _ _ (v_codes _ I _ _ Hi)) as (cl & Hk & Hu). cbn [gKind gCode] in Hk. subst k.
           assert (Hcl : forallb closed (sConns (wS w)) = true).
           { apply forallb_forall. intros kk Hin. apply elem_of_list_In, elem_of_list_lookup in Hin as [d Hd].
             destruct (closed kk) eqn:Ek; [reflexivity|]. exfalso.
             destruct (lookup_lt_is_Some_2 (wOwner w) d) as [j Hj]; [rewrite J1; eapply lookup_lt_Some; eauto|].
             exact (holds_not_starting _ _ _ _ _ j R Hi Hu (J4 d j kk Hj Hd Ek)). }
           assert (Hs' : sConns s' = sConns (wS w) /\ sCancel s' = hParent (lG (wL w))).
           { cbn [run] in Es. unfold step at 1 in Es. rewrite Hsc, Hcl in Es. destruct (hParent (lG (wL w))).
             - cbn in Es. rewrite ?Hsc in Es. cbn in Es. injection Es as <- <-. auto.
             - cbn in Es. injection Es as <- <-. auto. }
           destruct Hs' as [Hs1 Hs2]. split; cbn [wL wS wOwner lG].
           ++ now rewrite Hs1.
           ++ rewrite Hs2. unfold lane_done. rewrite H1, H3, H4.
              destruct (hParent (lG (wL w))); [reflexivity|]. cbn [orb]. symmetry. apply bool_decide_eq_false.
              intros Hg. assert (hGen (lG (wL w)) < hGen (lG (wL w)))%nat; [|lia]. apply J3. now left.
           ++ intros g Hg. rewrite H2. destruct Hg as [Hg|Hg].
              ** rewrite H3 in Hg. assert (g < hGen (lG (wL w)))%nat; [|lia]. apply J3. now left.
              ** rewrite H1 in Hg. injection Hg as <-. lia.
           ++ intros d j kk Hd Hk. rewrite Hs1 in Hk. rewrite forallb_forall in Hcl.
              rewrite (Hcl kk); [discriminate|]. apply elem_of_list_In, elem_of_list_lookup. eauto.
        -- (* CancelFn *)
           destruct HL as (g & H0 & H1 & H2 & H3 & H4). rewrite H0 in Es. cbn [run] in Es. unfold step in Es. rewrite Hsc in Es. injection Es as <- <-.
           split; cbn [wL wS wOwner lG sConns sCancel].
           ++ exact J1.
           ++ unfold lane_done. rewrite H1, H3. rewrite bool_decide_true by set_solver. now rewrite orb_true_r.
           ++ intros g' Hg. rewrite H2. rewrite H1, H3 in Hg. apply J3. destruct Hg as [Hg|Hg].
              ** apply elem_of_union in Hg as [Hg|Hg]; [|now left]. apply elem_of_singleton in Hg as ->. now right.
              ** right. congruence.
           ++ intros d j kk Hd Hk Hcl. eapply holds_keep; [exact Hi|reflexivity|eauto].
        -- (* CheckLane *)
           cbn [exec] in Ex. destruct (lane_done (lG (wL w))) eqn:El.
           ++ cbn in Es. injection Es as <- <-. exact (Hplain eq_refl eq_refl HL).
           ++ cbn [run] in Es. unfold step in Es. rewrite Hsc, J2 in Es. injection Es as <- <-. destruct HL as (H1 & H2 & H3 & H4).
              split; cbn [wL wS wOwner lG sConns sCancel].
              ** rewrite !app_length. cbn. lia.
              ** rewrite <- El. symmetry. now apply lane_same.
              ** intros g' Hg. rewrite H2. apply J3. now rewrite <- H1, <- H3.
              ** intros d j kk Hd Hk Hcl. destruct (decide (d < length (wOwner w))%nat) as [Hlt|Hge].
                 { rewrite lookup_app_l in Hd by lia. rewrite lookup_app_l in Hk by lia. eapply holds_keep; [exact Hi|reflexivity|eauto]. }
                 rewrite lookup_app_r in Hd by lia. destruct (d - length (wOwner w))%nat; [|discriminate]. cbn in Hd. injection Hd as <-.
                 injection Ex as <- <- <- <- <-. unfold has_conn. cbn [lT].
                 destruct (after_self i _ (Gor k (register_code g ++ c)) None [] _ Hi) as ([ku cu] & Hu & _ & Hw).
                 exists ku, cu. split; [exact Hu|]. apply woke_holds in Hw. cbn [gCode] in Hw. now rewrite Hw.
        -- (* Register *)
           cbn [exec] in Ex. injection Ex as <- <- <- <- <-. cbn in Es. injection Es as <- <-. destruct HL as (H1 & H2 & H3 & H4).
           split; cbn [wL wS wOwner lG].
           ++ now rewrite map_length.
           ++ rewrite J2. symmetry. now apply lane_same.
           ++ intros g' Hg. rewrite H2. apply J3. now rewrite <- H1, <- H3.
           ++ intros d j kk Hd Hk Hcl. rewrite list_lookup_fmap in Hd. destruct (wOwner w !! d) as [j0|] eqn:Ej; [|discriminate].
              cbn in Hd. injection Hd as Hd. destruct (Nat.eqb_spec j0 i) as [->|Hne]; subst j.
              ** eexists (KClient g _), [Work g]. split; [|reflexivity]. cbn [lT].
                 pose proof (after_spawn i (Gor k ([] ++ c)) None [Gor (KClient g (S (num g (lG (wL w))))) [Work g]] (lT (wL w)) 0 _ eq_refl) as Hsp.
                 rewrite Nat.add_0_r in Hsp. exact Hsp.
              ** eapply holds_other; [congruence|eauto].
        -- (* Work *)
           cbn in Es. injection Es as <- <-. destruct HL as (H1 & H2 & H3 & H4).
           assert (Hx : x = XEnd).
           { cbn [exec] in Ex. destruct x; try discriminate; [reflexivity|]. cbn [may_end] in Hal. congruence. }
           subst x. split; cbn [wL wS wOwner lG].
           ++ exact J1.
           ++ rewrite J2. symmetry. now apply lane_same.
           ++ intros g' Hg. rewrite H2. apply J3. now rewrite <- H1, <- H3.
           ++ intros d j kk Hd Hk Hcl. destruct (decide (j = i)) as [->|Hne].
              ** rewrite (closed_all w i J1 Hal d kk Hd Hk) in Hcl. discriminate.
              ** eapply holds_other; [exact Hne|eauto].
      * (* a call panics *)
        injection El as <- <-.
        assert (Hc : existsb holds (op :: c) = false /\ match op with CancelFn => hLane (lG (wL w)) = None | NewLane | CheckLane _ | Register _ | Work _ => False | _ => True end).
        { pose proof (v_codes _ I _ _ Hi) as Hin. cbn [gKind gCode] in Hin.
          assert (Hk : is_call k = true) by (destruct op; cbn in Ex; unfold kpanic in Ex; exec_cases Ex k; auto).
          destruct k; try discriminate. split; [exact (call_holds _ _ Hin)|].
          destruct op; cbn in Ex; exec_cases Ex (KCall c0); auto. }
        destruct Hc as [Hc1 Hc2].
        assert (Hs' : s' = wS w) by (destruct op; try contradiction; try rewrite Hc2 in Es; cbn in Es; injection Es as <- <-; reflexivity).
        assert (Ho : match op with CheckLane _ => if lane_done (lG (wL w)) then wOwner w else wOwner w ++ [i]
           | Register _ => map (fun j => if (j =? i)%nat then length (lT (wL w)) else j) (wOwner w) | _ => wOwner w end = wOwner w)
          by (destruct op; try contradiction; reflexivity).
        rewrite Ho. subst s'. split; cbn [wL wS wOwner lG]; auto.
        intros d j kk Hd Hk Hcl. destruct (J4 d j kk Hd Hk Hcl) as (kj & cj & Hj & Hcj). destruct (decide (j = i)) as [->|Hne].
        -- rewrite Hi in Hj. injection Hj as <- <-. congruence.
        -- exists kj, cj. split; [|exact Hcj]. cbn [lT]. now rewrite list_lookup_insert_ne by auto.
      * (* the process panics *)
        injection El as <- <-.
        assert (Hs' : s' = wS w).
        { destruct op; cbn in Ex; unfold kpanic in Ex; exec_cases Ex k; try (cbn in Es; injection Es as <- <-; reflexivity);
            rewrite ?Heqo in Es; cbn in Es; injection Es as <- <-; reflexivity. }
        assert (Ho : match op with CheckLane _ => if lane_done (lG (wL w)) then wOwner w else wOwner w ++ [i]
           | Register _ => map (fun j => if (j =? i)%nat then length (lT (wL w)) else j) (wOwner w) | _ => wOwner w end = wOwner w)
          by (destruct op; cbn in Ex; exec_cases Ex k; reflexivity).
        rewrite Ho. subst s'. split; cbn [wL wS wOwner lG]; auto.
    + injection El as <- <-. cbn in Es. injection Es as <- <-. exact JJ.
  - (* the parent lane is cancelled *)
    unfold lstep in El. rewrite Hlc in El. injection El as <- <-. cbn [effect run] in Es. unfold step in Es. rewrite Hsc in Es. injection Es as <- <-.
    split; cbn [wL wS wOwner owners lG sConns sCancel].
    + exact J1.
    + unfold lane_done. now destruct (lG (wL w)).
    + destruct (lG (wL w)); exact J3.
    + exact J4.
Qed.
