(** * WholeEnd: when the server ends, its connections have ended *)
From Verif Require Export WholeProofs.
From stdpp Require Import gmap list.
From Coq Require Import ZifyBool ZifyNat.
Open Scope Z_scope.
Open Scope list_scope.

(** ** The invariant, as long as no request has ended the process *)
Theorem whole_inv port ch w A : wreach port ch w A -> sCrash (wS w) = false -> jinv w.
Proof.
  revert w A. apply (wreach_ind port ch (fun w _ => sCrash (wS w) = false -> jinv w)).
  - intros _. split; cbn; try reflexivity; [|intros ? ? ? H; discriminate H].
    intros g [H|H]; [set_solver|discriminate H].
  - intros w A e w' o Rw IH H Hc. destruct (whole_parts _ _ _ _ Rw) as [Rl [evs Rs]]. unfold wstep in H.
    destruct (lCrash (wL w)) eqn:Hl; [injection H as <- <-; auto|]. destruct e as [e|e].
    + destruct (allowed w e) eqn:Ha; [|injection H as <- <-; auto]. destruct (lstep (wL w) e) as [l' o1] eqn:El.
      destruct (sCrash (wS w)) eqn:Ec; [injection H as <- <-; cbn in Hc; congruence|].
      destruct (run (wS w) (effect (wL w) e)) as [s' o2] eqn:Es. injection H as <- <-.
      eapply jinv_life; eauto.
    + destruct (may_serve w e) eqn:Hm; [|injection H as <- <-; auto]. destruct (step (wS w) e) as [s' o1] eqn:Es.
      injection H as <- <-. cbn in Hc.
      assert (Hc0 : sCrash (wS w) = false).
      { destruct (sCrash (wS w)) eqn:Ec; [|reflexivity]. rewrite step_crashed in Es by assumption. injection Es as <- <-. congruence. }
      destruct (IH Hc0) as [J1 J2 J3 J4].
      destruct (serve_step _ _ _ _ Es) as (H1 & H2 & H3); [destruct e; try exact Logic.I; discriminate Hm|].
      split; cbn [wL wS wOwner]; [congruence|congruence|exact J3|].
      intros c i k' Hi Hk Hcl. destruct (H3 _ _ Hk Hcl) as (k & Hk0 & Hcl0). eauto.
Qed.

(** ** Where an observation comes from *)
Lemma lstep_few s e s' o : lstep s e = (s', o) -> (length o <= 1)%nat.
Proof.
  intros H. apply lstep_cases in H as [[_ ->]|[(p & _ & -> & _)|[(cl & _ & _ & _ & ->)|[(_ & _ & _ & ->)|(i0 & x & k & o' & c & _ & _ & Hi & [(h & pre & sp & wk & Hx & _)|(pre & p & _ & _ & ->)])]]]]; cbn; try lia.
  destruct o'; cbn in Hx; exec_cases Hx k; injection Hx; intros; subst; cbn; try lia.
Qed.
Lemma accepted_silent w e l' o : lstep (wL w) e = (l', o) -> lCrash (wL w) = false -> accepted w e <> [] -> o = [].
Proof.
  intros H Hl Ha. unfold accepted, op_of in Ha. destruct e as [|i x|]; try contradiction. unfold lstep in H. rewrite Hl in H.
  destruct (lT (wL w) !! i) as [[k [|op c]]|] eqn:Hi; try contradiction. destruct op; try contradiction.
  destruct (lane_done (lG (wL w))) eqn:E; [contradiction|]. cbn in H. rewrite E in H. now injection H as _ <-.
Qed.

Lemma not_WL x l : ~ In (WL x) (map WS l).
Proof. intros H. apply in_map_iff in H as (y & E & _). discriminate. Qed.
Lemma wstep_life w e w' k x C : wstep w e = (w', k ++ WL x :: C) ->
  k = [] /\ exists e' l', e = WLife e' /\ lCrash (wL w) = false /\ allowed w e' = true /\ lstep (wL w) e' = (l', [x]) /\
    (sCrash (wS w) = true \/ exists s' o', run (wS w) (effect (wL w) e') = (s', o') /\ C = map WS o').
Proof.
  intros H. unfold wstep in H. destruct (lCrash (wL w)) eqn:Hl; [injection H as _ H; destruct k; discriminate H|]. destruct e as [e|e].
  - destruct (allowed w e) eqn:Ha; [|injection H as _ H; destruct k; discriminate H]. destruct (lstep (wL w) e) as [l' o1] eqn:El.
    pose proof (lstep_few _ _ _ _ El) as Hf.
    assert (Hac : o1 <> [] -> accepted w e = []).
    { intros Hn. destruct (accepted w e) eqn:Ea; [reflexivity|]. exfalso. apply Hn. eapply accepted_silent; eauto. congruence. }
    assert (Hno : o1 <> []).
    { intros ->. assert (In (WL x) (k ++ WL x :: C)) as Hin by (apply in_or_app; right; now left). destruct (sCrash (wS w)); [injection H as _ H; destruct k; discriminate H|].
      destruct (run (wS w) (effect (wL w) e)) as [s' o2]. injection H as _ H. rewrite <- H in Hin. cbn in Hin. apply in_app_or in Hin as [Hin|Hin]; [|now apply not_WL in Hin].
      unfold accepted in Hin. destruct (op_of (wL w) e) as [[]|]; try contradiction. destruct (lane_done _); [contradiction|]. destruct Hin as [Hin|[]]. discriminate Hin. }
    destruct o1 as [|x1 [|? ?]]; cbn in Hf; try lia; [contradiction|].
    destruct (sCrash (wS w)) eqn:Ec.
    + injection H as _ H. destruct k as [|? [|? ?]]; try discriminate H. injection H as <- <-. split; [reflexivity|]. exists e, l'. auto 10.
    + destruct (run (wS w) (effect (wL w) e)) as [s' o2] eqn:Es. injection H as _ H. rewrite Hac in H by discriminate. cbn in H.
      destruct k as [|y k].
      * injection H as <- <-. split; [reflexivity|]. exists e, l'. split_and!; auto. right. eauto.
      * exfalso. injection H as _ H. apply (not_WL x o2). rewrite H. apply in_or_app. right. now left.
  - destruct (may_serve w e); [|injection H as _ H; destruct k; discriminate H]. destruct (step (wS w) e) as [s' o1]. injection H as _ H.
    exfalso. apply (not_WL x o1). rewrite H. apply in_or_app. right. now left.
Qed.
Lemma wrun_split es : forall w w2 B1 x B2, wrun w es = (w2, B1 ++ WL x :: B2) ->
  exists es1 e es2 w1 w1' C, es = es1 ++ WLife e :: es2 /\ wrun w es1 = (w1, B1) /\
    wstep w1 (WLife e) = (w1', WL x :: C) /\ exists D, wrun w1' es2 = (w2, D) /\ B2 = C ++ D.
Proof.
  induction es as [|e es IH]; intros w w2 B1 x B2 H; cbn in H; [injection H as _ H; destruct B1; discriminate H|].
  destruct (wstep w e) as [wa oa] eqn:E1. destruct (wrun wa es) as [wb ob] eqn:E2. injection H as <- H.
  apply app_eq_inv in H as [(k & -> & E)|(k & -> & E)].
  - destruct k as [|y k].
    + cbn in E. rewrite app_nil_r in *. rewrite <- E in E2. destruct (IH _ _ [] _ _ E2) as (es1 & e' & es2 & w1 & w1' & C & -> & H1 & H2 & D & H3 & H4).
      exists (e :: es1), e', es2, w1, w1', C. split; [reflexivity|]. split; [cbn; now rewrite E1, H1, app_nil_r|]. eauto.
    + cbn in E. injection E as <- ->. destruct (wstep_life _ _ _ _ _ _ E1) as (-> & e' & l' & -> & _).
      exists [], e', es, w, wa, k. split; [reflexivity|]. split; [reflexivity|]. split; [exact E1|]. eauto.
  - subst ob. destruct (IH _ _ _ _ _ E2) as (es1 & e' & es2 & w1 & w1' & C & -> & H1 & H2 & H3).
    exists (e :: es1), e', es2, w1, w1', C. split; [reflexivity|]. split; [cbn; now rewrite E1, H1|]. eauto.
Qed.
Lemma wreach_run port ch w A es w' B : wreach port ch w A -> wrun w es = (w', B) -> wreach port ch w' (A ++ B).
Proof. intros [es0 H0] H. exists (es0 ++ es). now rewrite wrun_app, H0, H. Qed.

(** ** Nobody has a connection then *)
Lemma nobody s A e s' x : lreach s A -> lstep s e = (s', [x]) -> ends x = true -> forall j, ~ has_conn s j.
Proof.
  intros R H Hx j Hj. pose proof (lreach_inv _ _ R) as I. destruct x; try discriminate Hx.
  - pose proof (holds_started _ _ _ R Hj) as Hs.
    apply lstep_cases in H as [[_ H]|[(p & _ & H & _)|[(cl & _ & _ & _ & H)|[(_ & _ & _ & H)|(i0 & x & k & o' & c & _ & _ & Hi & [(h & pre & sp & wk & Hex & _)|(pre & p & _ & _ & H)])]]]]; try discriminate H.
    destruct o'; cbn in Hex; exec_cases Hex k; injection Hex; intros; subst; try discriminate; congruence.
  - apply lstep_cases in H as [[_ H]|[(p & _ & H & _)|[(cl & _ & _ & _ & H)|[(_ & _ & _ & H)|(i0 & x & k & o' & c & _ & _ & Hi & [(h & pre & sp & wk & Hex & _)|(pre & p & _ & _ & H)])]]]]; try discriminate H.
    destruct o'; cbn in Hex; exec_cases Hex k; injection Hex; intros; subst; try discriminate.
    destruct (newlane_up _ _ (v_codes _ I _ _ Hi)) as (cl & Hk & Hu). cbn [gKind gCode] in Hk, Hu. subst k.
    exact (holds_not_starting _ _ _ _ _ _ R Hi Hu Hj).
  - apply lstep_cases in H as [[_ H]|[(p & _ & H & _)|[(cl & _ & _ & _ & H)|[(_ & _ & _ & H)|(i0 & x & k & o' & c & _ & _ & Hi & [(h & pre & sp & wk & Hex & _)|(pre & p & _ & _ & H)])]]]]; try discriminate H.
    destruct o'; cbn in Hex; exec_cases Hex k; injection Hex; intros; subst; try discriminate.
    assert (Hd : exists g, k = KRun g /\ 0 < wt w_up (StoreDown :: c)).
    { pose proof (v_codes _ I _ _ Hi) as Hin. cbn [gKind gCode] in Hin. destruct k as [cl|g|g n].
      - exfalso. apply (call_check (fun c => match c with StoreDown :: _ => false | _ => true end)) in Hin; [discriminate|]. intros []; vm_compute; reflexivity.
      - exists g. split; [reflexivity|]. cbn in Hin. repeat destruct Hin as [Hin|Hin]; try discriminate Hin; try contradiction; injection Hin as <-; cbn; lia.
      - exfalso. cbn in Hin. repeat destruct Hin as [Hin|Hin]; try discriminate Hin; contradiction. }
    destruct Hd as (g0 & -> & Hu). destruct Hj as (kj & cj & Hj & Hc). pose proof (v_codes s I _ _ Hj) as Hin. cbn [gKind gCode] in Hin.
    destruct kj as [cl|g1|g1 n].
    + cbn [codes] in Hin. rewrite (call_holds _ _ Hin) in Hc. discriminate.
    + assert (j = i0) as ->.
      { eapply (up_unique s j i0); eauto. cbn [gCode]. cbn in Hin. repeat destruct Hin as [<-|Hin]; try contradiction; try discriminate Hc; cbn; lia. }
      rewrite Hi in Hj. injection Hj as <- <-. cbn in Hin. repeat destruct Hin as [Hin|Hin]; try discriminate Hin; try contradiction; injection Hin as <-; discriminate Hc.
    + assert (Ha : 0 < wt w_act cj) by (cbn in Hin; repeat destruct Hin as [<-|Hin]; try contradiction; try discriminate Hc; cbn; lia).
      destruct (act_run _ _ R _ _ _ _ Hj Ha) as (r & c' & Hr & Ho). unfold open_run in Ho.
      assert (i0 = r) as -> by (eapply (up_unique s i0 r); eauto; cbn [gCode]; lia).
      rewrite Hi in Hr. injection Hr as <- <-. rewrite andb_false_r in Ho. discriminate Ho.
  - exact (holds_wg _ _ _ R Hj (free_zero _ _ _ _ H)).
Qed.

(** ** Closed connections were closed in the trace *)
Lemma close_seen s e s' o c k' : step s e = (s', o) -> sConns s' !! c = Some k' -> closed k' = true ->
  (exists k, sConns s !! c = Some k /\ closed k = true) \/ In (OClosed c) o.
Proof.
  intros H Hk Hcl.
  assert (Hset : forall d k ds, s' = set_conn s d k ds -> (closed k = true -> In (OClosed d) o) ->
    (exists k, sConns s !! c = Some k /\ closed k = true) \/ In (OClosed c) o).
  { intros d k ds -> Hd. cbn in Hk. destruct (decide (d = c)) as [->|Hne].
    - destruct (decide (c < length (sConns s))%nat) as [Hlt|Hge].
      + rewrite list_lookup_insert in Hk by assumption. injection Hk as ->. right. auto.
      + rewrite list_insert_ge in Hk by lia. eauto.
    - rewrite list_lookup_insert_ne in Hk by auto. eauto. }
  assert (Hsame : sConns s' = sConns s -> (exists k, sConns s !! c = Some k /\ closed k = true) \/ In (OClosed c) o).
  { intros E. rewrite E in Hk. eauto. }
  unfold step in H. destruct (sCrash s) eqn:Ec; [injection H as <- <-; auto|].
  destruct e as [d|i| |d ch|d chunk|d|d|d|d gone|d|d| |].
  - destruct (call_ok d); injection H as <- <-; auto.
  - destruct (sThreads s !! i) as [a|]; [|injection H as <- <-; auto].
    destruct (Server.astep i (sWall s) (sDs s) a) as [[ds a'] os]. injection H as <- <-. auto.
  - destruct (sCancel s); injection H as <- <-; [auto|]. cbn in Hk. apply lookup_app_Some in Hk as [Hk|[_ Hk]]; [eauto|]. destruct (c - _)%nat; [injection Hk as <-|]; discriminate.
  - destruct (sConns s !! d) as [[inb st]|] eqn:Ek; [|injection H as <- <-; auto]. unfold Server.conn_step in H.
    cbn [cSt cIn] in H. destruct st as [| |corr extra tk|bs| ]; try (injection H as <- <-; now auto).
    all: repeat match type of H with context [match ?x with _ => _ end] => destruct x eqn:? end; injection H as <- <-;
      first [now apply Hsame | eapply Hset; [reflexivity|]; first [discriminate | intros _; now left] ].
  - destruct (sConns s !! d) as [[inb []]|] eqn:Ek; try (injection H as <- <-; now auto).
    destruct (_ && _ && _); injection H as <- <-; [|auto]. eapply Hset; [reflexivity|discriminate].
  - destruct (sConns s !! d) as [[inb []]|] eqn:Ek; injection H as <- <-; auto. eapply Hset; [reflexivity|discriminate].
  - destruct (sConns s !! d) as [[inb []]|] eqn:Ek; injection H as <- <-; auto. eapply Hset; [reflexivity|]. intros _. now left.
  - destruct (sConns s !! d) as [[inb []]|] eqn:Ek; injection H as <- <-; auto.
  - destruct (sConns s !! d) as [[inb []]|] eqn:Ek; try (injection H as <- <-; now auto).
    destruct gone; injection H as <- <-; auto. eapply Hset; [reflexivity|discriminate].
  - injection H as <- <-. auto.
  - injection H as <- <-. auto.
  - injection H as <- <-. auto.
  - destruct (forallb _ _); injection H as <- <-; auto.
Qed.
Lemma closed_seen port ch evs s os c k : run (init port ch) evs = (s, os) -> sConns s !! c = Some k -> closed k = true -> In (OClosed c) os.
Proof.
  revert s os k. induction evs as [|e evs IH] using rev_ind; intros s os k H Hk Hcl.
  - injection H as <- <-. discriminate Hk.
  - apply run_snoc_inv in H as (s1 & o1 & o2 & H1 & H2 & ->). apply in_or_app.
    destruct (close_seen _ _ _ _ _ _ H2 Hk Hcl) as [(k1 & Hk1 & Hc1)|?]; [|now right]. left. eauto.
Qed.

(** ** The connections let in *)
Definition accepts (A : list wobs) : list nat := omap (fun x => match x with WAccept c => Some c | _ => None end) A.
Lemma accepts_app A B : accepts (A ++ B) = accepts A ++ accepts B.
Proof. apply omap_app. Qed.
Lemma accepts_none A : (forall c, ~ In (WAccept c) A) -> accepts A = [].
Proof.
  induction A as [|x A IH]; [reflexivity|]. intros H. cbn. destruct x; try (apply IH; intros c Hc; apply (H c); now right).
  destruct (H c). now left.
Qed.
Lemma accepts_WL o : accepts (map WL o) = [].
Proof. apply accepts_none. intros c H. apply in_map_iff in H as (? & E & _). discriminate. Qed.
Lemma accepts_WS o : accepts (map WS o) = [].
Proof. apply accepts_none. intros c H. apply in_map_iff in H as (? & E & _). discriminate. Qed.
Lemma in_accepts c A : In (WAccept c) A <-> In c (accepts A).
Proof.
  induction A as [|x A IH]; [tauto|]. cbn. destruct x; cbn; rewrite <- ?IH; try (split; [intros [E|?]; [discriminate E|assumption]|auto]).
  split; (intros [E|?]; [left; congruence|now right]).
Qed.
Theorem accepts_seq port ch w A : wreach port ch w A -> accepts A = seq 0 (length (wOwner w)).
Proof.
  revert w A. apply wreach_ind; [reflexivity|]. intros w A e w' o _ IH H. unfold wstep in H. rewrite accepts_app, IH.
  destruct (lCrash (wL w)) eqn:Hl; [injection H as <- <-; now rewrite app_nil_r|]. destruct e as [e|e].
  - destruct (allowed w e); [|injection H as <- <-; now rewrite app_nil_r]. destruct (lstep (wL w) e) as [l' o1] eqn:El.
    destruct (sCrash (wS w)).
    + injection H as <- <-. cbn [wOwner]. now rewrite accepts_WL, app_nil_r.
    + destruct (run (wS w) (effect (wL w) e)) as [s' o2]. injection H as <- <-. cbn [wOwner].
      rewrite !accepts_app, accepts_WL, accepts_WS, app_nil_r. unfold accepted, owners.
      destruct e as [|i x|]; cbn [op_of]; try (cbn; now rewrite app_nil_r).
      destruct (lT (wL w) !! i) as [[k [|op c]]|]; try (cbn; now rewrite app_nil_r).
      destruct op; try (cbn; now rewrite app_nil_r).
      * destruct (lane_done _); [cbn; now rewrite app_nil_r|]. rewrite app_length. cbn [length accepts omap list_omap]. rewrite Nat.add_1_r, seq_S. reflexivity.
      * cbn. now rewrite map_length, app_nil_r.
  - destruct (may_serve w e); [|injection H as <- <-; now rewrite app_nil_r]. destruct (step (wS w) e) as [s' o1]. injection H as <- <-.
    cbn [wOwner]. now rewrite accepts_WS, app_nil_r.
Qed.

(** ** Everyone has been served *)
Lemma all_closed port ch w B x e w' C : wreach port ch w B -> wstep w e = (w', WL x :: C) -> ends x = true -> sCrash (wS w) = false ->
  forall c k, sConns (wS w) !! c = Some k -> closed k = true.
Proof.
  intros Rw H Hx Hs. destruct (wstep_life _ _ _ [] _ _ H) as (_ & e' & l' & -> & Hl & Ha & El & Hc).
  destruct (whole_parts _ _ _ _ Rw) as [Rl [evs Rs]]. pose proof (whole_inv _ _ _ _ Rw Hs) as J.
  intros c k Hk. destruct (closed k) eqn:Ek; [reflexivity|]. exfalso.
  destruct (lookup_lt_is_Some_2 (wOwner w) c) as [j Hj]; [rewrite (j_len _ J); eapply lookup_lt_Some; eauto|].
  exact (nobody _ _ _ _ _ Rl El Hx j (j_own _ J _ _ _ Hj Hk Ek)).
Qed.
Lemma crash_trace port ch w A : wreach port ch w A -> sCrash (wS w) = crashed (spart A).
Proof. intros R. destruct (whole_parts _ _ _ _ R) as [_ [evs Rs]]. exact (i_crash _ _ _ _ (init_run_inv _ _ _ _ _ Rs)). Qed.
Theorem served_before port ch w A B x C c : wreach port ch w A -> A = B ++ WL x :: C -> ends x = true ->
  crashed (spart B) = false -> In (WAccept c) B -> In (OClosed c) (spart B).
Proof.
  intros [es R] -> Hx Hcr Hin. destruct (wrun_split _ _ _ _ _ _ R) as (es1 & e & es2 & w1 & w1' & C1 & -> & R1 & H & _).
  assert (Rw : wreach port ch w1 B) by (now exists es1). rewrite <- (crash_trace _ _ _ _ Rw) in Hcr.
  apply in_accepts in Hin. rewrite (accepts_seq _ _ _ _ Rw), in_seq, (j_len _ (whole_inv _ _ _ _ Rw Hcr)) in Hin.
  destruct (lookup_lt_is_Some_2 (sConns (wS w1)) c) as [k Hk]; [lia|]. destruct (whole_parts _ _ _ _ Rw) as [_ [evs Rs]].
  eapply closed_seen; eauto. eapply all_closed; eauto.
Qed.

(** A new server starts with no connection of the one before: Server.v's [EvRestart]
    is always possible. *)
Theorem restart_possible port ch w A B i g C : wreach port ch w A -> A = B ++ WL (LLane i g) :: C ->
  crashed (spart B) = false -> exists C', C = WS ORestart :: C'.
Proof.
  intros [es R] -> Hcr. destruct (wrun_split _ _ _ _ _ _ R) as (es1 & e & es2 & w1 & w1' & C1 & -> & R1 & H & D & _ & ->).
  assert (Rw : wreach port ch w1 B) by (now exists es1). rewrite <- (crash_trace _ _ _ _ Rw) in Hcr.
  pose proof (all_closed _ _ _ _ _ _ _ _ Rw H eq_refl Hcr) as Hcl.
  destruct (wstep_life _ _ _ [] _ _ H) as (_ & e' & l' & E & Hl & Ha & El & Hc). injection E as <-.
  destruct Hc as [Hc|(s' & o' & Hr & ->)]; [congruence|].
  assert (He : exists cs, effect (wL w1) e = EvRestart :: cs).
  { clear - El Hl. unfold lstep in El. rewrite Hl in El. unfold effect, op_of. destruct e as [|j x|]; try discriminate El.
    destruct (lT (wL w1) !! j) as [[k [|op c]]|] eqn:Hi; try discriminate El.
    destruct (exec (lG (wL w1)) j k op x) as [|h pre sp wk os|pre p|p] eqn:Ex; try discriminate El. injection El as _ ->.
    destruct op; cbn in Ex; exec_cases Ex k; injection Ex; intros; subst; try discriminate. eauto. }
  destruct He as [cs He]. rewrite He in Hr. cbn [run] in Hr. unfold step in Hr at 1. rewrite Hcr in Hr.
  assert (Hf : forallb closed (sConns (wS w1)) = true).
  { apply forallb_forall. intros k Hin. apply elem_of_list_In, elem_of_list_lookup in Hin as [c Hc]. eauto. }
  rewrite Hf in Hr. destruct (run _ cs) as [s2 o2]. injection Hr as <- <-. cbn. eauto.
Qed.
Theorem same_lane port ch w A : wreach port ch w A -> crashed (spart A) = false -> tr_cancelled (spart A) = lane_done (lG (wL w)).
Proof.
  intros R Hcr. destruct (whole_parts _ _ _ _ R) as [_ [evs Rs]]. pose proof (init_run_inv _ _ _ _ _ Rs) as Iv.
  rewrite <- (i_cancel _ _ _ _ Iv). apply (j_lane _ (whole_inv _ _ _ _ R (eq_trans (i_crash _ _ _ _ Iv) Hcr))).
Qed.

(** ** What the connections do comes from events of theirs *)
Lemma serve_events w es : forall w' B, wrun w es = (w', B) -> exists evs, run (wS w) evs = (wS w', spart B) /\
  forall e, In e evs -> conn_of e = None \/ In (WServe e) es.
Proof.
  revert w. induction es as [|e es IH]; intros w w' B H; cbn in H.
  - injection H as <- <-. exists []. split; [reflexivity|]. intros e [].
  - destruct (wstep w e) as [w1 o1] eqn:E1. destruct (wrun w1 es) as [w2 o2] eqn:E2. injection H as <- <-.
    destruct (IH _ _ _ E2) as (evs & Hr & Hin). rewrite spart_app.
    assert (H1 : exists ev1, run (wS w) ev1 = (wS w1, spart o1) /\ forall x, In x ev1 -> conn_of x = None \/ WServe x = e).
    { unfold wstep in E1. destruct (lCrash (wL w)); [injection E1 as <- <-; exists []; split; [reflexivity|intros x []]|]. destruct e as [e|e].
      - destruct (allowed w e); [|injection E1 as <- <-; exists []; split; [reflexivity|intros x []]].
        destruct (lstep (wL w) e) as [l' o] eqn:El. destruct (sCrash (wS w)).
        + injection E1 as <- <-. exists []. rewrite spart_WL. split; [reflexivity|intros x []].
        + destruct (run (wS w) (effect (wL w) e)) as [s' o'] eqn:Es. injection E1 as <- <-.
          exists (effect (wL w) e). destruct (accepted_parts w e) as [_ Ea]. rewrite !spart_app, spart_WL, spart_WS, Ea. split; [exact Es|].
          intros x Hx. left. unfold effect in Hx. destruct e as [|i y|].
          * contradiction.
          * destruct (op_of (wL w) _) as [[]|]; try contradiction.
            -- cbn in Hx. destruct (hParent _); cbn in Hx; repeat destruct Hx as [<-|Hx]; try reflexivity; contradiction.
            -- destruct (hLane _); cbn in Hx; repeat destruct Hx as [<-|Hx]; try reflexivity; contradiction.
            -- destruct (lane_done _); cbn in Hx; repeat destruct Hx as [<-|Hx]; try reflexivity; contradiction.
          * cbn in Hx. destruct Hx as [<-|[]]. reflexivity.
      - destruct (may_serve w e); [|injection E1 as <- <-; exists []; split; [reflexivity|intros x []]].
        destruct (step (wS w) e) as [s' o] eqn:Es. injection E1 as <- <-. exists [e]. cbn [wS]. rewrite spart_WS. split; [cbn; now rewrite Es, app_nil_r|].
        intros x [<-|[]]. now right. }
    destruct H1 as (ev1 & Hr1 & Hin1). exists (ev1 ++ evs). split; [exact (run_trans _ _ _ _ _ _ _ Hr1 Hr)|].
    intros x Hx. apply in_app_or in Hx as [Hx|Hx].
    + destruct (Hin1 _ Hx) as [?|<-]; [now left|]. right. now left.
    + destruct (Hin _ Hx); [now left|]. right. now right.
Qed.
Lemma no_failure_ok c es evs : no_send_failure c es -> (forall e, In e evs -> conn_of e = None \/ In (WServe e) es) -> sends_ok c evs.
Proof. intros Hn H g Hg. destruct (H _ Hg) as [E|E]; [discriminate E|]. exact (Hn g E). Qed.

Theorem answered_before port ch es w A B x C c : wrun (winit port ch) es = (w, A) -> A = B ++ WL x :: C -> ends x = true ->
  crashed (spart B) = false -> In (WAccept c) B -> no_send_failure c es ->
  exists P Q, spart B = P ++ OClosed c :: Q /\ all_answered c P /\ (exists rest, framed_with c P rest /\ no_frame rest) /\
    reads c (Q ++ spart C) = [] /\ writes c (Q ++ spart C) = [] /\ frames c (Q ++ spart C) = [].
Proof.
  intros R -> Hx Hcr Hin Hn. pose proof (served_before port ch w _ B x C c (ex_intro _ es R) eq_refl Hx Hcr Hin) as Ho.
  apply in_split in Ho as (P & Q & E). exists P, Q. split; [exact E|]. destruct (serve_events _ _ _ _ R) as (evs & Hr & Hev).
  assert (E2 : spart (B ++ WL x :: C) = P ++ OClosed c :: (Q ++ spart C)).
  { rewrite spart_app, E, <- app_assoc. reflexivity. }
  rewrite E2 in Hr. exact (closing c port ch evs _ P _ Hr (no_failure_ok _ _ _ Hn Hev)).
Qed.

(** ** A request being handled keeps the server from ending *)
Definition busy (k : conn) : Prop := match cSt k with CBusy _ _ _ => True | CSend (b :: _) => b <> [] | _ => False end.
Lemma busy_step c s ev s' o k : sConns s !! c = Some k -> busy k -> step s ev = (s', o) -> (forall g, ev <> EvSendFail c g) -> writes c o = [] ->
  exists k', sConns s' !! c = Some k' /\ busy k'.
Proof.
  intros Hk Hb H Hok Hw. destruct (decide (ev_conn ev = Some c)) as [He|He].
  2: { destruct (step_other _ _ _ _ c _ He Hk H) as [Hk' _]. eauto. }
  pose proof (lookup_lt_Some _ _ _ Hk) as Hlt. unfold step in H. destruct (sCrash s); [injection H as <- <-; eauto|].
  destruct k as [inb st]. unfold busy in Hb. cbn [cSt] in Hb.
  destruct ev as [d|i| |d ch|d chunk|d|d|d|d gone|d|d| |]; cbn [ev_conn] in He; try discriminate; injection He as ->; rewrite Hk in H; try rewrite Hk in H.
  - cbn [cSt cIn] in H. unfold conn_step in H. cbn [cSt cIn] in H. destruct st as [| |corr extra tk|[|b bs]| ]; try contradiction.
    + assert (T : match tstep c (env_of s) ch (sDs s) tk with
        | TCont ds tk' os => (set_conn s c (Conn inb (CBusy corr extra tk')) ds, os)
        | TPanic => (crash s, [OCrash c]) end = (s', o) -> exists k', sConns s' !! c = Some k' /\ busy k').
      { intros E. destruct (tstep c (env_of s) ch (sDs s) tk); injection E as <- <-; [|exists (Conn inb (CBusy corr extra tk)); split; [exact Hk|exact Logic.I]].
        eexists. split; [cbn; apply list_lookup_insert; assumption|exact Logic.I]. }
      destruct tk; try exact (T H). clear T. unfold finishRequest in H. destruct extra; [|injection H as <- <-; eexists; split; [exact Hk|exact Logic.I]].
      destruct (encodeObject t v) as [payload|]; injection H as <- <-; [|eexists; split; [exact Hk|exact Logic.I]].
      eexists. split; [cbn; apply list_lookup_insert; assumption|]. unfold busy. cbn [cSt]. discriminate.
    + injection H as <- <-. exfalso. unfold writes in Hw. cbn in Hw. rewrite Nat.eqb_refl in Hw. rewrite app_nil_r in Hw. contradiction.
  - destruct st; try contradiction; injection H as <- <-; eauto.
  - destruct st; try contradiction; injection H as <- <-; eauto.
  - destruct st; try contradiction; injection H as <- <-; eauto.
  - destruct st; try contradiction; injection H as <- <-; eauto.
  - now destruct (Hok gone).
Qed.
Lemma busy_run c evs : forall s s' o k, sConns s !! c = Some k -> busy k -> run s evs = (s', o) -> sends_ok c evs -> writes c o = [] ->
  exists k', sConns s' !! c = Some k' /\ busy k'.
Proof.
  induction evs as [|ev evs IH]; intros s s' o k Hk Hb H Hok Hw; cbn in H; [injection H as <- <-; eauto|].
  destruct (step s ev) as [s1 o1] eqn:E1. destruct (run s1 evs) as [s2 o2] eqn:E2. injection H as <- <-.
  rewrite writes_app in Hw. apply app_eq_nil in Hw as [W1 W2].
  destruct (busy_step c s ev s1 o1 k Hk Hb E1) as (k1 & Hk1 & Hb1); [intros g ->; apply (Hok g); now left|exact W1|].
  apply (IH s1 s2 o2 k1); auto. intros g Hg. apply (Hok g). now right.
Qed.
Lemma frame_step w e w1 c m o : wstep w e = (w1, WS (OFrame c m) :: o) ->
  wL w1 = wL w /\ exists ev, step (wS w) ev = (wS w1, OFrame c m :: spart o).
Proof.
  intros H. unfold wstep in H. destruct (lCrash (wL w)) eqn:Hl; [discriminate H|]. destruct e as [e|e].
  - exfalso. destruct (allowed w e); [|discriminate H]. destruct (lstep (wL w) e) as [l' o1] eqn:El.
    destruct (sCrash (wS w)) eqn:Hs; [injection H as _ H; destruct o1; discriminate H|].
    destruct (run (wS w) (effect (wL w) e)) as [s' o2] eqn:Es. injection H as _ H.
    assert (Hin : In (OFrame c m) o2).
    { assert (Hin : In (WS (OFrame c m)) (accepted w e ++ map WL o1 ++ map WS o2)) by (rewrite H; now left).
      apply in_app_or in Hin as [Hin|Hin].
      - unfold accepted in Hin. destruct (op_of (wL w) e) as [[]|]; try contradiction. destruct (lane_done _); [contradiction|]. destruct Hin as [Hin|[]]. discriminate Hin.
      - apply in_app_or in Hin as [Hin|Hin]; [apply in_map_iff in Hin as (? & E & _); discriminate E|]. apply in_map_iff in Hin as (y & E & Hy). injection E as ->. exact Hy. }
    clear H. assert (Hno : forall s ev s' o, step s ev = (s', o) -> conn_of ev = None -> In (OFrame c m) o -> match ev with EvAccept | EvCancel | EvRestart => False | _ => True end).
    { intros s ev s'' o'' Hst Hco Hino. destruct ev; auto; unfold step in Hst; destruct (sCrash s);
        [injection Hst as _ <-; contradiction| | injection Hst as _ <-; contradiction| | injection Hst as _ <-; contradiction| ].
      - destruct (sCancel s); injection Hst as _ <-; contradiction.
      - injection Hst as _ <-. destruct Hino as [E|[]]; discriminate E.
      - destruct (forallb _ _); injection Hst as _ <-; [destruct Hino as [E|[]]; discriminate E|contradiction]. }
    assert (Hall : forall ev, In ev (effect (wL w) e) -> ev = EvAccept \/ ev = EvCancel \/ ev = EvRestart).
    { intros x Hx. unfold effect in Hx. destruct e as [|i y|].
      * contradiction.
      * destruct (op_of (wL w) _) as [[]|]; try contradiction.
        -- cbn in Hx. destruct (hParent _); cbn in Hx; repeat destruct Hx as [<-|Hx]; auto; contradiction.
        -- destruct (hLane _); cbn in Hx; repeat destruct Hx as [<-|Hx]; auto; contradiction.
        -- destruct (lane_done _); cbn in Hx; repeat destruct Hx as [<-|Hx]; auto; contradiction.
      * cbn in Hx. destruct Hx as [<-|[]]. auto. }
    revert Es Hin Hall. generalize (effect (wL w) e) as evs, (wS w) as s. intros evs. revert o2. induction evs as [|ev evs IH]; intros o2 s Es Hin Hall; cbn in Es.
    + injection Es as _ <-. contradiction.
    + destruct (step s ev) as [sa oa] eqn:Ea. destruct (run sa evs) as [sb ob] eqn:Eb. injection Es as -> <-.
      apply in_app_or in Hin as [Hin|Hin].
      * destruct (Hall ev (or_introl eq_refl)) as [->|[->| ->]]; exact (Hno _ _ _ _ Ea eq_refl Hin).
      * exact (IH _ _ Eb Hin (fun x Hx => Hall x (or_intror Hx))).
  - destruct (may_serve w e); [|discriminate H]. destruct (step (wS w) e) as [s' o1] eqn:Es. destruct o1 as [|y o1]; [discriminate H|].
    cbn in H. injection H as <- -> <-. cbn [wL wS]. split; [reflexivity|]. exists e. now rewrite spart_WS.
Qed.
Theorem request_holds port ch w0 A0 e w1 c m o es w2 B1 x B2 :
  wreach port ch w0 A0 -> wstep w0 e = (w1, WS (OFrame c m) :: o) -> wrun w1 es = (w2, B1 ++ WL x :: B2) -> ends x = true ->
  crashed (spart (o ++ B1)) = false -> no_send_failure c es -> writes c (spart B1) <> [].
Proof.
  intros R0 H1 H2 Hx Hcr Hn Hw. destruct (wrun_split _ _ _ _ _ _ H2) as (es1 & e2 & es2 & w3 & w3' & C & -> & R3 & H3 & _).
  pose proof (wreach_step _ _ _ _ _ _ _ R0 H1) as R1. pose proof (wreach_run _ _ _ _ _ _ _ R1 R3) as Rw.
  destruct (frame_step _ _ _ _ _ _ H1) as [_ [ev Hev]].
  destruct (whole_parts _ _ _ _ R0) as [_ [evs Rs]].
  assert (Hsv : serving port ch (spart A0) c m (wS w1)) by (exists evs, (wS w0), ev, (spart o); auto).
  assert (Hc0 : sCrash (wS w3) = false).
  { rewrite (crash_trace _ _ _ _ Rw). rewrite !spart_app, !crashed_app. rewrite spart_app, crashed_app in Hcr.
    change (spart (WS (OFrame c m) :: o)) with (OFrame c m :: spart o). change (crashed (OFrame c m :: spart o)) with (crashed (spart o)).
    rewrite <- orb_assoc, Hcr, orb_false_r, <- (crash_trace _ _ _ _ R0). destruct (sCrash (wS w0)) eqn:E; [|reflexivity].
    rewrite step_crashed in Hev by assumption. discriminate Hev. }
  destruct (serve_events _ _ _ _ R3) as (evs3 & Hr3 & Hin3).
  destruct (serving_cases _ _ _ _ _ _ Hsv) as [(inb & co & ex & t & _ & Hk & _ & _)|[_ Hcr1]].
  - destruct (busy_run c evs3 (wS w1) (wS w3) (spart B1) _ Hk Logic.I Hr3) as (k' & Hk' & Hb'); [|exact Hw|].
    + apply (no_failure_ok c es1); [|exact Hin3]. intros g Hg. apply (Hn g). apply in_or_app. now left.
    + pose proof (all_closed _ _ _ _ _ _ _ _ Rw H3 Hx Hc0 _ _ Hk') as Hcl. unfold closed in Hcl. unfold busy in Hb'. destruct (cSt k'); try discriminate Hcl. contradiction.
  - rewrite run_crashed in Hr3 by assumption. injection Hr3 as E1 _. congruence.
Qed.
