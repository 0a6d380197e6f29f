(** * WholeDrain: a server without a request in hand can always come to its end *)
From Verif Require Export WholeEnd LifeRest LifeApi LifeCrash.
From stdpp Require Import gmap list.
From Coq Require Import ZifyBool ZifyNat.
Open Scope Z_scope.
Open Scope list_scope.

Definition idle (k : conn) : Prop := closed k = true \/ (getMessage (cIn k) = GNone /\ (cSt k = CLoop \/ cSt k = CRead)).
Definition all_idle (s : sys) : Prop := forall c k, sConns s !! c = Some k -> idle k.

(** ** One client hangs up *)
Lemma hang_one w c i k : lCrash (wL w) = false -> sCrash (wS w) = false -> wOwner w !! c = Some i -> at_work (wL w) i = true ->
  sConns (wS w) !! c = Some k -> idle k ->
  exists w' B k', wrun w [WServe (EvConn c (Ch [] [])); WServe (EvPeerClose c)] = (w', B) /\
    wL w' = wL w /\ wOwner w' = wOwner w /\ sCrash (wS w') = false /\ sConns (wS w') = <[c := k']> (sConns (wS w)) /\ closed k' = true.
Proof.
  intros Hl Hs Ho Hw Hk Hi. destruct w as [l s ow]. cbn [wL wS wOwner] in *. destruct k as [inb st].
  pose proof (lookup_lt_Some _ _ _ Hk) as Hlt.
  assert (Hstep : forall s' o1 s'' o2, step s (EvConn c (Ch [] [])) = (s', o1) -> step s' (EvPeerClose c) = (s'', o2) ->
    wrun (Whole l s ow) [WServe (EvConn c (Ch [] [])); WServe (EvPeerClose c)] = (Whole l s'' ow, map WS o1 ++ map WS o2)).
  { intros s' o1 s'' o2 E1 E2.
    assert (S1 : forall t t' o ev, conn_of ev = Some c -> match ev with EvAccept | EvCancel | EvRestart => False | _ => True end ->
      step t ev = (t', o) -> wstep (Whole l t ow) (WServe ev) = (Whole l t' ow, map WS o)).
    { intros t t' o ev Hc He E. unfold wstep. cbn [wL wS wOwner]. rewrite Hl. unfold may_serve. rewrite Hc. cbn [wOwner wL]. rewrite Ho, Hw, E.
      destruct ev; try contradiction; reflexivity. }
    cbn [wrun]. rewrite (S1 _ _ _ (EvConn c (Ch [] [])) eq_refl Logic.I E1), (S1 _ _ _ (EvPeerClose c) eq_refl Logic.I E2). now rewrite app_nil_r. }
  assert (Hsame : <[c:=Conn inb st]> (sConns s) = sConns s) by (now apply list_insert_id).
  assert (Hset : forall k ds, sConns (set_conn s c k ds) !! c = Some k) by (intros; cbn; now apply list_lookup_insert).
  destruct Hi as [Hi|[Hg [Hst|Hst]]]; cbn [cIn cSt] in *.
  - unfold closed in Hi. cbn in Hi. destruct st; try discriminate.
    do 3 eexists. split; [eapply Hstep|].
    + unfold step. rewrite Hs, Hk. unfold Server.conn_step. cbn [cSt]. reflexivity.
    + unfold step. rewrite Hs, Hk. reflexivity.
    + cbn. split_and!; auto; [symmetry; exact Hsame|reflexivity].
  - subst st. destruct (sCancel s) eqn:Ex.
    + do 3 eexists. split; [eapply Hstep|].
      * unfold step. rewrite Hs, Hk. unfold Server.conn_step. cbn [cSt cIn]. rewrite Hg, Ex. reflexivity.
      * unfold step. cbn [sCrash set_conn]. rewrite Hs. rewrite Hset. reflexivity.
      * cbn. split_and!; auto.
    + do 3 eexists. split; [eapply Hstep|].
      * unfold step. rewrite Hs, Hk. unfold Server.conn_step. cbn [cSt cIn]. rewrite Hg, Ex. reflexivity.
      * unfold step. cbn [sCrash set_conn]. rewrite Hs. rewrite Hset. reflexivity.
      * cbn. split_and!; auto; try apply list_insert_insert; reflexivity.
  - subst st. do 3 eexists. split; [eapply Hstep|].
    + unfold step. rewrite Hs, Hk. unfold Server.conn_step. cbn [cSt cIn]. reflexivity.
    + unfold step. rewrite Hs, Hk. reflexivity.
    + cbn. split_and!; auto.
Qed.

Lemma hang_all i cs : forall w, lCrash (wL w) = false -> sCrash (wS w) = false -> length (wOwner w) = length (sConns (wS w)) ->
  at_work (wL w) i = true -> all_idle (wS w) -> Forall (fun c => wOwner w !! c = Some i) cs ->
  exists es w' B, wrun w es = (w', B) /\ Forall hanging_up es /\ wL w' = wL w /\ wOwner w' = wOwner w /\ sCrash (wS w') = false /\
    length (sConns (wS w')) = length (sConns (wS w)) /\ all_idle (wS w') /\
    (forall c k, In c cs -> sConns (wS w') !! c = Some k -> closed k = true) /\
    (forall c k, sConns (wS w) !! c = Some k -> closed k = true -> exists k', sConns (wS w') !! c = Some k' /\ closed k' = true).
Proof.
  induction cs as [|c cs IH]; intros w Hl Hs Hlen Hw Hid Hc.
  - exists [], w, []. do 7 (split; [first [reflexivity|assumption|constructor]|]). split; [intros c k []|eauto].
  - apply Forall_cons in Hc as [Hc Hcs]. destruct (lookup_lt_is_Some_2 (sConns (wS w)) c) as [k Hk].
    { rewrite <- Hlen. eapply lookup_lt_Some; eauto. }
    destruct (hang_one w c i k Hl Hs Hc Hw Hk (Hid _ _ Hk)) as (w1 & B1 & k1 & R1 & L1 & O1 & C1 & N1 & K1).
    assert (Hid1 : all_idle (wS w1)).
    { intros d kd Hd. rewrite N1 in Hd. destruct (decide (d = c)) as [->|Hne].
      - rewrite list_lookup_insert in Hd by (eapply lookup_lt_Some; eauto). injection Hd as <-. now left.
      - rewrite list_lookup_insert_ne in Hd by auto. eauto. }
    destruct (IH w1) as (es & w2 & B2 & R2 & F2 & L2 & O2 & C2 & N2 & I2 & D2 & P2); try (rewrite ?L1, ?O1, ?N1, ?insert_length; assumption).
    exists ([WServe (EvConn c (Ch [] [])); WServe (EvPeerClose c)] ++ es), w2, (B1 ++ B2).
    split; [rewrite wrun_app, R1, R2; reflexivity|]. split; [repeat constructor; exact F2|].
    split; [congruence|]. split; [congruence|]. split; [exact C2|]. split; [rewrite N2, N1; apply insert_length|]. split; [exact I2|]. split.
    + intros d kd [<-|Hin] Hd; [|eauto]. destruct (P2 c k1) as (k' & Hk' & Hcl).
      * rewrite N1. apply list_lookup_insert. eapply lookup_lt_Some; eauto.
      * exact K1.
      * congruence.
    + intros d kd Hd Hcl. destruct (decide (d = c)) as [->|Hne].
      * apply (P2 c k1); [|exact K1]. rewrite N1. apply list_lookup_insert. eapply lookup_lt_Some; eauto.
      * apply (P2 d kd); [|exact Hcl]. rewrite N1. now rewrite list_lookup_insert_ne by auto.
Qed.

(** ** One step of the start/stop machine *)
Lemma idle_effect w e s' o' : sCrash (wS w) = false -> all_idle (wS w) -> run (wS w) (effect (wL w) e) = (s', o') ->
  sCrash s' = false /\ all_idle s'.
Proof.
  intros Hs Hid H.
  assert (Hall : forall ev, In ev (effect (wL w) e) -> ev = EvAccept \/ ev = EvCancel \/ ev = EvRestart).
  { intros x Hx. unfold effect in Hx. destruct e as [|i y|].
    * contradiction.
    * destruct (op_of (wL w) _) as [[]|]; try contradiction.
      -- cbn in Hx. destruct (hParent _); cbn in Hx; repeat destruct Hx as [<-|Hx]; auto; contradiction.
      -- destruct (hLane _); cbn in Hx; repeat destruct Hx as [<-|Hx]; auto; contradiction.
      -- destruct (lane_done _); cbn in Hx; repeat destruct Hx as [<-|Hx]; auto; contradiction.
    * cbn in Hx. destruct Hx as [<-|[]]. auto. }
  revert H Hall Hs Hid. generalize (effect (wL w) e) as evs, (wS w) as s. intros evs. revert s' o'.
  induction evs as [|ev evs IH]; intros s' o' s H Hall Hs Hid; cbn in H; [injection H as <- <-; auto|].
  destruct (step s ev) as [s1 o1] eqn:E1. destruct (run s1 evs) as [s2 o2] eqn:E2. injection H as <- <-.
  assert (H1 : sCrash s1 = false /\ all_idle s1).
  { unfold step in E1. rewrite Hs in E1. destruct (Hall ev (or_introl eq_refl)) as [->|[->| ->]].
    - destruct (sCancel s); injection E1 as <- <-; [auto|]. split; [reflexivity|]. intros c k Hk. cbn in Hk. apply lookup_app_Some in Hk as [Hk|[_ Hk]]; [eauto|].
      destruct (c - _)%nat; [injection Hk as <-|discriminate]. right. split; [reflexivity|now left].
    - injection E1 as <- <-. auto.
    - destruct (forallb _ _); injection E1 as <- <-; auto. }
  destruct H1 as [H1 H2]. apply (IH s2 o2 s1); auto. intros x Hx. apply Hall. now right.
Qed.
Lemma life_step w e : lCrash (wL w) = false -> sCrash (wS w) = false -> all_idle (wS w) -> allowed w e = true ->
  exists w' B, wstep w (WLife e) = (w', B) /\ wL w' = fst (lstep (wL w) e) /\ sCrash (wS w') = false /\ all_idle (wS w').
Proof.
  intros Hl Hs Hid Ha. unfold wstep. rewrite Hl, Ha. destruct (lstep (wL w) e) as [l' o]. rewrite Hs.
  destruct (run (wS w) (effect (wL w) e)) as [s' o'] eqn:Es. destruct (idle_effect _ _ _ _ Hs Hid Es). eauto 10.
Qed.
Lemma sim_step port ch w A e : wreach port ch w A -> sCrash (wS w) = false -> all_idle (wS w) -> goes_on e ->
  exists es w' B, wrun w es = (w', B) /\ Forall hanging_up es /\ wL w' = fst (lstep (wL w) e) /\ sCrash (wS w') = false /\ all_idle (wS w').
Proof.
  intros R Hs Hid He. destruct (lCrash (wL w)) eqn:Hl.
  { exists [], w, []. unfold lstep. rewrite Hl. split_and!; auto; constructor. }
  destruct He as (i & x & -> & Hx). destruct (allowed w (LRun i x)) eqn:Ha.
  - destruct (life_step w _ Hl Hs Hid Ha) as (w' & B & Hw & H1 & H2 & H3). exists [WLife (LRun i x)], w', B.
    cbn [wrun]. rewrite Hw, app_nil_r. split_and!; auto. repeat constructor. exists i, x. auto.
  - destruct (whole_parts _ _ _ _ R) as [Rl _]. pose proof (whole_inv _ _ _ _ R Hs) as J. pose proof (lreach_inv _ _ Rl) as I.
    unfold allowed, op_of in Ha. destruct (lT (wL w) !! i) as [[k [|op c]]|] eqn:Hi; try discriminate Ha. destruct op; try discriminate Ha.
    destruct x; try discriminate Ha; [|destruct Hx; discriminate].
    assert (Hw : at_work (wL w) i = true).
    { unfold at_work. rewrite Hi. pose proof (v_codes _ I _ _ Hi) as Hc. cbn [gKind gCode] in Hc. destruct k as [cl|g0|g0 n]; [| |reflexivity].
      - apply (call_check (fun c => match c with Work _ :: _ => false | _ => true end)) in Hc; [discriminate|]. intros []; vm_compute; reflexivity.
      - cbn in Hc. repeat destruct Hc as [Hc|Hc]; try discriminate Hc; contradiction. }
    set (cs := List.filter (fun c => match wOwner w !! c with Some j => (j =? i)%nat | None => false end) (seq 0 (length (wOwner w)))).
    destruct (hang_all i cs w Hl Hs (j_len _ J) Hw Hid) as (es & w1 & B1 & R1 & F1 & L1 & O1 & C1 & N1 & I1 & D1 & _).
    { apply Forall_forall. intros d Hd. apply elem_of_list_In in Hd. apply filter_In in Hd as [_ Hd]. destruct (wOwner w !! d); [|discriminate]. apply Nat.eqb_eq in Hd. congruence. }
    assert (Ha1 : allowed w1 (LRun i XEnd) = true).
    { unfold allowed, op_of. rewrite L1, Hi. unfold may_end. apply forallb_forall. intros [j kj] Hin. cbn [fst snd].
      destruct (Nat.eqb_spec j i) as [->|]; [|reflexivity]. cbn. apply elem_of_list_In, elem_of_list_lookup in Hin as [d Hd].
      assert (Hd2 : wOwner w1 !! d = Some i /\ sConns (wS w1) !! d = Some kj).
      { clear - Hd. revert Hd. generalize (sConns (wS w1)). generalize (wOwner w1). intros ow. revert d.
        induction ow as [|y ow IH]; intros [|d] [|z ks] Hd; try discriminate; cbn in *; [split; congruence|auto]. }
      destruct Hd2 as [Hd1 Hd2]. apply (D1 d kj); [|exact Hd2]. unfold cs. apply filter_In. rewrite O1 in Hd1. split.
      - apply in_seq. apply lookup_lt_Some in Hd1. lia.
      - rewrite Hd1. apply Nat.eqb_refl. }
    destruct (life_step w1 (LRun i XEnd)) as (w2 & B2 & R2 & L2 & C2 & I2); [congruence|exact C1|exact I1|exact Ha1|].
    exists (es ++ [WLife (LRun i XEnd)]), w2, (B1 ++ B2). rewrite wrun_app, R1. cbn [wrun]. rewrite R2, app_nil_r. split; [reflexivity|].
    split; [apply Forall_app; split; [exact F1|]; repeat constructor; exists i, XEnd; auto|]. split; [now rewrite L2, L1|]. auto.
Qed.
Lemma sim port ch les : Forall goes_on les -> forall w A, wreach port ch w A -> sCrash (wS w) = false -> all_idle (wS w) ->
  exists es w' B, wrun w es = (w', B) /\ Forall hanging_up es /\ wL w' = fst (lrun (wL w) les) /\ sCrash (wS w') = false.
Proof.
  induction 1 as [|e les He _ IH]; intros w A R Hs Hid.
  - exists [], w, []. split_and!; auto; constructor.
  - destruct (sim_step _ _ _ _ e R Hs Hid He) as (es1 & w1 & B1 & R1 & F1 & L1 & C1 & I1).
    destruct (IH w1 (A ++ B1)) as (es2 & w2 & B2 & R2 & F2 & L2 & C2); auto; [eapply wreach_run; eauto|].
    exists (es1 ++ es2), w2, (B1 ++ B2). rewrite wrun_app, R1, R2. split; [reflexivity|]. split; [apply Forall_app; auto|]. split; [|exact C2].
    rewrite L2, L1. cbn [lrun]. destruct (lstep (wL w) e) as [l1 o1]. cbn [fst]. destruct (lrun l1 les). reflexivity.
Qed.

(** ** In terms of traces *)
Lemma quiet_idle c port ch evs s os k : run (init port ch) evs = (s, os) -> sends_ok c evs -> sCrash s = false -> sConns s !! c = Some k ->
  quiet_conn c os -> idle k.
Proof.
  intros H Hok Hcr Hk (Hn & rest & [Hr _] & Hnf & Hz).
  apply (flow_reach c) in H as (_ & _ & Hs); [|assumption]. specialize (Hs Hcr). rewrite Hk in Hs.
  destruct Hs as ((Er & _) & Hb & Hst). rewrite Hr in Er. apply app_inv_head in Er. destruct k as [inb st]. cbn [cIn cSt] in *. subst inb.
  assert (G : getMessage rest = GNone).
  { destruct (getMessage rest) as [|m r|] eqn:Eg; [reflexivity| |].
    - apply getMessage_frame in Eg as [E Hm]; [|assumption]. now destruct (Hnf m r Hm).
    - exfalso. unfold getMessage in Eg. destruct (zlen rest <? 4) eqn:E4; [discriminate|].
      assert (Hh : 0 <= be_get (firstn 4 rest)).
      { apply be_get_range. rewrite <- (firstn_skipn 4 rest), all_bytes_app in Hb. now apply andb_true_iff in Hb as [? _]. }
      destruct (zlen rest <? be_get (firstn 4 rest) + 4) eqn:Es; [discriminate|].
      assert (U : uwrap 32 (4 + be_get (firstn 4 rest)) = 4 + be_get (firstn 4 rest)) by (apply Z.mod_small; lia).
      rewrite U in Eg. replace (4 + be_get (firstn 4 rest) <? 4) with false in Eg by lia. discriminate. }
  destruct st as [| |corr extra tk|chunks|].
  - right. auto.
  - right. auto.
  - exfalso. destruct Hst as (ms & m & rs & Hf & _ & _ & _ & Hw). rewrite Hf, app_length in Hn. cbn in Hn. lia.
  - exfalso. destruct Hst as (ms & m & rs & part & Hf & _ & _ & _ & Hne & Hl & Hw). rewrite Hf, app_length in Hn.
    destruct chunks; [congruence|]. cbn in *. lia.
  - now left.
Qed.
Lemma life_events w es : forall w' B, wrun w es = (w', B) -> exists les, lrun (wL w) les = (wL w', lpart B) /\ forall e, In e les -> In (WLife e) es.
Proof.
  revert w. induction es as [|e es IH]; intros w w' B H; cbn in H.
  - injection H as <- <-. exists []. split; [reflexivity|]. intros e [].
  - destruct (wstep w e) as [w1 o1] eqn:E1. destruct (wrun w1 es) as [w2 o2] eqn:E2. injection H as <- <-.
    destruct (IH _ _ _ E2) as (les & Hr & Hin). rewrite lpart_app. unfold wstep in E1.
    assert (Skip : w1 = w \/ wL w1 = wL w -> lpart o1 = [] -> exists les, lrun (wL w) les = (wL w2, lpart o1 ++ lpart o2) /\ forall x, In x les -> In (WLife x) (e :: es)).
    { intros E ->. exists les. assert (wL w1 = wL w) as <- by (destruct E; congruence). split; [exact Hr|]. intros x Hx. right. auto. }
    destruct (lCrash (wL w)); [injection E1 as <- <-; apply Skip; auto|]. destruct e as [e|e].
    + destruct (allowed w e); [|injection E1 as <- <-; apply Skip; auto].
      destruct (lstep (wL w) e) as [l' o] eqn:El.
      assert (wL w1 = l' /\ lpart o1 = o) as [Ew Eo].
      { destruct (sCrash (wS w)); [injection E1 as <- <-; split; [reflexivity|apply lpart_WL]|].
        destruct (run (wS w) (effect (wL w) e)) as [s' o']. injection E1 as <- <-. split; [reflexivity|].
        destruct (accepted_parts w e) as [Ea _]. now rewrite !lpart_app, lpart_WL, lpart_WS, Ea, app_nil_r. }
      exists (e :: les). cbn [lrun]. rewrite El, <- Ew, Hr, Eo. split; [reflexivity|]. intros x [<-|Hx]; [now left|right; auto].
    + destruct (may_serve w e); [|injection E1 as <- <-; apply Skip; auto]. destruct (step (wS w) e) as [s' o]. injection E1 as <- <-.
      apply Skip; [now right|apply lpart_WS].
Qed.
Theorem drains port ch es w A : wrun (winit port ch) es = (w, A) -> no_socket_error es -> crashed (spart A) = false ->
  (forall c, no_send_failure c es) -> (forall c, In (WAccept c) A -> quiet_conn c (spart A)) ->
  exists es' w' B, wrun w es' = (w', B) /\ Forall hanging_up es' /\ crashed (spart (A ++ B)) = false /\ lCrash (wL w') = false /\ at_rest (wL w').
Proof.
  intros H Hne Hcr Hn Hq. assert (R : wreach port ch w A) by (now exists es). pose proof Hcr as Hs. rewrite <- (crash_trace _ _ _ _ R) in Hs.
  assert (Hid : all_idle (wS w)).
  { intros c k Hk. destruct (serve_events _ _ _ _ H) as (evs & Hr & Hev). eapply (quiet_idle c port ch evs); eauto using no_failure_ok.
    apply Hq. apply in_accepts. rewrite (accepts_seq _ _ _ _ R). apply in_seq. rewrite (j_len _ (whole_inv _ _ _ _ R Hs)).
    apply lookup_lt_Some in Hk. lia. }
  destruct (comes_to_rest (wL w)) as (les & Hg & Hrest). destruct (sim port ch les Hg w A R Hs Hid) as (es' & w' & B & Hw & Hc & HL & Hs').
  exists es', w', B. split; [exact Hw|]. split; [exact Hc|]. split; [now rewrite <- (crash_trace _ _ _ _ (wreach_run _ _ _ _ _ _ _ R Hw))|].
  split; [|now rewrite HL].
  assert (Hall : wrun (winit port ch) (es ++ es') = (w', A ++ B)) by (now rewrite wrun_app, H, Hw).
  destruct (life_events _ _ _ _ Hall) as (all & Hrun & Hin). apply (no_crash all (wL w') (lpart (A ++ B))) in Hrun; [tauto|].
  apply Forall_forall. intros e He. apply elem_of_list_In, Hin, in_app_or in He as [He|He].
  - unfold no_socket_error in Hne. rewrite Forall_forall in Hne. exact (Hne _ (proj2 (elem_of_list_In _ _) He)).
  - rewrite Forall_forall in Hc. specialize (Hc _ (proj2 (elem_of_list_In _ _) He)). cbn in Hc. destruct Hc as (i & x & -> & [-> | ->]); exact Logic.I.
Qed.
