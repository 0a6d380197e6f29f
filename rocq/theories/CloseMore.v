(** * CloseMore: Close on a connection that has caught up *)
From Verif Require Import CloseSpec CloseProofs RejectProofs StreamProofs ExchangeProofs ServerProofs.
From stdpp Require Import list.
Open Scope Z_scope.
Open Scope list_scope.

Lemma no_frame_none rest : all_bytes rest = true -> no_frame rest -> zlen rest < 2 ^ 32 -> getMessage rest = GNone.
Proof.
  intros Hb Hnf Hz. destruct (getMessage rest) as [|m r|] eqn:Eg; [reflexivity| |].
  - apply getMessage_frame in Eg as [E Hm]; [|assumption]. now destruct (Hnf m r Hm).
  - exfalso. unfold getMessage in Eg. destruct (zlen rest <? 4) eqn:E4; [discriminate|].
    assert (Hh : 0 <= be_get (firstn 4 rest)).
    { apply be_get_range. rewrite <- (firstn_skipn 4 rest), all_bytes_app in Hb. now apply andb_true_iff in Hb as [? _]. }
    destruct (zlen rest <? be_get (firstn 4 rest) + 4) eqn:Es; [discriminate|].
    assert (U : uwrap 32 (4 + be_get (firstn 4 rest)) = 4 + be_get (firstn 4 rest)) by (apply Z.mod_small; lia).
    rewrite U in Eg. replace (4 + be_get (firstn 4 rest) <? 4) with false in Eg by lia. discriminate.
Qed.

(** ** Steps of a server whose connection c has no complete frame *)
Lemma calm_step s ev s' o c kk : sConns s !! c = Some kk -> getMessage (cIn kk) = GNone ->
  (forall b, ev <> EvRecv c b) -> step s ev = (s', o) ->
  frames c o = [] /\
  (sCrash s' = true \/ exists kk', sConns s' !! c = Some kk' /\ cIn kk' = cIn kk /\ (busy c s' = true -> busy c s = true)).
Proof.
  intros Hk Hg Hne H.
  assert (Hset : forall k' ds, sConns (set_conn s c k' ds) !! c = Some k').
  { intros k' ds. cbn. apply list_lookup_insert. now apply lookup_lt_Some in Hk. }
  destruct (decide (ev_conn ev = Some c)) as [He|He].
  2: { destruct (step_other _ _ _ _ c _ He Hk H) as [Hk' Ho]. split; [now apply apart_frames|]. right. exists kk.
       do 2 (split; [assumption || reflexivity|]). unfold busy. now rewrite Hk, Hk'. }
  assert (K : forall st ds, (busy c s = true \/ match st with CBusy _ _ _ | CSend _ => False | _ => True end) ->
    exists kk', sConns (set_conn s c (Conn (cIn kk) st) ds) !! c = Some kk' /\ cIn kk' = cIn kk /\
      (busy c (set_conn s c (Conn (cIn kk) st) ds) = true -> busy c s = true)).
  { intros st ds Hb. exists (Conn (cIn kk) st). split; [apply Hset|]. split; [reflexivity|].
    unfold busy at 1. rewrite Hset. intros Hx. destruct Hb as [Hb|Hb]; [exact Hb|]. destruct st; easy. }
  assert (K0 : exists kk', sConns s !! c = Some kk' /\ cIn kk' = cIn kk /\ (busy c s = true -> busy c s = true)) by eauto.
  assert (Hb : match cSt kk with CBusy _ _ _ | CSend _ => busy c s = true | _ => True end).
  { unfold busy. rewrite Hk. destruct kk as [inb []]; exact I || reflexivity. }
  unfold step in H. destruct (sCrash s) eqn:Hcr; [injection H as <- <-; split; [reflexivity|auto]|].
  destruct ev; cbn [ev_conn] in He; try discriminate; injection He as ->; rewrite Hk in H.
  - unfold conn_step in H. destruct (cSt kk) as [| |corr extra tk|[|b bs]|].
    + rewrite Hg in H. destruct (sCancel s); injection H as <- <-; (split; [reflexivity|]); right; apply K; now right.
    + injection H as <- <-. split; [reflexivity|]. now right.
    + destruct (match tk with TkRet _ _ => true | _ => false end) eqn:Et.
      * destruct tk; try discriminate. destruct (finishRequest _ _ _ _); injection H as <- <-; (split; [reflexivity|]).
        -- right. apply K. now left.
        -- now left.
      * assert (H' : match tstep c (env_of s) ch (sDs s) tk with
          | TCont ds tk' os => (set_conn s c (Conn (cIn kk) (CBusy corr extra tk')) ds, os)
          | TPanic => (crash s, [OCrash c]) end = (s', o)) by (destruct tk; try discriminate; exact H).
        destruct (tstep c (env_of s) ch (sDs s) tk) as [ds tk' os|] eqn:Ets; injection H' as <- <-.
        -- split; [|right; apply K; now left].
           destruct (tstep_obs _ _ _ _ _ _ _ _ Ets) as [->|(? & ? & ? & ? & ->)]; reflexivity.
        -- split; [reflexivity|now left].
    + injection H as <- <-. split; [reflexivity|]. right. apply K. now right.
    + injection H as <- <-. split; [reflexivity|]. right. apply K. now left.
    + injection H as <- <-. split; [reflexivity|]. now right.
  - exfalso. eapply Hne. reflexivity.
  - destruct kk as [inb []]; injection H as <- <-; (split; [reflexivity|]); right; try exact K0. apply K. now right.
  - destruct kk as [inb []]; injection H as <- <-; (split; [reflexivity|]); right; try exact K0. apply K. now right.
  - destruct kk as [inb []]; injection H as <- <-; (split; [reflexivity|]); right; exact K0.
  - destruct kk as [inb []]; try (injection H as <- <-; split; [reflexivity|]; right; exact K0).
    destruct gone; injection H as <- <-; (split; [reflexivity|]); [right; apply K; now right|now left].
Qed.

(** ** Nobody has begun *)
Definition idle_calls (c : nat) (k : ksys) : Prop :=
  kStop k = false /\ kFd k = false /\ (forall p, In p (kCl k) -> p = KStore) /\
  (kCl k <> [] -> exists kk, sConns (kS k) !! c = Some kk).
Lemma conn_stays s ev s' o c kk : sConns s !! c = Some kk -> step s ev = (s', o) -> exists kk', sConns s' !! c = Some kk'.
Proof.
  intros Hk H. destruct (decide (ev_conn ev = Some c)) as [He|He].
  2: { destruct (step_other _ _ _ _ _ _ He Hk H) as [Hk' _]. eauto. }
  assert (Hset : forall k' ds, exists kk', sConns (set_conn s c k' ds) !! c = Some kk').
  { intros k' ds. exists k'. cbn. apply list_lookup_insert. now apply lookup_lt_Some in Hk. }
  unfold step in H. destruct (sCrash s); [injection H as <- <-; eauto|].
  destruct ev; cbn in He; try discriminate; injection He as ->; rewrite Hk in H.
  - apply conn_step_own in H as [_ [(k' & ds & ->)|[->| ->]]]; [apply Hset|cbn; eauto|eauto].
  - destruct kk as [? []]; try (injection H as <- <-; eauto). destruct (_ && _); injection H as <- <-; eauto.
  - destruct kk as [? []]; injection H as <- <-; eauto.
  - destruct kk as [? []]; injection H as <- <-; eauto.
  - destruct kk as [? []]; injection H as <- <-; cbn; eauto.
  - destruct kk as [? []]; try (injection H as <- <-; eauto). destruct gone; injection H as <- <-; [apply Hset|cbn; eauto].
Qed.
Lemma in_insert {A} (l : list A) i x y : In y (<[i := x]> l) -> y = x \/ In y l.
Proof. intros H. apply elem_of_list_In, elem_of_list_lookup in H as (j & Hj).
  apply list_lookup_insert_Some in Hj as [(_ & -> & _)|[_ Hj]]; [now left|]. right. apply elem_of_list_In. eapply elem_of_list_lookup_2; eauto.
Qed.
Lemma wake_in p l : In p (map wake l) -> p <> KSleep /\ (p = KWoken \/ In p l).
Proof.
  intros H. apply in_map_iff in H as (q & <- & Hq). destruct q; cbn; split; try discriminate; auto.
Qed.
Lemma not_begun_idle c port ch es k os : krun c (kinit port ch) es = (k, os) -> not_begun os -> idle_calls c k.
Proof.
  revert es k os. apply (krun_ind c (fun k es os => not_begun os -> idle_calls c k)).
  { intros _. do 2 (split; [reflexivity|]). split; [intros p []|]. intros Hx. now destruct Hx. }
  intros k es os e k' o _ IH H Hn.
  assert (Hn1 : not_begun os) by (intros i Hi; apply (Hn i), in_or_app; now left).
  assert (Hn2 : not_begun o) by (intros i Hi; apply (Hn i), in_or_app; now right).
  specialize (IH Hn1). destruct IH as (I1 & I2 & I3 & I4). unfold kstep in H. destruct (sCrash (kS k)).
  { injection H as <- <-. now repeat split. }
  destruct e as [ev| |i].
  - destruct (allowed c k ev) as [ev'|]; [|injection H as <- <-; now repeat split].
    destruct (step (kS k) ev') as [s' os'] eqn:Es. injection H as <- <-. unfold idle_calls. cbn [kS kStop kFd kCl].
    do 2 (split; [assumption|]).
    assert (Q : forall b : bool, (if b then map wake (kCl k) else kCl k) = kCl k).
    { intros []; [|reflexivity]. clear -I3. induction (kCl k) as [|p l IH]; [reflexivity|]. cbn.
      rewrite IH by (intros q Hq; apply I3; now right). now rewrite (I3 p) by (now left). }
    rewrite Q. split; [assumption|]. intros Hne. destruct (I4 Hne) as [kk Hk]. eapply conn_stays; eauto.
  - destruct (sConns (kS k) !! c) as [kk|] eqn:Hk; injection H as <- <-; [|do 3 (split; [assumption|]); now rewrite Hk].
    unfold idle_calls. cbn [kS kStop kFd kCl]. do 2 (split; [assumption|]).
    split; [|intros _; eauto]. intros p Hp. apply in_app_or in Hp as [Hp|[<-|[]]]; auto.
  - destruct (kCl k !! i) as [p|] eqn:Hi; [|injection H as <- <-; now repeat split].
    rewrite (I3 p) in H by (apply elem_of_list_In; eapply elem_of_list_lookup_2; eauto). injection H as <- <-.
    exfalso. apply (Hn2 i). now left.
Qed.

(** ** Closing in good order *)
Definition grace (c : nat) (k : ksys) : Prop :=
  kStop k = true /\ (exists kk, sConns (kS k) !! c = Some kk /\ getMessage (cIn kk) = GNone) /\
  (forall p, In p (kCl k) ->
     match p with KSleep => busy c (kS k) = true | KStore | KWait => True | _ => busy c (kS k) = false end) /\
  (kFd k = true -> busy c (kS k) = false).
Lemma grace_step c k e k' o : sCrash (kS k) = false -> grace c k -> kstep c k e = (k', o) ->
  frames c (srv o) = [] /\ no_panic o /\ (sCrash (kS k') = true \/ grace c k').
Proof.
  intros Hcr (G1 & (kk & Hk & Hg) & G3 & G4) H. unfold kstep in H. rewrite Hcr in H.
  assert (G : grace c k) by (split; [assumption|]; eauto).
  destruct e as [ev| |i].
  - destruct (allowed c k ev) as [ev'|] eqn:Ea.
    2: { injection H as <- <-. split; [reflexivity|]. split; [easy|now right]. }
    destruct (step (kS k) ev') as [s' os'] eqn:Es. injection H as <- <-. cbn [kS].
    assert (Hne : forall b, ev' <> EvRecv c b).
    { intros b ->. destruct ev; cbn in Ea; try discriminate; try (destruct (_ && _); discriminate).
      destruct (Nat.eqb_spec c0 c) as [->|Hn]; [|congruence]. destruct (kFd k); [discriminate|]. rewrite G1 in Ea. discriminate. }
    destruct (calm_step _ _ _ _ _ _ Hk Hg Hne Es) as [F Hc].
    rewrite srv_app, srv_dropped, srv_map. split; [exact F|]. split.
    { intros j Hj. apply in_app_or in Hj as [Hj|Hj]; [apply in_dropped in Hj as [b Hb]; discriminate|].
      apply in_map_iff in Hj as (y & Hy & _). discriminate. }
    destruct Hc as [Hc|(kk' & Hk' & Hin & Hbz)]; [now left|]. right. unfold grace. cbn [kS kStop kFd kCl].
    split; [assumption|]. split; [exists kk'; split; [assumption|now rewrite Hin]|].
    split.
    + intros p Hp. destruct (busy c (kS k)) eqn:Eb; destruct (busy c s') eqn:Eb'; cbn [andb negb] in Hp.
      * apply G3. exact Hp.
      * apply wake_in in Hp as [Hns [->|Hp]]; [reflexivity|]. apply G3 in Hp. destruct p; try exact I; congruence.
      * discriminate (Hbz eq_refl).
      * apply G3. exact Hp.
    + intros Hf. specialize (G4 Hf). destruct (busy c s'); [|reflexivity]. rewrite G4 in Hbz. symmetry. auto.
  - rewrite Hk in H. injection H as <- <-. split; [reflexivity|]. split; [easy|]. right. unfold grace. cbn [kS kStop kFd kCl].
    split; [assumption|]. split; [eauto|]. split; [|assumption].
    intros p Hp. apply in_app_or in Hp as [Hp|[<-|[]]]; [now apply G3|exact I].
  - destruct (kCl k !! i) as [p|] eqn:Hi.
    2: { injection H as <- <-. split; [reflexivity|]. split; [easy|now right]. }
    assert (Hp : In p (kCl k)) by (apply elem_of_list_In; eapply elem_of_list_lookup_2; eauto).
    pose proof (G3 p Hp) as Gp.
    assert (Ins : forall q, match q with KSleep => busy c (kS k) = true | KStore | KWait => True | _ => busy c (kS k) = false end ->
      forall r, In r (<[i := q]> (kCl k)) ->
      match r with KSleep => busy c (kS k) = true | KStore | KWait => True | _ => busy c (kS k) = false end).
    { intros q Hq r Hr. apply in_insert in Hr as [->|Hr]; [exact Hq|now apply G3]. }
    destruct p.
    + injection H as <- <-. split; [reflexivity|]. split; [intros j [Hj|[]]; discriminate|]. right.
      unfold grace. cbn [kS kStop kFd kCl]. split; [reflexivity|]. split; [eauto|]. split; [now apply Ins|assumption].
    + injection H as <- <-. split; [reflexivity|]. split; [easy|]. right. unfold grace, set_call. cbn [kS kStop kFd kCl].
      split; [assumption|]. split; [eauto|]. split; [|assumption]. apply Ins. now destruct (busy c (kS k)).
    + injection H as <- <-. split; [reflexivity|]. split; [easy|now right].
    + rewrite Gp in H. injection H as <- <-. split; [reflexivity|]. split; [easy|]. right. unfold grace, set_call. cbn [kS kStop kFd kCl].
      split; [assumption|]. split; [eauto|]. split; [|assumption]. now apply Ins.
    + injection H as <- <-. split; [reflexivity|]. split; [intros j [Hj|[]]; discriminate|]. right.
      unfold grace. cbn [kS kStop kFd kCl]. split; [assumption|]. split; [eauto|]. split; [now apply Ins|auto].
    + destruct (ended c (kS k)); injection H as <- <-; (split; [reflexivity|]).
      * split; [intros j [Hj|[]]; discriminate|]. right. unfold grace, set_call. cbn [kS kStop kFd kCl].
        split; [assumption|]. split; [eauto|]. split; [|assumption]. now apply Ins.
      * split; [easy|now right].
    + injection H as <- <-. split; [reflexivity|]. split; [easy|now right].
Qed.
Lemma grace_run c es k k' os : grace c k -> krun c k es = (k', os) ->
  frames c (srv os) = [] /\ no_panic os /\ (sCrash (kS k') = true \/ grace c k').
Proof.
  intros G. revert es k' os.
  apply (krun_ind c (fun k' es os => frames c (srv os) = [] /\ no_panic os /\ (sCrash (kS k') = true \/ grace c k'))).
  { split; [reflexivity|]. split; [easy|now right]. }
  intros k1 es os e k2 o _ (F & N & IH) H. destruct (sCrash (kS k1)) eqn:Hcr.
  { rewrite kstep_crashed in H by assumption. injection H as <- <-. rewrite app_nil_r. auto. }
  destruct IH as [|IH]; [discriminate|]. destruct (grace_step _ _ _ _ _ Hcr IH H) as (F2 & N2 & G2).
  rewrite srv_app, frames_app, F, F2. split; [reflexivity|]. split; [|assumption].
  intros i Hi. apply in_app_or in Hi as [Hi|Hi]; [now apply (N i)|now apply (N2 i)].
Qed.

(** Where the flag is set first. *)
Lemma begin_grace c port ch e1 k1 A i k2 : krun c (kinit port ch) e1 = (k1, A) -> not_begun A ->
  caught_up c (srv A) -> kstep c k1 (KStep i) = (k2, [KStopped i]) ->
  sCrash (kS k1) = false /\ kS k2 = kS k1 /\ grace c k2 /\ kFd k2 = false.
Proof.
  intros H1 Hn (rest & (Hr & Hw) & Hnf & Hz) H2. destruct (not_begun_idle _ _ _ _ _ _ H1 Hn) as (I1 & I2 & I3 & I4).
  unfold kstep in H2. destruct (sCrash (kS k1)) eqn:Hcr; [discriminate|].
  destruct (kCl k1 !! i) as [p|] eqn:Hi; [|discriminate].
  rewrite (I3 p) in H2 by (apply elem_of_list_In; eapply elem_of_list_lookup_2; eauto). injection H2 as <-.
  split; [reflexivity|]. split; [reflexivity|]. split; [|exact I2]. unfold grace. cbn [kS kStop kFd kCl].
  destruct I4 as [kk Hk]; [intros E; rewrite E in Hi; discriminate|].
  split; [reflexivity|]. split.
  - exists kk. split; [assumption|]. destruct (kintake _ _ _ _ _ _ H1) as [_ Hin]. specialize (Hin Hcr). rewrite Hk in Hin.
    destruct Hin as [(Er & _) Hb]. rewrite Hr in Er. apply app_inv_head in Er. subst rest. now apply no_frame_none.
  - split; [|congruence]. intros p' Hp. apply in_insert in Hp as [->|Hp]; [exact I|]. now rewrite (I3 _ Hp).
Qed.

(** ** Replies are not cut *)
Lemma kflow_step c os k e k' o : sCrash (kS k) = false -> flow c os (kS k) -> (kFd k = true -> busy c (kS k) = false) ->
  sends_ok c (evs_of [e]) -> kstep c k e = (k', o) -> no_panic o -> flow c (os ++ srv o) (kS k').
Proof.
  intros Hcr Hf Hb Hok H Hn.
  apply kstep_cases in H as [(ev & ev' & -> & Ha & Hs & _)|[(-> & -> & _)|(i & _ & -> & _)]].
  - eapply flow_step; [exact Hf| |exact Hs]. intros gone ->.
    assert (Hev : forall gone, ev <> EvSendFail c gone) by (intros g ->; apply (Hok g); now left).
    destruct ev; cbn in Ha; try discriminate; try (destruct (_ && _); discriminate).
    + destruct (Nat.eqb_spec c0 c) as [->|Hne]; cbn [andb] in Ha; [|discriminate].
      destruct (kFd k) eqn:Ef; cbn [andb] in Ha; [|discriminate]. specialize (Hb eq_refl).
      unfold busy in Hb. unfold in_send in Ha. destruct (sConns (kS k) !! c) as [[? []]|]; discriminate.
    + destruct (Nat.eqb_spec c0 c) as [->|Hne]; [|discriminate]. destruct (kFd k); [discriminate|]. destruct (kStop k); discriminate.
    + destruct (Nat.eqb_spec c0 c) as [->|Hne]; cbn [andb] in Ha; [now destruct (Hev gone0)|]. congruence.
  - now rewrite app_nil_r.
  - exfalso. apply (Hn i). now left.
Qed.
Lemma sends_ok_app' c a b : sends_ok c (evs_of (a ++ b)) -> sends_ok c (evs_of a) /\ sends_ok c (evs_of b).
Proof. rewrite evs_of_app. apply sends_ok_app. Qed.
Lemma begin_flow c port ch e1 k1 A : krun c (kinit port ch) e1 = (k1, A) -> not_begun A -> sends_ok c (evs_of e1) ->
  flow c (srv A) (kS k1).
Proof.
  revert e1 k1 A. apply (krun_ind c (fun k es os => not_begun os -> sends_ok c (evs_of es) -> flow c (srv os) (kS k))).
  { intros _ _. apply flow_init. }
  intros k es os e k' o Hr IH H Hn Hok. apply sends_ok_app' in Hok as [Hok1 Hok2].
  assert (Hn1 : not_begun os) by (intros i Hi; apply (Hn i), in_or_app; now left).
  specialize (IH Hn1 Hok1). destruct (not_begun_idle _ _ _ _ _ _ Hr Hn1) as (I1 & I2 & I3 & I4).
  rewrite srv_app. destruct (sCrash (kS k)) eqn:Hcr.
  { rewrite kstep_crashed in H by assumption. injection H as <- <-. now rewrite app_nil_r. }
  eapply kflow_step; eauto; [congruence|].
  intros i Hi. apply kstep_cases in H as [(ev & ev' & _ & _ & _ & _ & _ & _ & Hx)|[(_ & _ & Hx)|(j & _ & -> & Hj & _)]].
  - destruct (Hx _ Hi) as [(? & ?)|(? & ?)]; discriminate.
  - now apply (Hx i).
  - enough (KWoken = KStore) by discriminate. apply I3. apply elem_of_list_In. eapply elem_of_list_lookup_2; eauto.
Qed.

Lemma grace_answered c es k k' os A : sCrash (kS k) = false -> grace c k -> flow c A (kS k) ->
  krun c k es = (k', os) -> sends_ok c (evs_of es) ->
  (sCrash (kS k') = false -> flow c (A ++ srv os) (kS k')) /\
  ((exists j, In (KReturned j) os) -> all_answered c (A ++ srv os)).
Proof.
  intros Hcr0 G F. revert es k' os.
  apply (krun_ind c (fun k' es os => sends_ok c (evs_of es) ->
    (sCrash (kS k') = false -> flow c (A ++ srv os) (kS k')) /\
    ((exists j, In (KReturned j) os) -> all_answered c (A ++ srv os)))).
  { intros _. cbn [srv flat_map]. rewrite app_nil_r. split; [auto|]. now intros [j []]. }
  intros k1 es os e k2 o Hr IH H Hok. apply sends_ok_app' in Hok as [Hok1 Hok2]. destruct (IH Hok1) as [IF IA].
  destruct (grace_run _ _ _ _ _ G Hr) as (_ & _ & Hg). destruct (sCrash (kS k1)) eqn:Hcr.
  { rewrite kstep_crashed in H by assumption. injection H as <- <-. rewrite app_nil_r. split; [intros; congruence|assumption]. }
  destruct Hg as [|Hg]; [discriminate|]. specialize (IF eq_refl).
  destruct (grace_step _ _ _ _ _ Hcr Hg H) as (_ & N & _). rewrite srv_app, app_assoc.
  destruct Hg as (_ & _ & _ & G4). pose proof (kflow_step _ _ _ _ _ _ Hcr IF G4 Hok2 H N) as F2.
  split; [intros _; exact F2|]. intros [j Hj]. apply in_app_or in Hj as [Hj|Hj].
  - destruct (returned_ended _ _ _ _ _ _ Hr Hj) as [inb Hk]. destruct (ended_step _ _ _ _ _ _ H Hk) as [_ Hs].
    destruct (silent_eq c (A ++ srv os) (srv o) Hs) as (E1 & E2 & E3 & E4). unfold all_answered. rewrite E2, E3, E4.
    apply IA. eauto.
  - destruct (returned_step _ _ _ _ _ _ H Hj) as [He Hke]. apply ended_conn in He as [inb Hk].
    destruct F2 as (_ & _ & F2). rewrite Hke in F2. specialize (F2 Hcr). rewrite Hk in F2. destruct F2 as (_ & _ & Q & _). exact Q.
Qed.

(** C47: Close on a connection that has caught up. *)
Lemma graceful c port ch e1 k1 A i k2 e2 k3 B :
  krun c (kinit port ch) e1 = (k1, A) -> not_begun A -> caught_up c (srv A) ->
  kstep c k1 (KStep i) = (k2, [KStopped i]) -> krun c k2 e2 = (k3, B) ->
  no_panic B /\ frames c (srv B) = [] /\
  (sends_ok c (evs_of (e1 ++ e2)) -> (exists j, In (KReturned j) B) -> all_answered c (srv (A ++ B))).
Proof.
  intros H1 Hn Hc H2 H3. destruct (begin_grace _ _ _ _ _ _ _ _ H1 Hn Hc H2) as (Hcr & E & G & Hfd).
  destruct (grace_run _ _ _ _ _ G H3) as (F & N & _). split; [exact N|]. split; [exact F|].
  intros Hok Hj. apply sends_ok_app' in Hok as [Hok1 Hok2]. rewrite srv_app.
  assert (Hcr2 : sCrash (kS k2) = false) by (now rewrite E).
  assert (F2 : flow c (srv A) (kS k2)) by (rewrite E; eapply begin_flow; eauto).
  exact (proj2 (grace_answered _ _ _ _ _ _ Hcr2 G F2 H3 Hok2) Hj).
Qed.

(** ** Nobody sleeps for nothing *)
Definition awake (c : nat) (k : ksys) : Prop :=
  (forall p, In p (kCl k) -> p = KSleep -> busy c (kS k) = true) /\ (kCl k <> [] -> exists kk, sConns (kS k) !! c = Some kk).
Lemma awake_reach c port ch es k os : krun c (kinit port ch) es = (k, os) -> awake c k.
Proof.
  revert es k os. apply (krun_ind c (fun k es os => awake c k)).
  { split; [intros p []|]. cbn. congruence. }
  intros k es os e k' o _ [IH IC] H. unfold kstep in H. destruct (sCrash (kS k)); [now injection H as <- <-|].
  assert (Ne : forall i p, kCl k !! i = Some p -> exists kk, sConns (kS k) !! c = Some kk).
  { intros i p Hi. apply IC. intros E. rewrite E in Hi. discriminate. }
  assert (Ins : forall i q r, q <> KSleep -> In r (<[i := q]> (kCl k)) -> r = KSleep -> busy c (kS k) = true).
  { intros i q r Hq Hr ->. apply in_insert in Hr as [E|Hr]; [congruence|]. exact (IH KSleep Hr eq_refl). }
  destruct e as [ev| |i].
  - destruct (allowed c k ev) as [ev'|]; [|now injection H as <- <-].
    destruct (step (kS k) ev') as [s' os'] eqn:Es. injection H as <- <-. unfold awake. cbn [kS kCl]. split.
    + intros p Hp ->. destruct (busy c (kS k)) eqn:Eb; destruct (busy c s') eqn:Eb'; cbn [andb negb] in Hp; auto.
      * apply wake_in in Hp as [? _]. congruence.
      * exact (IH KSleep Hp eq_refl).
    + intros Hne. destruct IC as [kk Hk]; [|eapply conn_stays; eauto].
      intros E. apply Hne. rewrite E. now destruct (_ && _).
  - destruct (sConns (kS k) !! c) as [kk|] eqn:Hk; injection H as <- <-; [|split; [exact IH|now rewrite Hk]].
    split; cbn [kS kCl]; [|intros _; eauto]. intros p Hp ->. apply in_app_or in Hp as [Hp|[Hp|[]]]; [exact (IH _ Hp eq_refl)|discriminate].
  - destruct (kCl k !! i) as [p|] eqn:Hi; [|now injection H as <- <-]. pose proof (Ne _ _ Hi) as Hex.
    destruct p; try (injection H as <- <-).
    + split; cbn [kS kCl]; [|auto]. intros r. now apply Ins.
    + split; cbn [set_call kS kCl]; [|auto]. intros r Hr ->. destruct (busy c (kS k)) eqn:Eb; [reflexivity|].
      now apply (Ins i KShut KSleep).
    + now split.
    + destruct (busy c (kS k)) eqn:Eb; injection H as <- <-; (split; cbn [set_call kS kCl]; [|auto]).
      * intros r Hr ->. unfold busy in *. cbn [sConns crash]. exact Eb.
      * intros r Hr ->. discriminate (Ins i KShut KSleep ltac:(discriminate) Hr eq_refl).
    + split; cbn [kS kCl]; [|auto]. intros r. now apply Ins.
    + destruct (ended c (kS k)) eqn:Ee; injection H as <- <-; [|now split].
      split; cbn [set_call kS kCl]; [|auto]. intros r. now apply Ins.
    + now split.
Qed.

(** ** C47: Close can come to its end *)
Lemma done_returned c port ch es k os i : krun c (kinit port ch) es = (k, os) -> kCl k !! i = Some KDone -> In (KReturned i) os.
Proof.
  revert es k os. apply (krun_ind c (fun k es os => kCl k !! i = Some KDone -> In (KReturned i) os)).
  { discriminate. }
  intros k es os e k' o _ IH H Hd. apply in_or_app. unfold kstep in H.
  destruct (sCrash (kS k)); [injection H as <- <-; auto|].
  assert (Ins : forall j q, q <> KDone -> <[j := q]> (kCl k) !! i = Some KDone -> In (KReturned i) os).
  { intros j q Hq Hx. apply list_lookup_insert_Some in Hx as [(_ & E & _)|[_ Hx]]; [congruence|auto]. }
  destruct e as [ev| |j].
  - destruct (allowed c k ev) as [ev'|]; [|injection H as <- <-; auto].
    destruct (step (kS k) ev') as [s' os']. injection H as <- <-. left. cbn [kCl] in Hd. apply IH.
    destruct (_ && _); [|assumption]. rewrite list_lookup_fmap in Hd.
    destruct (kCl k !! i) as [[]|]; cbn in Hd; congruence || reflexivity.
  - left. destruct (sConns (kS k) !! c); injection H as <- <-; [|auto].
    cbn [kCl] in Hd. apply lookup_app_Some in Hd as [Hd|[_ Hd]]; [auto|].
    destruct (i - length (kCl k))%nat; [discriminate|now destruct n].
  - destruct (kCl k !! j) as [p|] eqn:Hj; [|injection H as <- <-; auto].
    destruct p; try (injection H as <- <-; left; now (apply (Ins j) in Hd; [assumption|discriminate]) || now apply IH).
    + injection H as <- <-. left. apply (Ins j) in Hd; [assumption|]. now destruct (busy c (kS k)).
    + destruct (busy c (kS k)); injection H as <- <-; left; [auto|]. now apply (Ins j) in Hd.
    + destruct (ended c (kS k)); injection H as <- <-; [|now left; apply IH].
      cbn [set_call kCl] in Hd. apply list_lookup_insert_Some in Hd as [(-> & _ & _)|[_ Hd]]; [right; now left|left; auto].
Qed.

(** The calls under way, one step each. *)
Lemma go_store c k i : sCrash (kS k) = false -> kCl k !! i = Some KStore ->
  krun c k [KStep i] = (KSys (kS k) true (kFd k) (<[i := KWait]> (kCl k)), [KStopped i]).
Proof. intros Hc Hi. cbn. unfold kstep. now rewrite Hc, Hi. Qed.
Lemma go_wait c k i : sCrash (kS k) = false -> busy c (kS k) = false -> kCl k !! i = Some KWait \/ kCl k !! i = Some KWoken ->
  krun c k [KStep i] = (set_call k i KShut, []).
Proof. intros Hc Hb [Hi|Hi]; cbn; unfold kstep; now rewrite Hc, Hi, Hb. Qed.
Lemma go_shut c k i : sCrash (kS k) = false -> kCl k !! i = Some KShut ->
  krun c k [KStep i] = (KSys (kS k) (kStop k) true (<[i := KJoin]> (kCl k)), [KClosedFd i]).
Proof. intros Hc Hi. cbn. unfold kstep. now rewrite Hc, Hi. Qed.
Lemma go_join c k i : sCrash (kS k) = false -> kCl k !! i = Some KJoin -> ended c (kS k) = true ->
  krun c k [KStep i] = (set_call k i KDone, [KReturned i]).
Proof. intros Hc Hi He. cbn. unfold kstep. now rewrite Hc, Hi, He. Qed.

(** What the server does to end the connection. *)
Definition plain (os : list kobs) : Prop := forall i, ~ In (KPanicked i) os.
Definition ends (c : nat) (e : list event) : Prop :=
  Forall (fun ev => ev = EvPeerClose c \/ ev = EvConn c (Ch [] [])) e.
Lemma go_end c k kk : sCrash (kS k) = false -> sConns (kS k) !! c = Some kk -> getMessage (cIn kk) = GNone ->
  busy c (kS k) = false ->
  exists e k' os, krun c k (map KEv e) = (k', os) /\ ends c e /\ plain os /\ sCrash (kS k') = false /\
    kCl k' = kCl k /\ ended c (kS k') = true.
Proof.
  intros Hc Hk Hg Hb. destruct kk as [inb st]. cbn [cIn] in Hg.
  assert (Cl : forall k1, sCrash (kS k1) = false -> sConns (kS k1) !! c = Some (Conn inb CClosed) ->
    busy c (kS k1) = false /\ ended c (kS k1) = true).
  { intros k1 _ H1. unfold busy, ended. now rewrite H1. }
  assert (Hset : forall s k', sConns s !! c = Some k' -> forall x ds, sConns (set_conn s c x ds) !! c = Some x).
  { intros s k' Hs x ds. cbn. apply list_lookup_insert. now apply lookup_lt_Some in Hs. }
  assert (Rd : forall k1, sCrash (kS k1) = false -> sConns (kS k1) !! c = Some (Conn inb CRead) ->
    exists k' os, krun c k1 [KEv (EvPeerClose c)] = (k', os) /\ plain os /\ sCrash (kS k') = false /\
      kCl k' = kCl k1 /\ ended c (kS k') = true).
  { intros k1 H1 H2. cbn. unfold kstep. rewrite H1. cbn [allowed]. unfold step. rewrite H1, H2. cbn [map app dropped].
    do 2 eexists. split; [reflexivity|]. cbn [kS kCl]. split; [intros i [Hi|[]]; discriminate|]. split; [assumption|].
    split; [|unfold ended; now rewrite (Hset _ _ H2)]. unfold busy at 1. rewrite H2. reflexivity. }
  destruct st as [| |corr extra tk|chunks|].
  - assert (Hs : in_send c (kS k) = false) by (unfold in_send; now rewrite Hk).
    destruct (sCancel (kS k)) eqn:Hx.
    + exists [EvConn c (Ch [] [])]. cbn. unfold kstep. rewrite Hc. cbn [allowed]. rewrite Hs, !andb_false_r. unfold step. rewrite Hc, Hk.
      unfold conn_step. cbn [cSt cIn]. rewrite Hg, Hx. do 2 eexists. split; [reflexivity|]. split; [repeat constructor; now right|].
      cbn [kS kCl]. split; [intros i [Hi|[]]; discriminate|]. split; [assumption|].
      split; [now rewrite Hb|]. unfold ended. now rewrite (Hset _ _ Hk).
    + destruct (Rd (KSys (set_conn (kS k) c (Conn inb CRead) (sDs (kS k))) (kStop k) (kFd k) (kCl k)) Hc (Hset _ _ Hk _ _))
        as (k' & os & R & P & C' & L & En).
      exists [EvConn c (Ch [] []); EvPeerClose c], k', os. split.
      * change (map KEv [EvConn c (Ch [] []); EvPeerClose c]) with ([KEv (EvConn c (Ch [] []))] ++ [KEv (EvPeerClose c)]).
        apply (krun_trans c _ _ _ (KSys (set_conn (kS k) c (Conn inb CRead) (sDs (kS k))) (kStop k) (kFd k) (kCl k)) []); [|exact R].
        cbn. unfold kstep. rewrite Hc. cbn [allowed]. rewrite Hs, !andb_false_r. unfold step. rewrite Hc, Hk.
        unfold conn_step. cbn [cSt cIn]. rewrite Hg, Hx, Hb. reflexivity.
      * split; [constructor; [now right|]; repeat constructor; now left|]. auto.
  - destruct (Rd k Hc Hk) as (k' & os & R & P & C' & L & En). exists [EvPeerClose c], k', os.
    split; [exact R|]. split; [repeat constructor; now left|]. auto.
  - exfalso. unfold busy in Hb. rewrite Hk in Hb. discriminate.
  - exfalso. unfold busy in Hb. rewrite Hk in Hb. discriminate.
  - exists [], k, []. split; [reflexivity|]. split; [constructor|]. split; [easy|]. split; [assumption|]. split; [reflexivity|].
    now apply Cl.
Qed.

Lemma can_return c port ch es k os i : krun c (kinit port ch) es = (k, os) -> sCrash (kS k) = false ->
  (i < length (kCl k))%nat -> ~ In (KReturned i) os -> busy c (kS k) = false -> caught_up c (srv os) ->
  exists es' k' os', krun c k es' = (k', os') /\ In (KReturned i) os' /\ no_panic os' /\
    Forall (fun ev => ev = EvPeerClose c \/ ev = EvConn c (Ch [] [])) (evs_of es').
Proof.
  intros H Hc Hi Hn Hb (rest & (Hr & Hw) & Hnf & Hz).
  destruct (awake_reach _ _ _ _ _ _ H) as [Aw Ac]. destruct Ac as [kk Hk]; [intros E; rewrite E in Hi; cbn in Hi; lia|].
  assert (Hg : getMessage (cIn kk) = GNone).
  { destruct (kintake _ _ _ _ _ _ H) as [_ Hin]. specialize (Hin Hc). rewrite Hk in Hin.
    destruct Hin as [(Er & _) Hbt]. rewrite Hr in Er. apply app_inv_head in Er. subst rest. now apply no_frame_none. }
  apply lookup_lt_is_Some in Hi as [p Hp]. pose proof (done_returned _ _ _ _ _ _ i H) as Hd. clear H.
  pose (Q := fun p => forall k, sCrash (kS k) = false -> sConns (kS k) !! c = Some kk -> busy c (kS k) = false ->
    kCl k !! i = Some p -> exists es' k' os', krun c k es' = (k', os') /\ In (KReturned i) os' /\ no_panic os' /\
    Forall (fun ev => ev = EvPeerClose c \/ ev = EvConn c (Ch [] [])) (evs_of es')).
  assert (App : forall k es1 k1 o1, krun c k es1 = (k1, o1) -> evs_of es1 = [] -> no_panic o1 ->
    (exists es' k' os', krun c k1 es' = (k', os') /\ In (KReturned i) os' /\ no_panic os' /\
      Forall (fun ev => ev = EvPeerClose c \/ ev = EvConn c (Ch [] [])) (evs_of es')) ->
    exists es' k' os', krun c k es' = (k', os') /\ In (KReturned i) os' /\ no_panic os' /\
      Forall (fun ev => ev = EvPeerClose c \/ ev = EvConn c (Ch [] [])) (evs_of es')).
  { intros k0 es1 k1 o1 R1 E1 N1 (es2 & k2 & o2 & R2 & I2 & N2 & F2). exists (es1 ++ es2), k2, (o1 ++ o2).
    split; [eapply krun_trans; eauto|]. split; [apply in_or_app; now right|]. split.
    - intros j Hj. apply in_app_or in Hj as [Hj|Hj]; [now apply (N1 j)|now apply (N2 j)].
    - rewrite evs_of_app, E1. exact F2. }
  assert (Lk : forall (l : list kphase) p q, l !! i = Some p -> <[i := q]> l !! i = Some q).
  { intros l p0 q Hl. apply list_lookup_insert. now apply lookup_lt_Some in Hl. }
  assert (QJ : Q KJoin).
  { intros k0 C0 K0 B0 P0. destruct (go_end c k0 kk C0 K0 Hg B0) as (e & k1 & o1 & R1 & E1 & N1 & C1 & L1 & En1).
    exists (map KEv e ++ [KStep i]), (set_call k1 i KDone), (o1 ++ [KReturned i]). split.
    - eapply krun_trans; [exact R1|]. apply go_join; [assumption| |assumption]. now rewrite L1.
    - split; [apply in_or_app; right; now left|]. split.
      + intros j Hj. apply in_app_or in Hj as [Hj|[Hj|[]]]; [now apply (N1 j)|discriminate].
      + rewrite evs_of_app. assert (E : evs_of (map KEv e) = e).
        { clear. induction e as [|x e IH]; [reflexivity|]. cbn. f_equal. exact IH. }
        rewrite E. cbn. rewrite app_nil_r. exact E1. }
  assert (QS : Q KShut).
  { intros k0 C0 K0 B0 P0. eapply App; [apply go_shut; [exact C0|exact P0]|reflexivity|intros j [Hj|[]]; discriminate|].
    apply QJ; cbn [kS kCl]; auto. eapply Lk; eauto. }
  assert (QW : Q KWait).
  { intros k0 C0 K0 B0 P0. eapply App; [apply go_wait; [exact C0|exact B0|left; exact P0]|reflexivity|intros j []|]. apply QS; cbn [set_call kS kCl]; auto. eapply Lk; eauto. }
  assert (QK : Q KWoken).
  { intros k0 C0 K0 B0 P0. eapply App; [apply go_wait; [exact C0|exact B0|right; exact P0]|reflexivity|intros j []|]. apply QS; cbn [set_call kS kCl]; auto. eapply Lk; eauto. }
  destruct p; [| |exfalso| | | |exfalso].
  - eapply App; [apply go_store; eauto|reflexivity|intros j [Hj|[]]; discriminate|]. apply QW; cbn [kS kCl]; auto. eapply Lk; eauto.
  - now apply QW.
  - enough (busy c (kS k) = true) by congruence. apply (Aw KSleep); [|reflexivity]. apply elem_of_list_In. eapply elem_of_list_lookup_2; eauto.
  - now apply QK.
  - now apply QS.
  - now apply QJ.
  - now apply Hn, Hd.
Qed.
