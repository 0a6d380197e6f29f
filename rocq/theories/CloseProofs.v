(** * CloseProofs: what Close does *)
From Verif Require Import CloseSpec RejectProofs StreamProofs ExchangeProofs ServerProofs.
From stdpp Require Import list.
Open Scope Z_scope.
Open Scope list_scope.

(** ** Runs *)
Lemma srv_app a b : srv (a ++ b) = srv a ++ srv b.
Proof. apply flat_map_app. Qed.
Lemma srv_map os : srv (map KSrv os) = os.
Proof. induction os as [|o os IH]; [reflexivity|]. cbn. f_equal. exact IH. Qed.
Lemma evs_of_app a b : evs_of (a ++ b) = evs_of a ++ evs_of b.
Proof. apply flat_map_app. Qed.
Lemma srv_dropped c k ev : srv (dropped c k ev) = [].
Proof. destruct ev; try reflexivity. cbn. now destruct (_ && _). Qed.
Lemma in_dropped c k ev o : In o (dropped c k ev) -> exists b, o = KDropped b.
Proof. destruct ev; try easy. cbn. destruct (_ && _); [|easy]. intros [<-|[]]. eauto. Qed.
Lemma krun_app_inv c a b : forall k k' os, krun c k (a ++ b) = (k', os) ->
  exists k1 o1 o2, krun c k a = (k1, o1) /\ krun c k1 b = (k', o2) /\ os = o1 ++ o2.
Proof.
  induction a as [|e a IH]; cbn; intros k k' os H; [now exists k, [], os|].
  destruct (kstep c k e) as [k1 o1]. destruct (krun c k1 (a ++ b)) as [k2 o2] eqn:E. injection H as <- <-.
  apply IH in E as (k3 & o3 & o4 & -> & H4 & ->). exists k3, (o1 ++ o3), o4. now rewrite app_assoc.
Qed.
Lemma krun_trans c a b k k1 o1 k2 o2 : krun c k a = (k1, o1) -> krun c k1 b = (k2, o2) -> krun c k (a ++ b) = (k2, o1 ++ o2).
Proof.
  revert k k1 o1. induction a as [|e a IH]; cbn; intros k k1 o1 Ha Hb; [now injection Ha as <- <-|].
  destruct (kstep c k e) as [k3 o3]. destruct (krun c k3 a) as [k4 o4] eqn:E. injection Ha as <- <-.
  erewrite IH by eauto. now rewrite app_assoc.
Qed.
Lemma kstep_crashed c k e : sCrash (kS k) = true -> kstep c k e = (k, []).
Proof. unfold kstep. now intros ->. Qed.
Lemma krun_crashed c es : forall k, sCrash (kS k) = true -> krun c k es = (k, []).
Proof. induction es as [|e es IH]; cbn; intros k H; [reflexivity|]. rewrite kstep_crashed by assumption. now rewrite IH. Qed.
(** An invariant of steps is one of runs. *)
Lemma krun_ind (c : nat) (P : ksys -> list kevent -> list kobs -> Prop) k0 :
  P k0 [] [] ->
  (forall k es os e k' o, krun c k0 es = (k, os) -> P k es os -> kstep c k e = (k', o) -> P k' (es ++ [e]) (os ++ o)) ->
  forall es k os, krun c k0 es = (k, os) -> P k es os.
Proof.
  intros H0 Hs es. induction es as [|e es IH] using rev_ind; intros k os H.
  - now injection H as <- <-.
  - apply krun_app_inv in H as (k1 & o1 & o2 & H1 & H2 & ->). cbn in H2.
    destruct (kstep c k1 e) as [k2 o3] eqn:E. injection H2 as <- <-. rewrite app_nil_r. eauto.
Qed.

(** ** A step of the pair is a step of the server, nothing, or a panic *)
Lemma kstep_cases c k e k' o : kstep c k e = (k', o) ->
  (exists ev ev', e = KEv ev /\ allowed c k ev = Some ev' /\ step (kS k) ev' = (kS k', srv o) /\
     kStop k' = kStop k /\ kFd k' = kFd k /\
     kCl k' = (if busy c (kS k) && negb (busy c (kS k')) then map wake (kCl k) else kCl k) /\
     forall x, In x o -> (exists b, x = KDropped b) \/ exists y, x = KSrv y) \/
  (kS k' = kS k /\ srv o = [] /\ forall i, ~ In (KPanicked i) o) \/
  (exists i, e = KStep i /\ o = [KPanicked i] /\ kCl k !! i = Some KWoken /\ busy c (kS k) = true /\
     k' = KSys (crash (kS k)) (kStop k) (kFd k) (kCl k)).
Proof.
  unfold kstep. destruct (sCrash (kS k)) eqn:Hc.
  { intros [= <- <-]. right. left. auto. }
  destruct e as [ev| |i].
  - destruct (allowed c k ev) as [ev'|] eqn:Ea.
    + destruct (step (kS k) ev') as [s' os] eqn:Es. intros [= <- <-]. left. exists ev, ev'. cbn [kS kStop kFd kCl].
      rewrite srv_app, srv_dropped, srv_map. cbn [app]. do 6 (split; [now auto|]).
      intros x Hx. apply in_app_or in Hx as [Hx|Hx]; [left; eapply in_dropped; eauto|].
      right. apply in_map_iff in Hx as (y & <- & _). eauto.
    + intros [= <- <-]. right. left. auto.
  - destruct (sConns (kS k) !! c); intros [= <- <-]; right; left; auto.
  - destruct (kCl k !! i) as [[]|] eqn:Ei; try (intros [= <- <-]; right; left; cbn; split; [reflexivity|];
      split; [reflexivity|]; intros j Hj; cbn in Hj; intuition discriminate).
    + destruct (busy c (kS k)) eqn:Eb; intros [= <- <-].
      * right. right. exists i. auto.
      * right. left. auto.
    + destruct (ended c (kS k)); intros [= <- <-]; right; left; cbn; split; auto. split; [reflexivity|].
      intros j [Hj|[]]. discriminate.
Qed.

(** ** C47: the server's part is an execution of the server *)
Lemma server_run c port ch es k os : krun c (kinit port ch) es = (k, os) -> no_panic os ->
  exists evs, run (init port ch) evs = (kS k, srv os).
Proof.
  revert es k os. apply (krun_ind c (fun k es os => no_panic os -> exists evs, run (init port ch) evs = (kS k, srv os))).
  { intros _. now exists []. }
  intros k es os e k' o _ IH Hs Hn. destruct IH as [evs IH]; [intros i Hi; apply (Hn i), in_or_app; now left|].
  apply kstep_cases in Hs as [(ev & ev' & _ & _ & Hs & _)|[(E & E2 & _)|(i & _ & -> & _)]].
  - exists (evs ++ [ev']). rewrite srv_app. eapply run_snoc; eauto.
  - exists evs. rewrite srv_app, E, E2, app_nil_r. exact IH.
  - exfalso. apply (Hn i), in_or_app. right. now left.
Qed.

(** ** The bytes taken in *)
Lemma kintake c port ch es k os : krun c (kinit port ch) es = (k, os) -> intake c (srv os) (kS k).
Proof.
  revert es k os. apply (krun_ind c (fun k es os => intake c (srv os) (kS k))).
  { split; [exists []; split; [reflexivity|constructor]|]. intros _. split; reflexivity. }
  intros k es os e k' o _ IH Hs. rewrite srv_app.
  apply kstep_cases in Hs as [(ev & ev' & _ & _ & Hs & _)|[(E & E2 & _)|(i & _ & -> & _ & _ & ->)]].
  - eapply intake_step; eauto.
  - rewrite E, E2, app_nil_r. exact IH.
  - cbn. rewrite app_nil_r. destruct IH as [IH _]. split; [exact IH|]. discriminate.
Qed.

(** ** The flag *)
Lemma flag_stays c es k k' os : krun c k es = (k', os) -> kStop k = true -> kStop k' = true.
Proof.
  revert es k' os. apply (krun_ind c (fun k' es os => kStop k = true -> kStop k' = true)); [auto|].
  intros k1 es os e k2 o _ IH H Hk. specialize (IH Hk). unfold kstep in H. destruct (sCrash (kS k1)).
  { now injection H as <- <-. }
  destruct e as [ev| |i].
  - destruct (allowed c k1 ev) as [ev'|]; [|now injection H as <- <-].
    destruct (step (kS k1) ev'). now injection H as <- <-.
  - destruct (sConns (kS k1) !! c); now injection H as <- <-.
  - destruct (kCl k1 !! i) as [[]|]; try now injection H as <- <-.
    + destruct (busy c (kS k1)); now injection H as <- <-.
    + destruct (ended c (kS k1)); now injection H as <- <-.
Qed.
Lemma flag_set c port ch es k os : krun c (kinit port ch) es = (k, os) ->
  (exists i, In (KStopped i) os) -> kStop k = true.
Proof.
  revert es k os. apply (krun_ind c (fun k es os => (exists i, In (KStopped i) os) -> kStop k = true)).
  { now intros [i []]. }
  intros k es os e k' o _ IH H [i Hi].
  assert (S1 : krun c k [e] = (k', o)) by (cbn; rewrite H; now rewrite app_nil_r).
  apply in_app_or in Hi as [Hi|Hi]; [apply (flag_stays _ _ _ _ _ S1), IH; eauto|].
  unfold kstep in H. destruct (sCrash (kS k)); [injection H as <- <-; now destruct Hi|].
  destruct e as [ev| |j].
  - destruct (allowed c k ev) as [ev'|]; [|injection H as <- <-; now destruct Hi].
    destruct (step (kS k) ev') as [s' os']. injection H as <- <-. exfalso.
    apply in_app_or in Hi as [Hi|Hi]; [apply in_dropped in Hi as [b Hb]; discriminate|].
    apply in_map_iff in Hi as (y & Hy & _). discriminate.
  - destruct (sConns (kS k) !! c); injection H as <- <-; now destruct Hi.
  - destruct (kCl k !! j) as [[]|]; try (injection H as <- <-; cbn in Hi; (now destruct Hi) || (now intuition discriminate) || reflexivity).
    + destruct (busy c (kS k)); injection H as <- <-; cbn in Hi; intuition discriminate.
    + destruct (ended c (kS k)); injection H as <- <-; cbn in Hi; intuition discriminate.
Qed.
Lemma step_reads_none s ev s' o c : (forall b, ev <> EvRecv c b) -> step s ev = (s', o) -> reads c o = [].
Proof.
  intros Hne H. destruct (sConns s !! c) as [kk|] eqn:Hk.
  2: { destruct (step_fresh _ _ _ _ _ Hk H) as [Ho _]. now apply apart_reads. }
  destruct (decide (ev_conn ev = Some c)) as [He|He].
  2: { destruct (step_other _ _ _ _ c _ He Hk H) as [_ Ho]. now apply apart_reads. }
  unfold step in H. destruct (sCrash s); [now injection H as <- <-|].
  destruct ev; cbn [ev_conn] in He; try discriminate; injection He as ->; rewrite Hk in H.
  - unfold conn_step in H. destruct (cSt kk) as [| |corr extra tk|[|b bs]|].
    + destruct (getMessage (cIn kk)) as [|msg rest|].
      * destruct (sCancel s); now injection H as <- <-.
      * destruct (beginRequest (sPort s) msg) as [[[? ?] ?]|]; now injection H as <- <-.
      * now injection H as <- <-.
    + now injection H as <- <-.
    + destruct (match tk with TkRet _ _ => true | _ => false end) eqn:Et.
      * destruct tk; try discriminate. destruct (finishRequest _ _ _ _); now injection H as <- <-.
      * assert (H' : match tstep c (env_of s) ch (sDs s) tk with
          | TCont ds tk' os => (set_conn s c (Conn (cIn kk) (CBusy corr extra tk')) ds, os)
          | TPanic => (crash s, [OCrash c]) end = (s', o)) by (destruct tk; try discriminate; exact H).
        destruct (tstep c (env_of s) ch (sDs s) tk) as [ds tk' os|] eqn:Ets; injection H' as <- <-; [|reflexivity].
        destruct (tstep_obs _ _ _ _ _ _ _ _ Ets) as [->|(? & ? & ? & ? & ->)]; reflexivity.
    + now injection H as <- <-.
    + now injection H as <- <-.
    + now injection H as <- <-.
  - exfalso. eapply Hne. reflexivity.
  - destruct kk as [inb []]; now injection H as <- <-.
  - destruct kk as [inb []]; now injection H as <- <-.
  - destruct kk as [inb []]; now injection H as <- <-.
  - destruct kk as [inb []]; try (now injection H as <- <-). destruct gone; now injection H as <- <-.
Qed.

(** With the flag set nothing is read. *)
Lemma flag_no_reads c es k k' os : krun c k es = (k', os) -> kStop k = true -> reads c (srv os) = [].
Proof.
  revert es k' os. apply (krun_ind c (fun k' es os => kStop k = true -> reads c (srv os) = [])); [auto|].
  intros k1 es os e k2 o Hr IH H Hk. pose proof (flag_stays _ _ _ _ _ Hr Hk) as Hf.
  rewrite srv_app, reads_app, (IH Hk). cbn [app].
  apply kstep_cases in H as [(ev & ev' & _ & Ha & Hs & _)|[(_ & -> & _)|(i & _ & -> & _)]]; [|reflexivity|reflexivity].
  eapply step_reads_none; [|exact Hs]. intros b ->. destruct ev; cbn in Ha; try discriminate.
  - destruct (_ && _); discriminate.
  - destruct (Nat.eqb_spec c0 c) as [->|Hne]; [|congruence]. destruct (kFd k1); [discriminate|]. rewrite Hf in Ha. discriminate.
  - destruct (_ && _); discriminate.
  - destruct (_ && _); discriminate.
  - destruct (_ && _); discriminate.
Qed.

(** ** C47: what is still taken up was in the buffer *)
Lemma after_flag c port ch e1 k1 A i e2 k2 B inb :
  krun c (kinit port ch) e1 = (k1, A) -> In (KStopped i) A ->
  krun c k1 e2 = (k2, B) -> framed_with c (srv A) inb ->
  reads c (srv B) = [] /\ exists rest, inb = concat (map w_frame (frames c (srv B))) ++ rest.
Proof.
  intros H1 Hi H2 [Ha _]. pose proof (flag_set _ _ _ _ _ _ H1 (ex_intro _ i Hi)) as Hf.
  pose proof (flag_no_reads _ _ _ _ _ H2 Hf) as Hr. split; [exact Hr|].
  destruct (kintake c _ _ _ _ _ (krun_trans _ _ _ _ _ _ _ _ H1 H2)) as [(rest & Hb & _) _].
  exists rest. rewrite srv_app, reads_app, frames_app, map_app, concat_app, Hr, app_nil_r, Ha, <- app_assoc in Hb.
  now apply app_inv_head in Hb.
Qed.

(** ** A connection that has ended *)
Lemma ended_conn c s : ended c s = true -> exists inb, sConns s !! c = Some (Conn inb CClosed).
Proof. unfold ended. destruct (sConns s !! c) as [[inb []]|]; try discriminate. eauto. Qed.
Lemma ended_step c k e k' o inb : kstep c k e = (k', o) -> sConns (kS k) !! c = Some (Conn inb CClosed) ->
  sConns (kS k') !! c = Some (Conn inb CClosed) /\ silent c (srv o).
Proof.
  intros H Hk. apply kstep_cases in H as [(ev & ev' & _ & _ & Hs & _)|[(-> & -> & _)|(i & _ & -> & _ & _ & ->)]].
  - destruct (closed_step _ _ _ _ _ _ Hk Hs) as (Q1 & Q2 & _). auto.
  - split; [assumption|repeat split; reflexivity].
  - split; [assumption|repeat split; reflexivity].
Qed.
Lemma ended_run c es k k' os inb : krun c k es = (k', os) -> sConns (kS k) !! c = Some (Conn inb CClosed) ->
  sConns (kS k') !! c = Some (Conn inb CClosed) /\ silent c (srv os).
Proof.
  intros H Hk. revert es k' os H.
  apply (krun_ind c (fun k' es os => sConns (kS k') !! c = Some (Conn inb CClosed) /\ silent c (srv os))).
  { split; [assumption|repeat split; reflexivity]. }
  intros k1 es os e k2 o _ [IH IS] H. destruct (ended_step _ _ _ _ _ _ H IH) as [Q1 Q2]. split; [exact Q1|].
  rewrite srv_app. destruct (silent_eq c (srv os) (srv o) Q2) as (E1 & E2 & E3 & E4). unfold silent.
  rewrite E1, E2, E3, E4. exact IS.
Qed.
(** The calls that have got to the end found the connection ended. *)
Lemma returned_step c k e k' o j : kstep c k e = (k', o) -> In (KReturned j) o -> ended c (kS k) = true /\ kS k' = kS k.
Proof.
  unfold kstep. destruct (sCrash (kS k)); [intros [= <- <-]; easy|]. destruct e as [ev| |i].
  - destruct (allowed c k ev) as [ev'|]; [|intros [= <- <-]; easy].
    destruct (step (kS k) ev') as [s' os']. intros [= <- <-] Hi. exfalso.
    apply in_app_or in Hi as [Hi|Hi]; [apply in_dropped in Hi as [b Hb]; discriminate|].
    apply in_map_iff in Hi as (y & Hy & _). discriminate.
  - destruct (sConns (kS k) !! c); intros [= <- <-]; easy.
  - destruct (kCl k !! i) as [[]|]; try (intros [= <- <-] Hi; cbn in Hi; (now destruct Hi) || (now intuition discriminate)).
    + destruct (busy c (kS k)); intros [= <- <-] Hi; cbn in Hi; intuition discriminate.
    + destruct (ended c (kS k)) eqn:Ee; intros [= <- <-] Hi; [auto|easy].
Qed.
Lemma returned_ended c k0 es k os j : krun c k0 es = (k, os) -> In (KReturned j) os ->
  exists inb, sConns (kS k) !! c = Some (Conn inb CClosed).
Proof.
  revert es k os. apply (krun_ind c (fun k es os => In (KReturned j) os -> exists inb, sConns (kS k) !! c = Some (Conn inb CClosed))).
  { easy. }
  intros k es os e k' o _ IH H Hj. apply in_app_or in Hj as [Hj|Hj].
  - destruct (IH Hj) as [inb Hk]. exists inb. eapply ended_step; eauto.
  - destruct (returned_step _ _ _ _ _ _ H Hj) as [He ->]. now apply ended_conn.
Qed.
Lemma after_return c port ch e1 k1 A j e2 k2 B :
  krun c (kinit port ch) e1 = (k1, A) -> In (KReturned j) A -> krun c k1 e2 = (k2, B) -> untouched c (srv B).
Proof.
  intros H1 Hj H2. destruct (returned_ended _ _ _ _ _ _ H1 Hj) as [inb Hk].
  destruct (ended_run _ _ _ _ _ _ H2 Hk) as [_ (R & F & W & _)]. split; [exact R|]. auto.
Qed.
