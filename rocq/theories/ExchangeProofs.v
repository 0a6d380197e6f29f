(** * ExchangeProofs: one request and its reply, under any schedule *)
From Verif Require Export ServerProofs WireProofs.
From stdpp Require Import gmap list.
Open Scope Z_scope.
Open Scope list_scope.

(** ** What concerns a connection *)
Definition ev_conn (ev : event) : option nat :=
  match ev with
  | EvConn c _ | EvRecv c _ | EvTimeout c | EvPeerClose c | EvReadErr c | EvSendFail c _ => Some c
  | _ => None
  end.
Definition obs_conn (o : obs) : option nat :=
  match o with
  | OCommit c _ _ _ _ | ORead c _ | OFrame c _ | OWrite c _ | OClosed c | OCrash c => Some c
  | _ => None
  end.
Definition apart (c : nat) (o : obs) : Prop := obs_conn o <> Some c.

Lemma apart_writes c os : Forall (apart c) os -> writes c os = [].
Proof.
  induction 1 as [|o os Ho _ IH]; [reflexivity|]. cbn. fold (writes c os). rewrite IH.
  destruct o; try reflexivity. destruct (Nat.eqb_spec c c0) as [->|]; [|reflexivity]. now contradict Ho.
Qed.
Lemma apart_reads c os : Forall (apart c) os -> reads c os = [].
Proof.
  induction 1 as [|o os Ho _ IH]; [reflexivity|]. cbn. fold (reads c os). rewrite IH.
  destruct o; try reflexivity. destruct (Nat.eqb_spec c c0) as [->|]; [|reflexivity]. now contradict Ho.
Qed.
Lemma apart_frames c os : Forall (apart c) os -> frames c os = [].
Proof.
  induction 1 as [|o os Ho _ IH]; [reflexivity|]. cbn. fold (frames c os). rewrite IH.
  destruct o; try reflexivity. destruct (Nat.eqb_spec c c0) as [->|]; [|reflexivity]. now contradict Ho.
Qed.
Lemma apart_crashed_by c os : Forall (apart c) os -> crashed_by c os = false.
Proof.
  induction 1 as [|o os Ho _ IH]; [reflexivity|]. cbn. fold (crashed_by c os). rewrite IH.
  destruct o; try reflexivity. destruct (Nat.eqb_spec c c0) as [->|]; [|reflexivity]. now contradict Ho.
Qed.

Lemma tstep_obs c e ch ds tk ds' tk' o : tstep c e ch ds tk = TCont ds' tk' o ->
  o = [] \/ exists t p g x, o = [OCommit c t p g x].
Proof.
  assert (F : forall rq fds, fetchFinish ds rq fds = TCont ds' tk' o -> o = []).
  { intros rq fds H. now apply fetchFinish_inv in H as (_ & -> & _). }
  destruct tk; cbn; intros H;
  repeat match type of H with
  | context [match ?x with _ => _ end] => destruct x; try discriminate
  end; try (injection H as _ _ <-); eauto 7.
Qed.
Lemma astep_obs i w ds a ds' a' o : astep i w ds a = (ds', a', o) -> Forall (fun x => obs_conn x = None) o.
Proof.
  destruct a; cbn; intros H;
  repeat match type of H with
  | context [match ?x with _ => _ end] => destruct x; try discriminate
  end; injection H as _ _ <-; repeat constructor.
Qed.

Lemma conn_step_own s c ch k s' o : conn_step s c ch k = (s', o) ->
  Forall (fun x => obs_conn x = Some c) o /\
  ((exists k' ds, s' = set_conn s c k' ds) \/ s' = crash s \/ s' = s).
Proof.
  unfold conn_step. destruct k as [inb st]. cbn [cIn cSt].
  destruct st as [| |corr extra tk|chunks|].
  - destruct (getMessage inb) as [|msg rest|].
    + destruct (sCancel s); intros [= <- <-]; split; try (now repeat constructor); left; eauto.
    + destruct (beginRequest (sPort s) msg) as [[[corr extra] tk]|]; intros [= <- <-]; split;
        try (now repeat constructor); eauto.
    + intros [= <- <-]; split; [now repeat constructor|eauto].
  - intros [= <- <-]. split; [constructor|eauto].
  - assert (G : match tstep c (env_of s) ch (sDs s) tk with
      | TCont ds tk' os => (set_conn s c (Conn inb (CBusy corr extra tk')) ds, os)
      | TPanic => (crash s, [OCrash c]) end = (s', o) ->
      Forall (fun x => obs_conn x = Some c) o /\
      ((exists k' ds, s' = set_conn s c k' ds) \/ s' = crash s \/ s' = s)).
    { destruct (tstep c (env_of s) ch (sDs s) tk) as [ds tk' o'|] eqn:E; intros [= <- <-].
      - split; [|eauto]. destruct (tstep_obs _ _ _ _ _ _ _ _ E) as [->|(t & p & g & x & ->)]; now repeat constructor.
      - split; [now repeat constructor|eauto]. }
    destruct tk; auto.
    destruct (finishRequest corr extra t v); intros [= <- <-]; split; try (now repeat constructor); eauto.
  - destruct chunks; intros [= <- <-]; split; try (now repeat constructor); eauto.
  - intros [= <- <-]. split; [constructor|eauto].
Qed.

Lemma Forall_other (c c' : nat) os : c' <> c -> Forall (fun x => obs_conn x = Some c') os -> Forall (apart c) os.
Proof. intros H. apply Forall_mono. unfold apart. intros x ->. congruence. Qed.
Lemma Forall_none (c : nat) os : Forall (fun x => obs_conn x = None) os -> Forall (apart c) os.
Proof. apply Forall_mono. unfold apart. intros x ->. congruence. Qed.

Lemma step_other s ev s' o c k :
  ev_conn ev <> Some c -> sConns s !! c = Some k -> step s ev = (s', o) ->
  sConns s' !! c = Some k /\ Forall (apart c) o.
Proof.
  intros He Hk H. unfold step in H. destruct (sCrash s).
  { injection H as <- <-. split; [assumption|constructor]. }
  destruct ev; cbn [ev_conn] in He.
  - destruct (call_ok c0); injection H as <- <-; split; [assumption|constructor|assumption|constructor].
  - destruct (sThreads s !! i) as [a|].
    + destruct (astep i (sWall s) (sDs s) a) as [[ds a'] os'] eqn:E. injection H as <- <-.
      split; [assumption|]. eapply Forall_none, astep_obs, E.
    + injection H as <- <-. split; [assumption|constructor].
  - destruct (sCancel s); injection H as <- <-; (split; [|constructor]); [assumption|].
    cbn. now apply lookup_app_l_Some.
  - destruct (sConns s !! c0) as [k0|] eqn:E0.
    + apply conn_step_own in H as [Ho Hs]. split; [|eapply Forall_other; [|exact Ho]; congruence].
      destruct Hs as [(k' & ds & ->)|[->| ->]]; auto.
      cbn. rewrite list_lookup_insert_ne by congruence. assumption.
    + injection H as <- <-. split; [assumption|constructor].
  - assert (c0 <> c) by congruence.
    destruct (sConns s !! c0) as [[inb []]|]; try (injection H as <- <-; split; [assumption|constructor]).
    destruct (_ && _); injection H as <- <-; (split; [|repeat constructor; unfold apart; cbn; congruence]); auto.
    cbn. now rewrite list_lookup_insert_ne.
  - assert (c0 <> c) by congruence.
    destruct (sConns s !! c0) as [[inb []]|]; injection H as <- <-; (split; [|repeat constructor; unfold apart; cbn; congruence]); auto.
    cbn. now rewrite list_lookup_insert_ne.
  - assert (c0 <> c) by congruence.
    destruct (sConns s !! c0) as [[inb []]|]; injection H as <- <-; (split; [|repeat constructor; unfold apart; cbn; congruence]); auto.
    cbn. now rewrite list_lookup_insert_ne.
  - assert (c0 <> c) by congruence.
    destruct (sConns s !! c0) as [[inb []]|]; injection H as <- <-; (split; [|repeat constructor; unfold apart; cbn; congruence]); auto.
  - assert (c0 <> c) by congruence.
    destruct (sConns s !! c0) as [[inb []]|]; try (injection H as <- <-; split; [assumption|constructor]).
    destruct gone; injection H as <- <-; (split; [|repeat constructor; unfold apart; cbn; congruence]); auto.
    cbn. now rewrite list_lookup_insert_ne.
  - injection H as <- <-. split; [assumption|repeat constructor; unfold apart; cbn; congruence].
  - injection H as <- <-. split; [assumption|repeat constructor; unfold apart; cbn; congruence].
  - injection H as <- <-. split; [assumption|repeat constructor; unfold apart; cbn; congruence].
  - destruct (forallb closed (sConns s)); injection H as <- <-;
      (split; [assumption|repeat constructor; unfold apart; cbn; congruence]).
Qed.

(** No restart while a client is connected. *)
Definition beside (c : nat) (o : obs) : Prop := apart c o /\ o <> ORestart.
Lemma beside_apart c o : Forall (beside c) o -> Forall (apart c) o.
Proof. apply Forall_mono. now intros x []. Qed.
Lemma step_no_restart s ev s' o c k :
  sConns s !! c = Some k -> closed k = false -> step s ev = (s', o) -> Forall (fun x => x <> ORestart) o.
Proof.
  intros Hk Hcl H. unfold step in H. destruct (sCrash s); [injection H as <- <-; constructor|].
  destruct ev.
  - destruct (call_ok c0); injection H as <- <-; constructor.
  - destruct (sThreads s !! i) as [a|]; [|injection H as <- <-; constructor].
    destruct (astep i (sWall s) (sDs s) a) as [[ds a'] os'] eqn:E. injection H as <- <-.
    eapply Forall_mono; [|eapply astep_quiet, E]. intros [] Hq; try discriminate; contradiction.
  - destruct (sCancel s); injection H as <- <-; constructor.
  - destruct (sConns s !! c0) as [k0|] eqn:E0; [|injection H as <- <-; constructor].
    apply conn_step_own in H as [Ho _]. eapply Forall_mono; [|exact Ho]. intros x Hx ->. discriminate.
  - destruct (sConns s !! c0) as [[inb []]|]; try (injection H as <- <-; constructor).
    destruct (_ && _); injection H as <- <-; repeat constructor; discriminate.
  - destruct (sConns s !! c0) as [[inb []]|]; injection H as <- <-; repeat constructor; discriminate.
  - destruct (sConns s !! c0) as [[inb []]|]; injection H as <- <-; repeat constructor; discriminate.
  - destruct (sConns s !! c0) as [[inb []]|]; injection H as <- <-; repeat constructor; discriminate.
  - destruct (sConns s !! c0) as [[inb []]|]; try (injection H as <- <-; constructor).
    destruct gone; injection H as <- <-; repeat constructor; discriminate.
  - injection H as <- <-; repeat constructor; discriminate.
  - injection H as <- <-; repeat constructor; discriminate.
  - injection H as <- <-; repeat constructor; discriminate.
  - assert (forallb closed (sConns s) = false) as E.
    { destruct (forallb closed (sConns s)) eqn:E; [|reflexivity]. rewrite forallb_forall in E.
      rewrite E in Hcl; [discriminate|]. eapply elem_of_list_In, elem_of_list_lookup_2, Hk. }
    rewrite E in H. injection H as <- <-. constructor.
Qed.
Lemma beside_intro c o : Forall (apart c) o -> Forall (fun x => x <> ORestart) o -> Forall (beside c) o.
Proof. intros H1 H2. apply Forall_and. auto. Qed.

(** ** The reply bytes *)
Lemma reply_bytes corr payload :
  concat [enc_i32 (swrap 32 (4 + zlen payload)); enc_i32 (swrap 32 corr); payload] = w_reply corr payload.
Proof.
  unfold w_reply, w_frame. cbn [concat]. rewrite app_nil_r, !enc_i32_w, !w_int32_swrap.
  rewrite zlen_app. unfold w_int32. rewrite zlen_w_be. reflexivity.
Qed.

(** ** The phases of an exchange.  [I B n tk] is what is known of the handler
    after the trace [B] and [n] steps of its goroutine. *)
Section Phases.
  Context (c : nat) (corr : Z) (I : list obs -> nat -> task -> Prop).

  Inductive phase (B : list obs) (n : nat) : cstate -> Prop :=
  | PhBusy tk : I B n tk -> writes c B = [] -> crashed_by c B = false -> phase B n (CBusy corr [] tk)
  | PhSend B' n' t v payload chunks :
      B' `prefix_of` B -> I B' n' (TkRet t v) -> encodeObject t v = Some payload ->
      writes c B ++ concat chunks = w_reply corr payload -> chunks <> [] ->
      (n + length chunks <= n' + 4)%nat -> (n' <= n)%nat -> crashed_by c B = false -> phase B n (CSend chunks)
  | PhDone B' n' t v payload st :
      B' `prefix_of` B -> I B' n' (TkRet t v) -> encodeObject t v = Some payload ->
      writes c B = w_reply corr payload -> (st = CLoop \/ st = CRead \/ st = CClosed) -> phase B n st.
End Phases.

Definition is_ret (tk : task) : bool := match tk with TkRet _ _ => true | _ => false end.

(** What has to be shown of [I]: it holds at the start ([I [] 0 tk0], below),
    survives whatever others do and every step of the handler, excludes panics,
    and gives an encodable result. *)
Record handler_ok (port : Z) (vers : gmap Z vrange) (A : list obs) (c : nat)
    (I : list obs -> nat -> task -> Prop) : Prop := {
  h_other : forall B n tk o, Forall (beside c) o -> I B n tk -> I (B ++ o) n tk;
  h_step : forall s B n tk ch, inv port vers (A ++ B) s -> task_ok (sDs s) tk -> is_ret tk = false -> I B n tk ->
    exists ds tk' o, tstep c (env_of s) ch (sDs s) tk = TCont ds tk' o /\ I (B ++ o) (S n) tk';
  h_enc : forall B n t v, I B n (TkRet t v) -> exists payload, encodeObject t v = Some payload
}.

Lemma own_steps_app c a b : own_steps c (a ++ b) = (own_steps c a + own_steps c b)%nat.
Proof. unfold own_steps. now rewrite List.filter_app, app_length. Qed.

Lemma frames_nil_app c a b : frames c (a ++ b) = [] -> frames c a = [] /\ frames c b = [].
Proof. rewrite frames_app. apply app_eq_nil. Qed.

Lemma sends_ok_app c a b : sends_ok c (a ++ b) -> sends_ok c a /\ sends_ok c b.
Proof. intros H. split; intros g Hg; apply (H g), in_or_app; auto. Qed.

Lemma prefix_app_r' {A} (a b l : list A) : a `prefix_of` b -> a `prefix_of` b ++ l.
Proof. intros [k ->]. exists (k ++ l). now rewrite app_assoc. Qed.

Lemma exchange_step port vers A c corr I s B n k st ev s' o :
  handler_ok port vers A c I ->
  inv port vers (A ++ B) s -> sCrash s = false ->
  sConns s !! c = Some (Conn k st) -> phase c corr I B n st ->
  (forall gone, ev <> EvSendFail c gone) -> step s ev = (s', o) -> frames c o = [] ->
  exists k' st' n', sConns s' !! c = Some (Conn k' st') /\ phase c corr I (B ++ o) n' st' /\
    n' = (n + own_steps c [ev])%nat.
Proof.
  intros Hh Hi Hcr Hk Hp Hsf Hstep Hfr.
  destruct (decide (ev_conn ev = Some c)) as [Hev|Hev].
  2:{ destruct (step_other _ _ _ _ _ _ Hev Hk Hstep) as [Hk' Ho].
      pose proof (apart_writes _ _ Ho) as W. pose proof (apart_crashed_by _ _ Ho) as C.
      exists k, st, n. split_and!; auto.
      - destruct Hp as [tk HI HW HC|B' n' t v payload chunks HB HI He HW Hne Hc Hn' HC|B' n' t v payload st HB HI He HW Hst].
        + constructor; [apply (h_other _ _ _ _ _ Hh); [|assumption]; apply beside_intro; [assumption|];
            now apply (step_no_restart _ _ _ _ _ _ Hk eq_refl Hstep)| |].
          * now rewrite writes_app, W, app_nil_r.
          * now rewrite crashed_by_app, C, orb_false_r.
        + eapply (PhSend _ _ _ _ _ B' n'); eauto using prefix_app_r'.
          * now rewrite writes_app, W, app_nil_r.
          * now rewrite crashed_by_app, C, orb_false_r.
        + eapply (PhDone _ _ _ _ _ B' n'); eauto using prefix_app_r'.
          now rewrite writes_app, W, app_nil_r.
      - destruct ev; cbn in *; unfold own_steps; cbn; try lia.
        destruct (Nat.eqb_spec c c0); [congruence|cbn; lia]. }
  pose proof Hstep as Hstep0.
  unfold step in Hstep. rewrite Hcr in Hstep.
  assert (HL : (c < length (sConns s))%nat) by now apply lookup_lt_Some in Hk.
  assert (Hset : forall kk ds, sConns (set_conn s c kk ds) !! c = Some kk).
  { intros. cbn. now apply list_lookup_insert. }
  destruct ev; cbn [ev_conn] in Hev; try discriminate; injection Hev as ->; rewrite Hk in Hstep.
  - (* EvConn *)
    assert (Hn : own_steps c [EvConn c ch] = 1%nat) by (unfold own_steps; cbn; now rewrite Nat.eqb_refl).
    rewrite Hn. unfold conn_step in Hstep. cbn [cIn cSt] in Hstep.
    destruct Hp as [tk HI HW HC|B' n' t v payload chunks HB HI He HW Hne Hc Hn' HC|B' n' t v payload st HB HI He HW Hst].
    + destruct (is_ret tk) eqn:Er.
      * destruct tk; try discriminate. destruct (h_enc _ _ _ _ _ Hh _ _ _ _ HI) as [payload Hpl].
        cbn [finishRequest] in Hstep. rewrite Hpl in Hstep. injection Hstep as <- <-.
        do 3 eexists. split; [apply Hset|]. split; [|reflexivity].
        apply (PhSend _ _ _ _ _ B n t v payload); auto.
        -- rewrite app_nil_r. reflexivity.
        -- rewrite app_nil_r, HW. apply reply_bytes.
        -- cbn. lia.
        -- lia.
        -- now rewrite app_nil_r.
      * assert (Hto : task_ok (sDs s) tk).
        { pose proof (i_conns _ _ _ _ Hi) as F. rewrite Forall_lookup in F. exact (F _ _ Hk). }
        destruct (h_step _ _ _ _ _ Hh s B n tk ch Hi Hto Er HI) as (ds & tk' & o' & Et & HI').
        rewrite Et in Hstep.
        assert (G : (set_conn s c (Conn k (CBusy corr [] tk')) ds, o') = (s', o)).
        { destruct tk; try discriminate; exact Hstep. }
        injection G as <- <-. do 3 eexists. split; [apply Hset|].
        split; [|rewrite Nat.add_1_r; reflexivity]. constructor; [assumption| |].
        -- destruct (tstep_obs _ _ _ _ _ _ _ _ Et) as [->|(? & ? & ? & ? & ->)];
             rewrite writes_app, HW; reflexivity.
        -- destruct (tstep_obs _ _ _ _ _ _ _ _ Et) as [->|(? & ? & ? & ? & ->)];
             rewrite crashed_by_app, HC; reflexivity.
    + destruct chunks as [|b bs]; [congruence|]. injection Hstep as <- <-.
      do 3 eexists. split; [apply Hset|]. split; [|reflexivity].
      assert (HW' : writes c (B ++ [OWrite c b]) ++ concat bs = w_reply corr payload).
      { rewrite writes_app, <- HW. cbn. rewrite Nat.eqb_refl, app_nil_r. now rewrite <- app_assoc. }
      destruct bs as [|b' bs].
      * eapply (PhDone _ _ _ _ _ B' n'); eauto using prefix_app_r'.
        rewrite <- HW'. cbn. now rewrite app_nil_r.
      * apply (PhSend _ _ _ _ _ B' n' t v payload); auto using prefix_app_r'.
        -- cbn in *. lia.
        -- lia.
        -- now rewrite crashed_by_app, HC.
    + destruct Hst as [->|[->| ->]].
      * destruct (getMessage k) as [|msg rest|].
        -- destruct (sCancel s); injection Hstep as <- <-; (do 3 eexists; split; [apply Hset|]; split; [|reflexivity]).
           all: eapply (PhDone _ _ _ _ _ B' n'); eauto using prefix_app_r'; rewrite writes_app, HW; now rewrite app_nil_r.
        -- destruct (beginRequest (sPort s) msg) as [[[? ?] ?]|]; injection Hstep as <- <-;
             cbn in Hfr; rewrite Nat.eqb_refl in Hfr; discriminate.
        -- injection Hstep as <- <-. do 3 eexists. split; [exact Hk|]. split; [|reflexivity].
           eapply (PhDone _ _ _ _ _ B' n'); eauto using prefix_app_r'. rewrite writes_app, HW. now rewrite app_nil_r.
      * injection Hstep as <- <-. do 3 eexists. split; [exact Hk|]. split; [|reflexivity].
        eapply (PhDone _ _ _ _ _ B' n'); eauto using prefix_app_r'. rewrite writes_app, HW. now rewrite app_nil_r.
      * injection Hstep as <- <-. do 3 eexists. split; [exact Hk|]. split; [|reflexivity].
        eapply (PhDone _ _ _ _ _ B' n'); eauto using prefix_app_r'. rewrite writes_app, HW. now rewrite app_nil_r.
  - (* EvRecv *)
    assert (Hn : own_steps c [EvRecv c chunk] = 0%nat) by reflexivity. rewrite Hn, Nat.add_0_r.
    destruct Hp as [tk HI HW HC|B' n' t v payload chunks HB HI He HW Hne Hc Hn' HC|B' n' t v payload st HB HI He HW Hst].
    + injection Hstep as <- <-. do 3 eexists. split; [exact Hk|]. split; [|reflexivity]. rewrite app_nil_r. now constructor.
    + injection Hstep as <- <-. do 3 eexists. split; [exact Hk|]. split; [|reflexivity]. rewrite app_nil_r. now econstructor; eauto.
    + destruct Hst as [->|[->| ->]].
      * injection Hstep as <- <-. do 3 eexists. split; [exact Hk|]. split; [|reflexivity]. rewrite app_nil_r. eapply PhDone; eauto.
      * destruct (_ && _); injection Hstep as <- <-.
        -- do 3 eexists. split; [apply Hset|]. split; [|reflexivity].
           eapply (PhDone _ _ _ _ _ B' n'); eauto using prefix_app_r'. rewrite writes_app, HW. now rewrite app_nil_r.
        -- do 3 eexists. split; [exact Hk|]. split; [|reflexivity]. rewrite app_nil_r. eapply PhDone; eauto.
      * injection Hstep as <- <-. do 3 eexists. split; [exact Hk|]. split; [|reflexivity]. rewrite app_nil_r. eapply PhDone; eauto.
  - (* EvTimeout *)
    assert (Hn : own_steps c [EvTimeout c] = 0%nat) by reflexivity. rewrite Hn, Nat.add_0_r.
    destruct Hp as [tk HI HW HC|B' n' t v payload chunks HB HI He HW Hne Hc Hn' HC|B' n' t v payload st HB HI He HW Hst].
    + injection Hstep as <- <-. do 3 eexists. split; [exact Hk|]. split; [|reflexivity]. rewrite app_nil_r. now constructor.
    + injection Hstep as <- <-. do 3 eexists. split; [exact Hk|]. split; [|reflexivity]. rewrite app_nil_r. now econstructor; eauto.
    + destruct Hst as [->|[->| ->]]; injection Hstep as <- <-; do 3 eexists;
        (split; [first [exact Hk|apply Hset]|]); (split; [|reflexivity]); rewrite app_nil_r; eapply PhDone; eauto.
  - (* EvPeerClose *)
    assert (Hn : own_steps c [EvPeerClose c] = 0%nat) by reflexivity. rewrite Hn, Nat.add_0_r.
    destruct Hp as [tk HI HW HC|B' n' t v payload chunks HB HI He HW Hne Hc Hn' HC|B' n' t v payload st HB HI He HW Hst].
    + injection Hstep as <- <-. do 3 eexists. split; [exact Hk|]. split; [|reflexivity]. rewrite app_nil_r. now constructor.
    + injection Hstep as <- <-. do 3 eexists. split; [exact Hk|]. split; [|reflexivity]. rewrite app_nil_r. now econstructor; eauto.
    + destruct Hst as [->|[->| ->]]; injection Hstep as <- <-; do 3 eexists;
        (split; [first [exact Hk|apply Hset]|]); (split; [|reflexivity]);
        (eapply (PhDone _ _ _ _ _ B' n'); eauto using prefix_app_r'; rewrite writes_app, HW; now rewrite app_nil_r).
  - (* EvReadErr *)
    assert (Hn : own_steps c [EvReadErr c] = 0%nat) by reflexivity. rewrite Hn, Nat.add_0_r.
    destruct Hp as [tk HI HW HC|B' n' t v payload chunks HB HI He HW Hne Hc Hn' HC|B' n' t v payload st HB HI He HW Hst].
    + injection Hstep as <- <-. do 3 eexists. split; [exact Hk|]. split; [|reflexivity]. rewrite app_nil_r. now constructor.
    + injection Hstep as <- <-. do 3 eexists. split; [exact Hk|]. split; [|reflexivity]. rewrite app_nil_r. now econstructor; eauto.
    + destruct Hst as [->|[->| ->]]; injection Hstep as <- <-; do 3 eexists;
        (split; [exact Hk|]); (split; [|reflexivity]);
        (eapply (PhDone _ _ _ _ _ B' n'); eauto using prefix_app_r'; rewrite writes_app, HW; now rewrite app_nil_r).
  - (* EvSendFail *) now destruct (Hsf gone).
Qed.

(** A stretch of an exchange. *)
Lemma exchange_from port vers A c corr I s B0 n0 k st0 evs s' B :
  handler_ok port vers A c I ->
  inv port vers (A ++ B0) s -> sConns s !! c = Some (Conn k st0) -> phase c corr I B0 n0 st0 ->
  run s evs = (s', B) -> sends_ok c evs -> frames c B = [] ->
  exists k' st' n, sConns s' !! c = Some (Conn k' st') /\ phase c corr I (B0 ++ B) n st' /\
    inv port vers (A ++ B0 ++ B) s' /\ (sCrash s' = false -> n = (n0 + own_steps c evs)%nat).
Proof.
  intros Hh Hi Hk Hp. revert s' B.
  induction evs as [|ev evs IH] using rev_ind; intros s' B Hr Hs Hf.
  - injection Hr as <- <-. exists k, st0, n0. rewrite app_nil_r. split_and!; auto.
  - apply run_snoc_inv in Hr as (s1 & o1 & o2 & H1 & H2 & ->).
    apply sends_ok_app in Hs as [Hs1 Hs2]. apply frames_nil_app in Hf as [Hf1 Hf2].
    destruct (IH s1 o1 H1 Hs1 Hf1) as (k1 & st1 & n1 & Hk1 & Hp1 & Hi1 & Hn1).
    destruct (sCrash s1) eqn:Hc.
    + rewrite step_crashed in H2 by assumption. injection H2 as <- <-.
      exists k1, st1, n1. rewrite app_nil_r. split_and!; auto. congruence.
    + destruct (exchange_step port vers A c corr I s1 (B0 ++ o1) n1 k1 st1 ev s' o2) as (k' & st' & n' & ? & ? & ?); auto.
      { intros g ->. apply (Hs2 g). now left. }
      exists k', st', n'. rewrite app_assoc. split_and!; auto.
      * rewrite app_assoc. eapply step_inv; eauto. 
      * intros _. rewrite own_steps_app, Nat.add_assoc. rewrite Hn1 in *; auto.
Qed.

(** The whole exchange: from the state just after the request was taken up. *)
Lemma exchange port vers A c corr I s k tk0 evs s' B :
  handler_ok port vers A c I ->
  inv port vers A s -> sConns s !! c = Some (Conn k (CBusy corr [] tk0)) -> I [] 0%nat tk0 ->
  run s evs = (s', B) -> sends_ok c evs -> frames c B = [] ->
  exists k' st' n, sConns s' !! c = Some (Conn k' st') /\ phase c corr I B n st' /\
    inv port vers (A ++ B) s' /\ (sCrash s' = false -> n = own_steps c evs).
Proof.
  intros Hh Hi Hk HI Hr Hs Hf.
  apply (exchange_from port vers A c corr I s [] 0 k (CBusy corr [] tk0)); auto.
  - now apply inv_nil.
  - now constructor.
Qed.

(** A reply that is being sent is sent completely. *)
Lemma sending port vers A c corr (I : list obs -> nat -> task -> Prop) s B0 n0 k st0 evs s' B :
  phase c corr I B0 n0 st0 -> (forall tk, st0 <> CBusy corr [] tk) ->
  inv port vers (A ++ B0) s -> sConns s !! c = Some (Conn k st0) ->
  run s evs = (s', B) -> sends_ok c evs -> frames c B = [] -> sCrash s' = false -> (4 <= own_steps c evs)%nat ->
  exists B' n' t v payload, B' `prefix_of` B0 /\ I B' n' (TkRet t v) /\ encodeObject t v = Some payload /\
    writes c (B0 ++ B) = w_reply corr payload.
Proof.
  intros Hp Hb Hi Hk Hr Hs Hf Hc Hn.
  set (I' := fun (B1 : list obs) (n : nat) tk => n = 0%nat /\ exists B' n' t v, tk = TkRet t v /\ B' `prefix_of` B0 /\
    I B' n' tk /\ exists payload, encodeObject t v = Some payload).
  assert (Hh : handler_ok port vers A c I').
  { split.
    - intros ? ? ? ? _ H. exact H.
    - intros ? ? ? tk ? _ _ Hret (_ & B' & n' & t & v & -> & _). discriminate.
    - intros ? ? t v (_ & B' & n' & t' & v' & [= -> ->] & _ & _ & Hp'). exact Hp'. }
  assert (Hp' : phase c corr I' B0 0 st0).
  { destruct Hp as [tk ? ? ?|B' n' t v payload chunks HB HI He HW Hne Hle Hn' HC|B' n' t v payload st HB HI He HW Hst].
    - now destruct (Hb tk).
    - apply (PhSend _ _ _ _ _ B' 0 t v payload); auto; [|lia]. split; [reflexivity|]. exists B', n', t, v. eauto.
    - apply (PhDone _ _ _ _ _ B' 0 t v payload); auto. split; [reflexivity|]. exists B', n', t, v. eauto. }
  destruct (exchange_from port vers A c corr I' s B0 0 k st0 evs s' B Hh Hi Hk Hp' Hr Hs Hf) as (k' & st' & n & Hk' & Hq & _ & Hn').
  specialize (Hn' Hc). cbn in Hn'.
  destruct Hq as [tk H ? ?|B' n' t v payload chunks HB HI He HW Hne Hle Hn0 HC|B' n' t v payload st HB HI He HW Hst].
  - exfalso. destruct H as (-> & _). lia.
  - exfalso. destruct HI as (-> & _). destruct chunks; [congruence|]. cbn in Hle. lia.
  - destruct HI as (_ & B2 & n2 & t2 & v2 & [= <- <-] & HB2 & HI2 & _). exists B2, n2, t, v, payload. auto.
Qed.

(** ** Cutting a run at the next request *)
Lemma until_frame_none c B : frames c B = [] -> until_frame c B = B.
Proof.
  induction B as [|o B IH]; [reflexivity|]. cbn. intros H.
  destruct o; try (f_equal; now apply IH).
  destruct (Nat.eqb c c0); [discriminate|]. f_equal. now apply IH.
Qed.
Lemma until_frame_app c a b : frames c a = [] -> until_frame c (a ++ b) = a ++ until_frame c b.
Proof.
  induction a as [|o a IH]; [reflexivity|]. cbn. intros H.
  destruct o; try (f_equal; now apply IH).
  destruct (Nat.eqb c c0); [discriminate|]. f_equal. now apply IH.
Qed.

(** Only an idle connection takes up a request. *)
Lemma step_frame s ev s' o c : step s ev = (s', o) -> frames c o <> [] ->
  exists inb msg rest ch, ev = EvConn c ch /\ sCrash s = false /\
    sConns s !! c = Some (Conn inb CLoop) /\ getMessage inb = GMsg msg rest /\
    ((exists corr extra tk, beginRequest (sPort s) msg = Some (corr, extra, tk) /\
       o = [OFrame c msg] /\ s' = set_conn s c (Conn rest (CBusy corr extra tk)) (sDs s)) \/
     (beginRequest (sPort s) msg = None /\ o = [OFrame c msg; OCrash c] /\ s' = crash s)).
Proof.
  intros H Hf. unfold step in H. destruct (sCrash s) eqn:Hc.
  { injection H as <- <-. now contradict Hf. }
  assert (N : forall l, Forall (fun o => match o with OFrame c _ => False | _ => True end) l -> frames c l = []).
  { induction 1 as [|x l Hx _ IH]; [reflexivity|]. cbn. fold (frames c l). rewrite IH. now destruct x. }
  destruct ev.
  1: destruct (call_ok c0); injection H as <- <-; now contradict Hf.
  1: { destruct (sThreads s !! i) as [a|]; [|injection H as <- <-; now contradict Hf].
       destruct (astep i (sWall s) (sDs s) a) as [[ds a'] os'] eqn:E. injection H as <- <-.
       contradict Hf. apply apart_frames. eapply Forall_none, astep_obs, E. }
  1: destruct (sCancel s); injection H as <- <-; now contradict Hf.
  2-5: destruct (sConns s !! c0) as [[inb []]|]; try (injection H as <- <-; now contradict Hf);
       destruct (_ && _); injection H as <- <-; now contradict Hf.
  2: destruct (sConns s !! c0) as [[inb []]|]; try (injection H as <- <-; now contradict Hf);
       destruct gone; injection H as <- <-; now contradict Hf.
  2-4: injection H as <- <-; now contradict Hf.
  2: destruct (forallb closed (sConns s)); injection H as <- <-; now contradict Hf.
  destruct (sConns s !! c0) as [k0|] eqn:E0; [|injection H as <- <-; now contradict Hf].
  pose proof (conn_step_own _ _ _ _ _ _ H) as [Ho _].
  destruct (decide (c0 = c)) as [->|Hne].
  2:{ contradict Hf. apply apart_frames. eapply Forall_other; eauto. }
  unfold conn_step in H. destruct k0 as [inb st]. cbn [cIn cSt] in H.
  destruct st as [| |corr extra tk|chunks|].
  - destruct (getMessage inb) as [|msg rest|] eqn:Eg.
    + destruct (sCancel s); injection H as <- <-; now contradict Hf.
    + exists inb, msg, rest, ch. split_and!; auto.
      destruct (beginRequest (sPort s) msg) as [[[corr extra] tk]|] eqn:Eb; injection H as <- <-.
      * left. eauto 8.
      * right. auto.
    + injection H as <- <-; now contradict Hf.
  - injection H as <- <-; now contradict Hf.
  - assert (G : match tstep c (env_of s) ch (sDs s) tk with
      | TCont ds tk' os => (set_conn s c (Conn inb (CBusy corr extra tk')) ds, os)
      | TPanic => (crash s, [OCrash c]) end = (s', o) -> frames c o = []).
    { destruct (tstep c (env_of s) ch (sDs s) tk) as [ds tk' o'|] eqn:E; intros [= <- <-]; [|reflexivity].
      now destruct (tstep_obs _ _ _ _ _ _ _ _ E) as [->|(t & p & g & x & ->)]. }
    destruct tk; try (now rewrite G in Hf by assumption).
    destruct (finishRequest corr extra t v); injection H as <- <-; now contradict Hf.
  - destruct chunks; injection H as <- <-; now contradict Hf.
  - injection H as <- <-; now contradict Hf.
Qed.

(** A run either takes up no request of [c], or can be cut at the first one. *)
Lemma run_cut c s evs s' B : run s evs = (s', B) ->
  frames c B = [] \/
  exists e1 ev e2 s1 B1 s2 o, evs = e1 ++ ev :: e2 /\ run s e1 = (s1, B1) /\ frames c B1 = [] /\
    step s1 ev = (s2, o) /\ frames c o <> [] /\ until_frame c B = B1.
Proof.
  revert s B. induction evs as [|ev evs IH]; intros s B H.
  - injection H as <- <-. now left.
  - cbn in H. destruct (step s ev) as [s1 o1] eqn:E1. destruct (run s1 evs) as [s2 o2] eqn:E2.
    injection H as <- <-.
    destruct (frames c o1) eqn:F1.
    + destruct (IH s1 o2 E2) as [F2|(e1 & ev' & e2 & s3 & B1 & s4 & o & -> & Hr & Hf & Hs & Ho & Hu)].
      * left. now rewrite frames_app, F1, F2.
      * right. exists (ev :: e1), ev', e2, s3, (o1 ++ B1), s4, o. split_and!; auto.
        -- cbn. now rewrite E1, Hr.
        -- now rewrite frames_app, F1, Hf.
        -- now rewrite until_frame_app, Hu.
    + right. exists [], ev, evs, s, [], s1, o1. split_and!; auto; [congruence|].
      destruct (step_frame _ _ _ _ c E1) as (inb & msg & rest & ch & _ & _ & _ & _ & [(? & ? & ? & _ & -> & _)|(_ & -> & _)]);
        [congruence| |]; cbn; now rewrite Nat.eqb_refl.
Qed.

(** ** From handlers to [answers] *)
Lemma answers_intro port vers A c corr I s k tk0 K (R : list obs -> bytes -> Prop) :
  handler_ok port vers A c I ->
  inv port vers A s -> sCrash s = false ->
  sConns s !! c = Some (Conn k (CBusy corr [] tk0)) -> I [] 0%nat tk0 ->
  (forall B n tk, I B n tk -> (n + 4 <= K)%nat) ->
  (forall B n t v payload, I B n (TkRet t v) -> encodeObject t v = Some payload -> R B (w_reply corr payload)) ->
  answers c s R K.
Proof.
  intros Hh Hi Hcr Hk HI HK HR evs s' B Hrun Hsend B1.
  assert (Main : forall e s2 B2, run s e = (s2, B2) -> sends_ok c e -> frames c B2 = [] ->
    (writes c B2 = [] \/ exists B' r, B' `prefix_of` B2 /\ R B' r /\ writes c B2 `prefix_of` r) /\
    ((crashed B2 = false /\ (K <= own_steps c e)%nat) \/ crashed_by c B2 = true \/
     (exists inb, sConns s2 !! c = Some (Conn inb CLoop)) ->
     exists B' r, B' `prefix_of` B2 /\ R B' r /\ writes c B2 = r)).
  { intros e s2 B2 Hr Hs Hf.
    destruct (exchange port vers A c corr I s k tk0 e s2 B2) as (k' & st' & n & Hk' & Hp & Hi' & Hn); auto.
    assert (Hcrash : crashed B2 = false -> sCrash s2 = false).
    { intros H1. rewrite (i_crash _ _ _ _ Hi'), crashed_app, H1, orb_false_r.
      now rewrite <- (i_crash _ _ _ _ Hi). }
    destruct Hp as [tk HIt HW HC|B' n' t v payload chunks HB HIt He HW Hne Hc Hn' HC|B' n' t v payload st HB HIt He HW Hst].
    - split; [now left|]. intros [[H1 H2]|[H|(inb & H)]]; [|congruence|congruence].
      apply HK in HIt. rewrite <- Hn in H2 by auto. lia.
    - split.
      + right. exists B', (w_reply corr payload). split_and!; auto.
        * eapply HR; eauto.
        * rewrite <- HW. now exists (concat chunks).
      + intros [[H1 H2]|[H|(inb & H)]]; [|congruence|congruence].
        apply HK in HIt. rewrite <- Hn in H2 by auto. destruct chunks; [congruence|]. cbn in Hc. lia.
    - assert (G : exists B' r, B' `prefix_of` B2 /\ R B' r /\ writes c B2 = r).
      { exists B', (w_reply corr payload). split_and!; auto. eapply HR; eauto. }
      split; [|auto]. right. destruct G as (b & r & ? & ? & ->). exists b, r. split_and!; auto. }
  destruct (run_cut c s evs s' B Hrun) as [Hf|(e1 & ev & e2 & s1 & B1' & s2 & o & -> & Hr & Hf & Hs & Ho & Hu)].
  - subst B1. rewrite until_frame_none by assumption. destruct (Main evs s' B Hrun Hsend Hf) as [M1 M2].
    split; [exact M1|]. intros [H|[H|H]]; [auto|congruence|auto].
  - subst B1. rewrite Hu. apply sends_ok_app in Hsend as [Hs1 _].
    destruct (Main e1 s1 B1' Hr Hs1 Hf) as [M1 M2]. split; [exact M1|]. intros _. apply M2. right. right.
    destruct (step_frame _ _ _ _ c Hs Ho) as (inb & msg & rest & ch & _ & _ & Hidle & _). eauto.
Qed.

Lemma answers_right_intro port vers A c corr I s k tk0 (R : list obs -> bytes -> Prop) :
  handler_ok port vers A c I ->
  inv port vers A s ->
  sConns s !! c = Some (Conn k (CBusy corr [] tk0)) -> I [] 0%nat tk0 ->
  (forall B n t v payload, I B n (TkRet t v) -> encodeObject t v = Some payload -> R B (w_reply corr payload)) ->
  answers_right c s R.
Proof.
  intros Hh Hi Hk HI HR evs s' B Hrun Hsend B1.
  assert (Main : forall e s2 B2, run s e = (s2, B2) -> sends_ok c e -> frames c B2 = [] ->
    (writes c B2 = [] \/ exists B' r, B' `prefix_of` B2 /\ R B' r /\ writes c B2 `prefix_of` r) /\
    (crashed_by c B2 = true \/
     (exists inb, sConns s2 !! c = Some (Conn inb CLoop)) ->
     exists B' r, B' `prefix_of` B2 /\ R B' r /\ writes c B2 = r)).
  { intros e s2 B2 Hr Hs Hf.
    destruct (exchange port vers A c corr I s k tk0 e s2 B2) as (k' & st' & n & Hk' & Hp & Hi' & Hn); auto.
    destruct Hp as [tk HIt HW HC|B' n' t v payload chunks HB HIt He HW Hne Hc Hn' HC|B' n' t v payload st HB HIt He HW Hst].
    - split; [now left|]. intros [H|(inb & H)]; congruence.
    - split.
      + right. exists B', (w_reply corr payload). split_and!; auto.
        * eapply HR; eauto.
        * rewrite <- HW. now exists (concat chunks).
      + intros [H|(inb & H)]; congruence.
    - assert (G : exists B' r, B' `prefix_of` B2 /\ R B' r /\ writes c B2 = r).
      { exists B', (w_reply corr payload). split_and!; auto. eapply HR; eauto. }
      split; [|auto]. right. destruct G as (b & r & ? & ? & ->). exists b, r. split_and!; auto. }
  destruct (run_cut c s evs s' B Hrun) as [Hf|(e1 & ev & e2 & s1 & B1' & s2 & o & -> & Hr & Hf & Hs & Ho & Hu)].
  - subst B1. rewrite until_frame_none by assumption. destruct (Main evs s' B Hrun Hsend Hf) as [M1 M2].
    split; [exact M1|]. intros [H|H]; [congruence|auto].
  - subst B1. rewrite Hu. apply sends_ok_app in Hsend as [Hs1 _].
    destruct (Main e1 s1 B1' Hr Hs1 Hf) as [M1 M2]. split; [exact M1|]. intros _. apply M2. right.
    destruct (step_frame _ _ _ _ c Hs Ho) as (inb & msg & rest & ch & _ & _ & Hidle & _). eauto.
Qed.

(** ** Handlers that never come to a reply *)
Record handler_mute (port : Z) (vers : gmap Z vrange) (A : list obs) (c : nat)
    (I : list obs -> nat -> task -> Prop) : Prop := {
  m_other : forall B n tk o, Forall (beside c) o -> I B n tk -> I (B ++ o) n tk;
  m_ret : forall B n tk, I B n tk -> is_ret tk = false;
  m_step : forall s B n tk ch, inv port vers (A ++ B) s -> task_ok (sDs s) tk -> I B n tk ->
    tstep c (env_of s) ch (sDs s) tk = TPanic \/
    exists ds tk' o, tstep c (env_of s) ch (sDs s) tk = TCont ds tk' o /\ I (B ++ o) (S n) tk'
}.

Lemma mute_run port vers A c corr extra I s k tk0 evs s' B :
  handler_mute port vers A c I -> inv port vers A s -> sCrash s = false ->
  sConns s !! c = Some (Conn k (CBusy corr extra tk0)) -> I [] 0%nat tk0 ->
  run s evs = (s', B) ->
  writes c B = [] /\ frames c B = [] /\ inv port vers (A ++ B) s' /\
  (sCrash s' = true \/
   exists tk, sConns s' !! c = Some (Conn k (CBusy corr extra tk)) /\ I B (own_steps c evs) tk).
Proof.
  intros Hh Hi Hcr Hk HI. revert s' B.
  induction evs as [|ev evs IH] using rev_ind; intros s' B Hr.
  { injection Hr as <- <-. split_and!; auto; [now apply inv_nil|]. right. eauto. }
  apply run_snoc_inv in Hr as (s1 & o1 & o2 & H1 & H2 & ->).
  destruct (IH s1 o1 H1) as (W1 & F1 & I1 & Hs1).
  assert (I2 : inv port vers (A ++ o1 ++ o2) s').
  { rewrite app_assoc. eapply step_inv; eauto. }
  rewrite writes_app, frames_app, W1, F1. cbn [app].
  destruct (sCrash s1) eqn:Hc1.
  { rewrite step_crashed in H2 by assumption. injection H2 as <- <-. split_and!; auto. }
  destruct Hs1 as [|(tk & Hk1 & HI1)]; [discriminate|].
  rewrite own_steps_app.
  destruct (decide (ev_conn ev = Some c)) as [He|He].
  2: { destruct (step_other _ _ _ _ c _ He Hk1 H2) as [Hk2 Ho].
       rewrite apart_writes, apart_frames by assumption. split_and!; auto. right. exists tk. split; [assumption|].
       replace (own_steps c [ev]) with 0%nat; [rewrite Nat.add_0_r; apply (m_other _ _ _ _ _ Hh); [|assumption]; apply beside_intro; [assumption|];
         now apply (step_no_restart _ _ _ _ _ _ Hk1 eq_refl H2)|].
       destruct ev; try reflexivity. cbn in He. unfold own_steps. cbn. destruct (Nat.eqb_spec c c0); [congruence|reflexivity]. }
  pose proof (m_ret _ _ _ _ _ Hh _ _ _ HI1) as Hret.
  pose proof H2 as H2'. unfold step in H2. rewrite Hc1 in H2.
  destruct ev; try discriminate; injection He as ->; rewrite Hk1 in H2.
  2-6: injection H2 as <- <-; split_and!; auto; right; exists tk; split; [assumption|];
       rewrite app_nil_r; unfold own_steps at 2; cbn; now rewrite Nat.add_0_r.
  assert (G : match tstep c (env_of s1) ch (sDs s1) tk with
      | TCont ds tk' os => (set_conn s1 c (Conn k (CBusy corr extra tk')) ds, os)
      | TPanic => (crash s1, [OCrash c]) end = (s', o2)).
  { unfold conn_step in H2. cbn [cSt cIn] in H2. destruct tk; try discriminate; exact H2. }
  assert (Hto : task_ok (sDs s1) tk).
  { pose proof (i_conns _ _ _ _ I1) as F. rewrite Forall_lookup in F. exact (F _ _ Hk1). }
  destruct (m_step _ _ _ _ _ Hh s1 o1 _ tk ch I1 Hto HI1) as [E|(ds & tk' & o & E & HI2)]; rewrite E in G;
    injection G as <- <-.
  - split_and!; auto.
  - assert (Q : writes c o = [] /\ frames c o = []).
    { now destruct (tstep_obs _ _ _ _ _ _ _ _ E) as [->|(? & ? & ? & ? & ->)]. }
    destruct Q as [-> ->]. split_and!; auto. right. exists tk'. split.
    + cbn. apply list_lookup_insert. now apply lookup_lt_Some in Hk1.
    + replace (own_steps c [EvConn c ch]) with 1%nat; [now rewrite Nat.add_1_r|].
      unfold own_steps. cbn. now rewrite Nat.eqb_refl.
Qed.
Lemma rejects_intro port vers A c corr extra I s k tk0 K :
  handler_mute port vers A c I -> inv port vers A s -> sCrash s = false ->
  sConns s !! c = Some (Conn k (CBusy corr extra tk0)) -> I [] 0%nat tk0 ->
  (forall B n tk, I B n tk -> (n < K)%nat) -> rejects c s K.
Proof.
  intros Hh Hi Hc Hk HI HK evs s' B Hr.
  destruct (mute_run _ _ _ _ _ _ _ _ _ _ _ _ _ Hh Hi Hc Hk HI Hr) as (H1 & H2 & _ & H3). split_and!; auto.
  intros Hn. destruct H3 as [H3|(tk & _ & H3)]; [assumption|]. apply HK in H3. lia.
Qed.

(** ** Requests that end the process *)
Lemma run_frozen s evs s' B : sCrash s = true -> run s evs = (s', B) -> s' = s /\ B = [].
Proof. intros H. rewrite run_crashed by assumption. intros [= <- <-]. auto. Qed.

(** The state just after a request was taken up. *)
Lemma serving_cases port ch A c m s : serving port ch A c m s ->
  (exists inb corr extra tk, beginRequest port m = Some (corr, extra, tk) /\
    sConns s !! c = Some (Conn inb (CBusy corr extra tk)) /\
    inv port (initApiVersions ch) (A ++ [OFrame c m]) s /\ sCrash s = false) \/
  (beginRequest port m = None /\ sCrash s = true).
Proof.
  intros (evs & s0 & ev & o & Hr & Hs).
  pose proof (init_run_inv _ _ _ _ _ Hr) as Hi.
  destruct (step_frame _ _ _ _ c Hs) as (inb & msg & rest & ch' & -> & Hc & Hk & Hg & [(corr & extra & tk & Hb & Ho & ->)|(Hb & Ho & ->)]).
  - cbn. now rewrite Nat.eqb_refl.
  - injection Ho as <- ->. rewrite (i_port _ _ _ _ Hi) in Hb. left.
    exists rest, corr, extra, tk. split_and!; auto.
    + cbn. apply list_lookup_insert. now apply lookup_lt_Some in Hk.
    + eapply step_inv; eauto.
  - injection Ho as <- ->. rewrite (i_port _ _ _ _ Hi) in Hb. right. auto.
Qed.
Lemma serving_inv port ch A c m s corr extra tk : serving port ch A c m s ->
  beginRequest port m = Some (corr, extra, tk) ->
  exists inb, sConns s !! c = Some (Conn inb (CBusy corr extra tk)) /\
    inv port (initApiVersions ch) (A ++ [OFrame c m]) s /\ sCrash s = false.
Proof.
  intros Hs Hb. destruct (serving_cases _ _ _ _ _ _ Hs) as [(inb & co & ex & t & Hb' & Hk & Hi & Hc)|[Hn _]].
  - rewrite Hb in Hb'. injection Hb' as <- <- <-. eauto.
  - congruence.
Qed.
Lemma serving_none port ch A c m s : serving port ch A c m s -> beginRequest port m = None -> rejects c s 0.
Proof.
  intros Hs Hb. destruct (serving_cases _ _ _ _ _ _ Hs) as [(inb & co & ex & t & Hb' & _)|[_ Hc]]; [congruence|].
  intros evs s' B Hr. apply run_frozen in Hr as [-> ->]; auto.
Qed.

(** Bytes left over: the handler runs, but nothing is ever written. *)
Lemma extra_step s c inb corr x extra tk ev s' o :
  sCrash s = false ->
  sConns s !! c = Some (Conn inb (CBusy corr (x :: extra) tk)) -> step s ev = (s', o) ->
  writes c o = [] /\ frames c o = [] /\
  (sCrash s' = true \/ exists tk', sConns s' !! c = Some (Conn inb (CBusy corr (x :: extra) tk'))).
Proof.
  intros Hcr Hk Hs. destruct (decide (ev_conn ev = Some c)) as [He|He].
  2: { destruct (step_other _ _ _ _ c _ He Hk Hs) as [H1 H2].
       rewrite apart_writes, apart_frames by assumption. split_and!; eauto. }
  unfold step in Hs. rewrite Hcr in Hs.
  destruct ev; try discriminate; injection He as ->; rewrite Hk in Hs;
    try (injection Hs as <- <-; split_and!; eauto; fail).
  unfold conn_step in Hs. cbn [cSt cIn] in Hs.
  assert (Hlt : (c < length (sConns s))%nat) by now apply lookup_lt_Some in Hk.
  assert (G : forall ds tk' os, (os = [] \/ exists t p g x, os = [OCommit c t p g x]) ->
     writes c os = [] /\ frames c os = [] /\ (sCrash (set_conn s c (Conn inb (CBusy corr (x :: extra) tk')) ds) = true \/
       exists tk'', sConns (set_conn s c (Conn inb (CBusy corr (x :: extra) tk')) ds) !! c = Some (Conn inb (CBusy corr (x :: extra) tk'')))).
  { intros ds tk' os Ho. split; [|split].
    - now destruct Ho as [->|(?&?&?&?&->)].
    - now destruct Ho as [->|(?&?&?&?&->)].
    - right. exists tk'. cbn. now apply list_lookup_insert. }
  destruct tk.
  1: { injection Hs as <- <-. split_and!; auto. }
  all: match type of Hs with context [tstep ?a ?b ?d ?e ?f] => destruct (tstep a b d e f) as [ds tk' os|] eqn:E end.
  all: injection Hs as <- <-; try (split_and!; auto; fail).
  all: apply G; eapply tstep_obs; exact E.
Qed.
Lemma extra_silent s c inb corr x extra tk evs s' B :
  sCrash s = false -> sConns s !! c = Some (Conn inb (CBusy corr (x :: extra) tk)) -> run s evs = (s', B) ->
  writes c B = [] /\ frames c B = [] /\
  (sCrash s' = true \/ exists tk', sConns s' !! c = Some (Conn inb (CBusy corr (x :: extra) tk'))).
Proof.
  revert s tk B. induction evs as [|ev evs IH]; intros s tk B Hc Hk Hr.
  { injection Hr as <- <-. split_and!; eauto. }
  cbn [run] in Hr. destruct (step s ev) as [s1 o1] eqn:E. destruct (run s1 evs) as [s2 o2] eqn:E2.
  injection Hr as <- <-. destruct (extra_step _ _ _ _ _ _ _ _ _ _ Hc Hk E) as (H1 & H2 & H3).
  rewrite writes_app, frames_app, H1, H2. cbn [app].
  destruct (sCrash s1) eqn:Hc1.
  - apply run_frozen in E2 as [-> ->]; auto.
  - destruct H3 as [|[tk' Hk']]; [discriminate|]. eapply IH; eauto.
Qed.
