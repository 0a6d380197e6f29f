(** * RejectProofs: requests that are not answered *)
From Verif Require Export ShapeProofs DispatchProofs.
From stdpp Require Import gmap list.
From Coq Require Import ZifyBool ZifyNat.
Open Scope Z_scope.
Open Scope list_scope.

(** ** What is read from the network are bytes *)
Definition conns_bytes (s : sys) : Prop := forall c k, sConns s !! c = Some k -> all_bytes (cIn k) = true.

Lemma set_conn_bytes s c k ds : conns_bytes s -> all_bytes (cIn k) = true -> conns_bytes (set_conn s c k ds).
Proof.
  intros Hs Hk d kd Hd. cbn in Hd. destruct (decide (d = c)) as [->|Hne].
  - destruct (le_lt_dec (length (sConns s)) c) as [Hle|Hlt].
    + rewrite list_insert_ge in Hd by lia. eauto.
    + rewrite list_lookup_insert in Hd by assumption. now injection Hd as <-.
  - rewrite list_lookup_insert_ne in Hd by congruence. eauto.
Qed.
Lemma step_bytes s ev s' o : conns_bytes s -> step s ev = (s', o) -> conns_bytes s'.
Proof.
  intros Hs H. unfold step in H. destruct (sCrash s); [injection H as <- <-; assumption|].
  destruct ev as [cl|i| |d chh|d chunk|d|d|d|d gone|d|w| |].
  - destruct (call_ok cl); injection H as <- <-; exact Hs.
  - destruct (sThreads s !! i) as [a|]; [|injection H as <- <-; exact Hs].
    destruct (astep i (sWall s) (sDs s) a) as [[ds a'] os']. injection H as <- <-. exact Hs.
  - destruct (sCancel s); injection H as <- <-; [exact Hs|]. intros c k Hk. cbn in Hk.
    apply lookup_app_Some in Hk as [Hk|[_ Hk]]; [eauto|].
    destruct (c - length (sConns s))%nat as [|n]; [injection Hk as <-; reflexivity|discriminate].
  - destruct (sConns s !! d) as [[inb st]|] eqn:Hd; [|injection H as <- <-; exact Hs].
    pose proof (Hs _ _ Hd) as Hb. cbn [cIn] in Hb. unfold conn_step in H. cbn [cSt cIn] in H.
    assert (T : forall tk corr extra, match tstep d (env_of s) chh (sDs s) tk with
        | TCont ds tk' os => (set_conn s d (Conn inb (CBusy corr extra tk')) ds, os)
        | TPanic => (crash s, [OCrash d]) end = (s', o) -> conns_bytes s').
    { intros tk corr extra. destruct (tstep d (env_of s) chh (sDs s) tk); intros [= <- <-]; [|exact Hs].
      now apply set_conn_bytes. }
    destruct st as [| |corr extra tk|[|b bs]|]; try (injection H as <- <-; now try apply set_conn_bytes).
    + destruct (getMessage inb) as [|msg rest|] eqn:Eg.
      * destruct (sCancel s); injection H as <- <-; now apply set_conn_bytes.
      * apply getMessage_frame in Eg as [-> _]; [|assumption].
        destruct (beginRequest (sPort s) msg) as [[[corr extra] tk]|]; injection H as <- <-; [|exact Hs].
        apply set_conn_bytes; [assumption|]. cbn. rewrite all_bytes_app in Hb. now apply andb_true_iff in Hb as [_ ?].
      * injection H as <- <-. exact Hs.
    + destruct tk as [t v| | | | | | | | | |];
        try (match type of H with context [tstep _ _ _ _ ?x] => exact (T x corr extra H) end).
      destruct (finishRequest corr extra t v); injection H as <- <-; [now apply set_conn_bytes|exact Hs].
  - destruct (sConns s !! d) as [[inb [| | | |]]|] eqn:Hd; try (injection H as <- <-; exact Hs).
    destruct ((0 <? zlen chunk) && (zlen chunk <=? 8192) && all_bytes chunk) eqn:Ec; injection H as <- <-; [|exact Hs].
    apply andb_true_iff in Ec as [_ Ec]. apply set_conn_bytes; [assumption|]. cbn. rewrite all_bytes_app, Ec.
    apply andb_true_iff. split; [exact (Hs _ _ Hd)|reflexivity].
  - destruct (sConns s !! d) as [[inb [| | | |]]|] eqn:Hd; injection H as <- <-; try exact Hs.
    apply set_conn_bytes; [assumption|]. exact (Hs _ _ Hd).
  - destruct (sConns s !! d) as [[inb [| | | |]]|] eqn:Hd; injection H as <- <-; try exact Hs.
    apply set_conn_bytes; [assumption|]. exact (Hs _ _ Hd).
  - destruct (sConns s !! d) as [[inb [| | | |]]|] eqn:Hd; injection H as <- <-; exact Hs.
  - destruct (sConns s !! d) as [[inb [| | | |]]|] eqn:Hd; try (injection H as <- <-; exact Hs).
    destruct gone; injection H as <- <-; [|exact Hs]. apply set_conn_bytes; [assumption|]. exact (Hs _ _ Hd).
  - injection H as <- <-. exact Hs.
  - injection H as <- <-. exact Hs.
  - injection H as <- <-. exact Hs.
  - destruct (forallb closed (sConns s)); injection H as <- <-; exact Hs.
Qed.
Lemma run_bytes evs : forall s s' o, conns_bytes s -> run s evs = (s', o) -> conns_bytes s'.
Proof.
  induction evs as [|ev evs IH]; cbn; intros s s' o Hs H.
  - injection H as <- <-. assumption.
  - destruct (step s ev) as [s1 o1] eqn:E1. destruct (run s1 evs) as [s2 o2] eqn:E2. injection H as <- <-.
    eapply IH; [|exact E2]. eapply step_bytes; eauto.
Qed.
Lemma serving_bytes port ch A c m s : serving port ch A c m s -> all_bytes m = true.
Proof.
  intros (evs & s0 & ev & o & Hr & Hs).
  assert (Hb : conns_bytes s0) by (eapply run_bytes; [|exact Hr]; intros d k Hd; discriminate).
  destruct (step_frame _ _ _ _ c Hs) as (inb & msg & rest & ch' & -> & Hc & Hk & Hg & Hcase).
  - cbn. now rewrite Nat.eqb_refl.
  - pose proof (Hb _ _ Hk) as Hin. cbn in Hin. apply getMessage_frame in Hg as [-> _]; [|assumption].
    rewrite all_bytes_app in Hin. apply andb_true_iff in Hin as [Hin _].
    unfold w_frame in Hin. rewrite all_bytes_app in Hin. apply andb_true_iff in Hin as [_ Hin].
    destruct Hcase as [(corr & extra & tk & _ & Ho & _)|(_ & Ho & _)]; injection Ho as <- _; exact Hin.
Qed.

(** ** Layouts and schemas *)
Definition req_ty (a : api) : option ty :=
  match a with
  | ApiMetadata => Some tMetadataReq | ApiFindCoordinator => Some tFindReq | ApiHeartbeat => Some tHeartbeatReq
  | ApiLeaveGroup => Some tLeaveReq | ApiJoinGroup => Some tJoinReq | ApiSyncGroup => Some tSyncReq
  | ApiApiVersions => None | ApiListOffsets => Some tListReq | ApiOffsetCommit => Some tCommitReq
  | ApiOffsetFetch => Some tOffReq | ApiFetch => Some tFetchReq
  end.
Lemma layout_schema key ver a : dispatch key ver = Some a ->
  match req_ty a with
  | Some t => layout key ver = Some (shape_of t) /\ simple t = true /\ exists ts, t = fields ts
  | None => key = 18 /\ ver = 0
  end.
Proof.
  rewrite dispatch_supported. unfold supported. intros H.
  repeat match type of H with
  | match ?x with _ => _ end = _ => is_var x; destruct x; try discriminate
  end; injection H as <-; cbn [req_ty]; try (split; [reflexivity|split; [reflexivity|eexists; reflexivity]]).
  split; reflexivity.
Qed.
Lemma layout_dispatch key ver sh : layout key ver = Some sh -> exists a, dispatch key ver = Some a.
Proof.
  rewrite dispatch_supported. unfold layout, supported. intros H.
  repeat match type of H with
  | match ?x with _ => _ end = _ => is_var x; destruct x; try discriminate
  end; eexists; reflexivity.
Qed.

(** A handler starts only after reading its request. *)
Lemma start_reads a port body extra tk t : req_ty a = Some t -> startApi a port body = Some (extra, tk) ->
  exists v, readRequest t body = Some (v, extra).
Proof.
  intros Ht H. destruct a; cbn [req_ty startApi] in *; try discriminate; injection Ht as <-; unfold with_req in H;
    match type of H with context [readRequest ?t ?b] => destruct (readRequest t b) as [[v rest]|]; [|discriminate] end;
    match type of H with context [match ?x with Some _ => _ | None => _ end] => destruct x; [|discriminate] end;
    try (injection H as <- <-; now eauto).
  destruct (z =? 0); [|discriminate]. injection H as <- <-. eauto.
Qed.
Lemma start_none a port body t : req_ty a = Some t -> readRequest t body = None -> startApi a port body = None.
Proof.
  intros Ht H. destruct a; cbn [req_ty startApi] in *; try discriminate; injection Ht as <-; unfold with_req; now rewrite H.
Qed.

(** ** Headers *)
Lemma header_dec m next key ver corr : all_bytes m = true ->
  peekObject m 0 tHeader0 = DOk next (VStruct [VInt key; VInt ver; VInt corr]) ->
  next = 8 /\ 8 <= zlen m /\ slice m 0 8 = w_int16 key ++ w_int16 ver ++ w_int32 corr /\
  l_i16 key = true /\ l_i16 ver = true /\ l_i32 corr = true.
Proof.
  intros Hb. unfold peekObject, tHeader0, fields. cbn [dec map]. unfold dec_fields. cbn [dec tCompact plain].
  destruct (peek_sint 2 m 0) as [n1 v1| |] eqn:E1; cbn [dmap]; try discriminate. cbn [settable].
  destruct (peek_sint 2 m n1) as [n2 v2| |] eqn:E2; cbn [dmap]; try discriminate. cbn [settable].
  destruct (peek_sint 4 m n2) as [n3 v3| |] eqn:E3; cbn [dmap]; try discriminate. cbn [settable].
  intros [= <- <- <- <-].
  apply sint_sound in E1 as (-> & F1 & S1 & R1); try assumption; try lia.
  apply sint_sound in E2 as (-> & F2 & S2 & R2); try assumption; try lia.
  apply sint_sound in E3 as (-> & F3 & S3 & R3); try assumption; try lia.
  change (0 + 2 + 2 + 4) with 8 in *. change (0 + 2 + 2) with 4 in *. change (0 + 2) with 2 in *.
  unfold fits in *. split; [reflexivity|]. split; [lia|]. split.
  - rewrite <- (slice_app m 0 2 8) by lia. rewrite <- (slice_app m 2 4 8) by lia. rewrite S1, S2, S3. reflexivity.
  - unfold l_i16, l_i32. change (8 * 2 - 1) with 15 in *. change (8 * 4 - 1) with 31 in *. lia.
Qed.

Lemma slice_split m n : 0 <= n -> m = slice m 0 n ++ discard m n.
Proof. intros Hn. unfold slice, discard. cbn [Z.to_nat skipn]. symmetry. apply firstn_skipn. Qed.

(** A request whose handler starts follows its layout. *)
Lemma begin_sound port m corr extra tk : all_bytes m = true ->
  beginRequest port m = Some (corr, extra, tk) ->
  exists key ver h b a body, is_request m key ver corr h b extra /\
    dispatch key ver = Some a /\ startApi a port body = Some (extra, tk).
Proof.
  intros Hb. unfold beginRequest.
  destruct (peekObject m 0 tHeader0) as [next v| |] eqn:E; try discriminate.
  destruct v as [| | | | | | | |fs| |]; try discriminate.
  destruct fs as [|[| key | | | | | | | | |] fs]; try discriminate.
  destruct fs as [|[| ver | | | | | | | | |] fs]; try discriminate.
  destruct fs as [|[| co | | | | | | | | |] fs]; try discriminate.
  destruct fs; try discriminate.
  apply header_dec in E as (-> & H8 & S8 & Hk & Hv & Hc); [|assumption].
  unfold peekString. destruct (peek_data16 m 8) as [n2 cl| |] eqn:E2; cbn [dmap]; try discriminate.
  apply data16_sound in E2 as [(F1 & F2 & F3) P2]; try assumption; [|lia].
  destruct (dispatch key ver) as [a|] eqn:Ed; try discriminate.
  destruct (startApi a port (discard m n2)) as [[rest tk']|] eqn:Es; try discriminate.
  intros [= <- <- <-].
  assert (Hh : is_header (slice m 0 n2) key ver co).
  { exists (slice m 8 n2). split; [|auto]. rewrite <- (slice_app m 0 8 n2) by lia. rewrite S8. now rewrite <- !app_assoc. }
  assert (Lh : zlen (slice m 0 n2) <= 4096) by (rewrite slice_len; lia).
  pose proof (slice_split m n2 ltac:(lia)) as Em.
  set (body := discard m n2) in *.
  assert (Hbb : all_bytes body = true) by (now apply all_bytes_skipn).
  pose proof (layout_schema key ver a Ed) as Hlay.
  destruct (req_ty a) as [t|] eqn:Et.
  - destruct Hlay as (Hlay & Hsim & ts & Hts).
    destruct (start_reads _ _ _ _ _ _ Et Es) as [v Hr]. unfold readRequest in Hr.
    destruct (peekObject body 0 t) as [n v'| |] eqn:Ep; try discriminate. injection Hr as <- <-.
    assert (Hset : settable t v' = true).
    { subst t. unfold peekObject, fields in Ep. cbn [dec] in Ep. destruct (dec_fields _ _ _ _); try discriminate.
      now injection Ep as <- <-. }
    destruct (dec_sound t Hsim body 0 n v' Hbb) as [(G1 & G2 & G3) P]; try assumption; try lia.
    { pose proof (zlen_nonneg body). lia. }
    exists key, ver, (slice m 0 n2), (slice body 0 n), a, body. split; [|auto]. split; [|split; [assumption|split; [assumption|]]].
    + rewrite <- slice_split by lia. exact Em.
    + exists (shape_of t). rewrite slice_len by lia. auto with lia.
  - destruct Hlay as [-> ->]. destruct a; try discriminate. cbn [startApi] in Es. injection Es as <- <-.
    exists 18, 0, (slice m 0 n2), [], ApiApiVersions, body. split; [|auto]. split; [exact Em|]. split; [assumption|]. split; [assumption|].
    exists (SRec []). split; [reflexivity|]. split; [apply (p_rec [] []); constructor|]. rewrite zlen_nil. lia.
Qed.

(** ** Requests with a readable header *)
Lemma header_split h key ver corr client : h = w_int16 key ++ w_int16 ver ++ w_int32 corr ++ client ->
  exists h0, h0 = w_int16 key ++ w_int16 ver ++ w_int32 corr /\ h = h0 ++ client /\ zlen h0 = 8.
Proof.
  intros ->. eexists. split; [reflexivity|]. split; [now rewrite <- !app_assoc|].
  unfold w_int16, w_int32. now rewrite !zlen_app, !zlen_w_be.
Qed.
Lemma begin_header port h rest key ver corr : is_header h key ver corr -> zlen h <= 4096 ->
  beginRequest port (h ++ rest) =
  match dispatch key ver with
  | Some a => match startApi a port rest with
              | Some (more, tk) => Some (corr, more, tk)
              | None => None end
  | None => None
  end.
Proof.
  intros (client & Hh & Hc & Hk & Hv & Hco) Hl.
  destruct (header_split _ _ _ _ _ Hh) as (h0 & E0 & -> & L0).
  unfold beginRequest. rewrite <- app_assoc.
  rewrite (peekObject_good tHeader0 (header_val key ver corr) h0) by
    (try (subst h0; now apply header_good); unfold bufsize; lia).
  cbn [header_val]. rewrite L0.
  destruct (data16_complete _ Hc) as [o Ho]. destruct (Ho h0) as [G _]. specialize (G rest).
  rewrite zlen_app in Hl. rewrite L0 in G. unfold peekString. rewrite G by (unfold bufsize; lia).
  cbn [dmap]. replace (discard _ _) with rest; [reflexivity|].
  unfold discard. rewrite app_assoc. symmetry. apply skipn_app_exact.
  rewrite app_length. unfold zlen in *. lia.
Qed.
Lemma begin_header_long port h rest key ver corr : is_header h key ver corr -> 4096 < zlen h ->
  beginRequest port (h ++ rest) = None.
Proof.
  intros (client & Hh & Hc & Hk & Hv & Hco) Hl.
  destruct (header_split _ _ _ _ _ Hh) as (h0 & E0 & -> & L0).
  unfold beginRequest. rewrite <- app_assoc.
  rewrite (peekObject_good tHeader0 (header_val key ver corr) h0) by
    (try (subst h0; now apply header_good); unfold bufsize; lia).
  cbn [header_val]. unfold peekString.
  destruct (data16_complete _ Hc) as [o Ho]. rewrite zlen_app in Hl.
  rewrite (good_beyond peek_data16 client o h0 rest); [reflexivity| |exact Ho| |].
  - intros. apply peek_data16_window.
  - unfold bufsize. lia.
  - unfold bufsize. lia.
Qed.

(** C05 *)
Lemma long_header_rejected port ch A c m s h rest key ver corr : serving port ch A c m s ->
  m = h ++ rest -> is_header h key ver corr -> 4096 < zlen h -> rejects c s 0.
Proof. intros Hs -> Hh Hl. eapply serving_none; [exact Hs|]. eapply begin_header_long; eauto. Qed.
Lemma long_body_rejected port ch A c m s h b rest key ver corr sh : serving port ch A c m s ->
  m = h ++ b ++ rest -> is_header h key ver corr -> layout key ver = Some sh -> parses sh b -> 4096 < zlen b ->
  rejects c s 0.
Proof.
  intros Hs -> Hh Hsh Hp Hl. destruct (Z.le_gt_cases (zlen h) 4096) as [L|L];
    [|eapply long_header_rejected; eauto].
  eapply serving_none; [exact Hs|]. rewrite (begin_header _ _ _ _ _ _ Hh L).
  destruct (layout_dispatch _ _ _ Hsh) as [a Ha]. rewrite Ha.
  pose proof (layout_schema _ _ _ Ha) as Hlay. destruct (req_ty a) as [t|] eqn:Et.
  - destruct Hlay as (Hlay & Hsim & _). rewrite Hsh in Hlay. injection Hlay as ->.
    destruct (complete t Hsim b Hp) as (v & Hg & _).
    rewrite (start_none a port _ t Et); [reflexivity|]. eapply readRequest_long; eauto.
  - exfalso. destruct Hlay as [-> ->]. injection Hsh as <-. inversion Hp as [| | | |fs bs HF]; subst. inversion HF; subst.
    cbn in Hl. rewrite zlen_nil in Hl. lia.
Qed.

(** C06 *)
Lemma null_rejected port ch A c m s h b key ver corr sh : serving port ch A c m s ->
  m = h ++ b -> is_header h key ver corr -> layout key ver = Some sh -> null_at sh b -> rejects c s 0.
Proof.
  intros Hs -> Hh Hsh Hn. destruct (Z.le_gt_cases (zlen h) 4096) as [L|L];
    [|eapply long_header_rejected; eauto].
  eapply serving_none; [exact Hs|]. rewrite (begin_header _ _ _ _ _ _ Hh L).
  destruct (layout_dispatch _ _ _ Hsh) as [a Ha]. rewrite Ha.
  pose proof (layout_schema _ _ _ Ha) as Hlay. destruct (req_ty a) as [t|] eqn:Et.
  - destruct Hlay as (Hlay & Hsim & ts & Hts). rewrite Hsh in Hlay. injection Hlay as ->.
    pose proof (null_bad _ _ Hn t Hsim eq_refl) as Hbad.
    rewrite (start_none a port _ t Et); [reflexivity|]. unfold readRequest.
    destruct (peekObject b 0 t) as [n v| |] eqn:E; [|reflexivity|reflexivity]. exfalso.
    specialize (Hbad [] n v ltac:(rewrite zlen_nil; unfold bufsize; lia) E).
    subst t. unfold peekObject, fields in E. cbn [dec] in E. destruct (dec_fields _ _ _ _); try discriminate.
    injection E as <- <-. discriminate.
  - exfalso. destruct Hlay as [-> ->]. injection Hsh as <-. inversion Hn as [| |fs1 bs f fs2 b0 H1 H2 E1 E2]; subst.
    now destruct fs1.
Qed.

Lemma unsupported_rejected port ch A c m s h rest key ver corr : serving port ch A c m s ->
  m = h ++ rest -> is_header h key ver corr -> layout key ver = None -> rejects c s 0.
Proof.
  intros Hs -> Hh Hsh. destruct (Z.le_gt_cases (zlen h) 4096) as [L|L];
    [|eapply long_header_rejected; eauto].
  eapply serving_none; [exact Hs|]. rewrite (begin_header _ _ _ _ _ _ Hh L).
  destruct (dispatch key ver) as [a|] eqn:Ha; [|reflexivity].
  pose proof (layout_schema _ _ _ Ha) as Hlay. destruct (req_ty a) as [t|] eqn:Et.
  - destruct Hlay as (Hlay & _). congruence.
  - destruct Hlay as [-> ->]. discriminate.
Qed.

(** ** Handlers other than Fetch come to an end *)
Definition opt_n {A} (o : option A) : nat := match o with Some _ => 1 | None => 0 end.
Definition tmeas (tk : task) : option nat :=
  match tk with
  | TkRet _ _ => Some 0
  | TkVersions | TkSync => Some 1
  | TkFetchOpen _ _ _ _ | TkFetchScan _ _ _ _ _ _ | TkFetchPoll _ _ _ | TkFetchSleep _ _ _ _ => None
  | TkCommit _ ops _ pend _ => Some (2 * length ops + opt_n pend + 1)
  | TkList _ ops _ pend _ => Some (2 * length ops + opt_n pend + 1)
  | TkOffOpen _ ops _ data => Some (3 * length ops + length (plan data) + 2)
  | TkOffRead _ ops _ _ => Some (length ops + 1)
  end%nat.
Lemma plan_len_cons {P} n (l : list P) ts : length (plan ((n, l) :: ts)) = (1 + length l + length (plan ts))%nat.
Proof. unfold plan. cbn. rewrite app_length, map_length. cbn. lia. Qed.
Lemma plan_shuffle {P} ch (ts : list (topic_req P)) : length (plan (shuffle ch ts)) = length (plan ts).
Proof.
  pose proof (shuffle_perm ch ts) as Hp. revert Hp. generalize (shuffle ch ts) as us.
  induction 1 as [|[n l] xs ys _ IH|[n l] [n' l'] xs|xs ys zs _ IH1 _ IH2].
  - reflexivity.
  - unfold topic_req in *; rewrite !plan_len_cons. lia.
  - unfold topic_req in *; rewrite !plan_len_cons. lia.
  - lia.
Qed.
Lemma plan_add_data n p data : (length (plan (add_data n p data)) <= length (plan data) + 2)%nat.
Proof.
  induction data as [|[n' l] data IH].
  - cbn. lia.
  - cbn [add_data]. destruct (beqb n' n); rewrite !plan_len_cons; [|lia]. rewrite app_length. cbn. lia.
Qed.
Lemma tstep_meas c e ch ds tk k ds' tk' os : tmeas tk = Some k -> (0 < k)%nat ->
  tstep c e ch ds tk = TCont ds' tk' os -> exists k', tmeas tk' = Some k' /\ (k' < k)%nat.
Proof.
  intros Hk H0 H. destruct tk; cbn [tmeas tstep] in *; try discriminate; injection Hk as <-.
  - lia.
  - injection H as <- <- <-. exists 0%nat. split; [reflexivity|lia].
  - destruct (syncReply _ _ _); [|discriminate]. injection H as <- <- <-. exists 0%nat. split; [reflexivity|lia].
  - repeat match type of H with
    | context [match ?x with _ => _ end] => destruct x
    end; try discriminate; injection H as <- <- <-; unfold ptr; cbn [tmeas opt_n length]; (eexists; split; [reflexivity|lia]).
  - repeat match type of H with
    | context [match ?x with _ => _ end] => destruct x
    end; try discriminate; injection H as <- <- <-; unfold ptr; cbn [tmeas opt_n length]; (eexists; split; [reflexivity|lia]).
  - destruct ops as [|[n|p] ops].
    + injection H as <- <- <-. cbn [tmeas]. unfold topic_req in *; pose proof (@plan_shuffle Z (chTop ch) data) as Hps; unfold topic_req in Hps; rewrite Hps. eexists; split; [reflexivity|cbn [length]; lia].
    + injection H as <- <- <-. cbn [tmeas]. eexists; split; [reflexivity|cbn [length]; lia].
    + destruct kt as [n|]; [destruct (hasPart ds n p)|]; injection H as <- <- <-; cbn [tmeas]; (eexists; split; [reflexivity|]); cbn [length]; try lia.
      pose proof (plan_add_data n p data). lia.
  - repeat match type of H with
    | context [match ?x with _ => _ end] => destruct x
    end; try discriminate; injection H as <- <- <-; unfold ptr; cbn [tmeas opt_n length]; (eexists; split; [reflexivity|lia]).
Qed.

Definition own_ev (c : nat) (ev : event) : nat := match ev with EvConn c' _ => if Nat.eqb c c' then 1 else 0 | _ => 0 end%nat.
Lemma own_steps_cons c ev evs : own_steps c (ev :: evs) = (own_ev c ev + own_steps c evs)%nat.
Proof. unfold own_steps, own_ev. cbn. destruct ev; try reflexivity. now destruct (Nat.eqb c c0). Qed.

Lemma extra_end s c inb corr x extra tk k evs s' B :
  sCrash s = false -> sConns s !! c = Some (Conn inb (CBusy corr (x :: extra) tk)) -> tmeas tk = Some k ->
  run s evs = (s', B) -> (k < own_steps c evs)%nat -> sCrash s' = true.
Proof.
  revert s tk k B. induction evs as [|ev evs IH]; intros s tk k B Hc Hk Hm Hr Hn.
  { cbn in Hn. lia. }
  cbn [run] in Hr. destruct (step s ev) as [s1 o1] eqn:E. destruct (run s1 evs) as [s2 o2] eqn:E2.
  injection Hr as <- <-. rewrite own_steps_cons in Hn.
  destruct (sCrash s1) eqn:Hc1.
  { apply run_frozen in E2 as [-> ->]; auto. }
  destruct (decide (own_ev c ev = 0%nat)) as [E0|E0].
  - destruct (extra_step _ _ _ _ _ _ _ _ _ _ Hc Hk E) as (_ & _ & [|[tk' Hk']]); [congruence|].
    assert (tk' = tk).
    { destruct (decide (ev_conn ev = Some c)) as [He|He].
      2: { destruct (step_other _ _ _ _ c _ He Hk E) as [H1 _]. rewrite H1 in Hk'. now injection Hk'. }
      unfold step in E. rewrite Hc in E. destruct ev; try discriminate; injection He as ->; rewrite Hk in E;
        try (injection E as <- <-; rewrite Hk in Hk'; now injection Hk').
      cbn in E0. rewrite Nat.eqb_refl in E0. discriminate. }
    subst tk'. eapply IH; eauto. lia.
  - destruct ev; try (cbn in E0; congruence). cbn in E0. destruct (Nat.eqb_spec c c0) as [<-|]; [|congruence].
    cbn [own_ev] in Hn. rewrite Nat.eqb_refl in Hn.
    unfold step in E. rewrite Hc, Hk in E. unfold conn_step in E. cbn [cSt cIn] in E.
    assert (Hlt : (c < length (sConns s))%nat) by now apply lookup_lt_Some in Hk.
    destruct k as [|k].
    + exfalso. destruct tk; cbn [tmeas] in Hm; try discriminate; try (injection Hm; lia).
      injection E as <- <-. discriminate.
    + assert (T : forall tk0, tk0 = tk -> match tstep c (env_of s) ch (sDs s) tk0 with
        | TCont ds tk' os => (set_conn s c (Conn inb (CBusy corr (x :: extra) tk')) ds, os)
        | TPanic => (crash s, [OCrash c]) end = (s1, o1) -> sCrash s2 = true).
      { intros tk0 -> Et. destruct (tstep c (env_of s) ch (sDs s) tk) as [ds tk' os|] eqn:Et'.
        - injection Et as <- <-. destruct (tstep_meas _ _ _ _ _ _ _ _ _ Hm ltac:(lia) Et') as (k' & Hm' & Hlt').
          eapply IH; [exact Hc1| |exact Hm'|exact E2|lia]. cbn. now apply list_lookup_insert.
        - injection Et as <- <-. discriminate. }
      destruct tk; try (match type of E with context [tstep _ _ _ _ ?x] => exact (T x eq_refl E) end).
      discriminate.
Qed.

Lemma start_meas a port body extra tk : a <> ApiFetch -> startApi a port body = Some (extra, tk) -> exists k, tmeas tk = Some k.
Proof.
  intros Ha H. destruct a; try congruence; cbn [startApi] in H; unfold with_req in H;
    try (match type of H with context [readRequest ?t ?b] => destruct (readRequest t b) as [[v rest]|]; [|discriminate] end;
    match type of H with context [match ?x with Some _ => _ | None => _ end] => destruct x; [|discriminate] end);
    try (injection H as <- <-; eexists; reflexivity).
  destruct (z =? 0); [|discriminate]. injection H as <- <-. eexists; reflexivity.
Qed.

(** ** C11 *)
Lemma malformed_silent port ch A c m s : serving port ch A c m s -> ~ well_formed m ->
  forall evs s' B, run s evs = (s', B) -> writes c B = [] /\ frames c B = [].
Proof.
  intros Hs Hw evs s' B Hr. pose proof (serving_bytes _ _ _ _ _ _ Hs) as Hb.
  destruct (beginRequest port m) as [[[corr extra] tk]|] eqn:E.
  - destruct (begin_sound _ _ _ _ _ Hb E) as (key & ver & h & b & a & body & Hreq & _).
    destruct extra as [|x extra]; [exfalso; apply Hw; exists key, ver, corr, h, b; exact Hreq|].
    destruct (serving_inv _ _ _ _ _ _ _ _ _ Hs E) as (inb & Hk & Hi & Hc).
    destruct (extra_silent _ _ _ _ _ _ _ _ _ _ Hc Hk Hr) as (H1 & H2 & _). auto.
  - destruct (serving_none _ _ _ _ _ _ Hs E evs s' B Hr) as (H1 & H2 & _). auto.
Qed.
Lemma malformed_rejected port ch A c m s : serving port ch A c m s -> ~ well_formed m -> ~ fetch_with_more m ->
  exists K, rejects c s K.
Proof.
  intros Hs Hw Hf. pose proof (serving_bytes _ _ _ _ _ _ Hs) as Hb.
  destruct (beginRequest port m) as [[[corr extra] tk]|] eqn:E.
  - destruct (begin_sound _ _ _ _ _ Hb E) as (key & ver & h & b & a & body & Hreq & Hd & Hst).
    destruct extra as [|x extra]; [exfalso; apply Hw; exists key, ver, corr, h, b; exact Hreq|].
    assert (Ha : a <> ApiFetch).
    { intros ->. apply Hf. rewrite dispatch_supported in Hd. unfold supported in Hd.
      repeat match type of Hd with
      | match ?x with _ => _ end = _ => is_var x; destruct x; try discriminate
      end. exists corr, h, b, x, extra. exact Hreq. }
    destruct (start_meas _ _ _ _ _ Ha Hst) as [k Hk].
    destruct (serving_inv _ _ _ _ _ _ _ _ _ Hs E) as (inb & Hcn & Hi & Hc).
    exists (S k). intros evs s' B Hr.
    destruct (extra_silent _ _ _ _ _ _ _ _ _ _ Hc Hcn Hr) as (H1 & H2 & _). split; [assumption|]. split; [assumption|].
    intros Hn. eapply extra_end; eauto.
  - exists 0%nat. eapply serving_none; eauto.
Qed.

(** ** The requests taken up are the frames received, also when sends fail *)
Definition intake (c : nat) (os : list obs) (s : sys) : Prop :=
  framed c os /\
  (sCrash s = false -> match sConns s !! c with
    | Some k => framed_with c os (cIn k) /\ all_bytes (cIn k) = true
    | None => reads c os = [] /\ frames c os = [] end).
Definition deaf (c : nat) (o : list obs) : Prop := reads c o = [] /\ frames c o = [].
Lemma deaf_eq c os o : deaf c o -> reads c (os ++ o) = reads c os /\ frames c (os ++ o) = frames c os.
Proof. intros [H1 H2]. rewrite reads_app, frames_app, H1, H2, !app_nil_r. auto. Qed.
Lemma deaf_apart c o : Forall (apart c) o -> deaf c o.
Proof. intros H. split; [now apply apart_reads|now apply apart_frames]. Qed.

Lemma intake_step c os s ev s' o : intake c os s -> step s ev = (s', o) -> intake c (os ++ o) s'.
Proof.
  intros [Hf Hs] H. destruct (sCrash s) eqn:Hcr.
  { unfold step in H. rewrite Hcr in H. injection H as <- <-. rewrite app_nil_r. split; [assumption|congruence]. }
  specialize (Hs eq_refl). destruct (sConns s !! c) as [k|] eqn:Hk.
  2: { destruct (step_fresh _ _ _ _ _ Hk H) as [Ho Hk']. destruct (deaf_eq c os o (deaf_apart _ _ Ho)) as [E1 E2].
    destruct Hs as [R F].
    assert (W : framed_with c (os ++ o) []) by (unfold framed_with; rewrite E1, E2, R, F; split; [reflexivity|constructor]).
    split; [now exists []|]. intros _. rewrite E1, E2, R, F. destruct Hk' as [->| ->]; [auto|]. split; [exact W|reflexivity]. }
  destruct Hs as [Hw Hb].
  (* a step that neither reads nor takes up a request *)
  assert (Q : deaf c o -> (sCrash s' = true \/ exists k', sConns s' !! c = Some k' /\ cIn k' = cIn k) -> intake c (os ++ o) s').
  { intros Hd Hs'. destruct (deaf_eq c os o Hd) as [E1 E2].
    assert (W : framed_with c (os ++ o) (cIn k)) by (unfold framed_with; rewrite E1, E2; exact Hw).
    split; [now exists (cIn k)|]. intros Hc'. destruct Hs' as [|(k' & -> & ->)]; [congruence|]. auto. }
  destruct (decide (ev_conn ev = Some c)) as [He|He].
  2: { destruct (step_other _ _ _ _ c _ He Hk H) as [Hk' Ho]. apply Q; [now apply deaf_apart|eauto]. }
  assert (Hset : forall k' ds, sConns (set_conn s c k' ds) !! c = Some k').
  { intros k' ds. cbn. apply list_lookup_insert. now apply lookup_lt_Some in Hk. }
  unfold step in H. rewrite Hcr in H. destruct k as [inb st]. cbn [cIn] in *.
  destruct ev; cbn [ev_conn] in He; try discriminate; injection He as ->; rewrite Hk in H.
  - unfold conn_step in H. cbn [cSt cIn] in H.
    assert (T : forall tk corr extra, match tstep c (env_of s) ch (sDs s) tk with
        | TCont ds tk' os => (set_conn s c (Conn inb (CBusy corr extra tk')) ds, os)
        | TPanic => (crash s, [OCrash c]) end = (s', o) -> intake c (os ++ o) s').
    { intros tk corr extra E. destruct (tstep c (env_of s) ch (sDs s) tk) as [ds tk' o'|] eqn:Et; injection E as <- <-.
      - apply Q; [|right; eexists; split; [apply Hset|reflexivity]].
        apply tstep_obs in Et as [->|(?&?&?&?&->)]; split; reflexivity.
      - apply Q; [split; reflexivity|now left]. }
    destruct st as [| |corr extra tk|[|b bs]|]; try (injection H as <- <-; apply Q; [split; reflexivity|right; eauto]; fail).
    + destruct (getMessage inb) as [|msg rest|] eqn:Eg.
      * destruct (sCancel s); injection H as <- <-; (apply Q; [split; reflexivity|right; eexists; split; [apply Hset|reflexivity]]).
      * apply getMessage_frame in Eg as [-> Hz]; [|assumption].
        rewrite all_bytes_app in Hb. apply andb_true_iff in Hb as [_ Hb].
        assert (W : forall more, deaf c more -> framed_with c (os ++ OFrame c msg :: more) rest).
        { intros more [M1 M2]. destruct Hw as [W1 W2].
          assert (R : reads c (os ++ OFrame c msg :: more) = reads c os).
          { rewrite reads_app. change (reads c (OFrame c msg :: more)) with (reads c more). now rewrite M1, app_nil_r. }
          assert (F : frames c (os ++ OFrame c msg :: more) = frames c os ++ [msg]).
          { change (OFrame c msg :: more) with ([OFrame c msg] ++ more). now rewrite !frames_app, frames_one, M2. }
          split.
          - rewrite R, F, W1, map_app, concat_app, <- app_assoc. f_equal. change (map w_frame [msg]) with [w_frame msg].
            unfold concat at 1. now rewrite app_nil_r.
          - rewrite F. apply Forall_app. split; [assumption|]. now constructor. }
        destruct (beginRequest (sPort s) msg) as [[[corr extra] tk]|]; injection H as <- <-.
        -- assert (D : deaf c []) by (split; reflexivity).
           split; [exists rest; now apply W|]. intros _. rewrite Hset. split; [now apply W|exact Hb].
        -- split; [exists rest; apply W; split; reflexivity|]. discriminate.
      * injection H as <- <-. apply Q; [split; reflexivity|now left].
    + destruct tk as [t v| | | | | | | | | |];
        try (match type of H with context [tstep _ _ _ _ ?x] => exact (T x corr extra H) end).
      destruct (finishRequest corr extra t v); injection H as <- <-;
        (apply Q; [split; reflexivity|]); [right; eexists; split; [apply Hset|reflexivity]|now left].
  - destruct st; try (injection H as <- <-; apply Q; [split; reflexivity|right; eauto]; fail).
    destruct ((0 <? zlen chunk) && (zlen chunk <=? 8192) && all_bytes chunk) eqn:Ec; injection H as <- <-;
      [|apply Q; [split; reflexivity|right; eauto]].
    apply andb_true_iff in Ec as [_ Ec]. destruct Hw as [W1 W2].
    assert (R : reads c (os ++ [ORead c chunk]) = reads c os ++ chunk).
    { rewrite reads_app. f_equal. cbn. rewrite Nat.eqb_refl. now rewrite app_nil_r. }
    assert (F : frames c (os ++ [ORead c chunk]) = frames c os) by (rewrite frames_app; cbn; now rewrite app_nil_r).
    assert (W : framed_with c (os ++ [ORead c chunk]) (inb ++ chunk)).
    { split; rewrite F; [|assumption]. now rewrite R, W1, <- app_assoc. }
    split; [eexists; exact W|]. intros _. rewrite Hset. split; [exact W|]. cbn [cIn]. now rewrite all_bytes_app, Hb.
  - destruct st; injection H as <- <-; (apply Q; [split; reflexivity|right]); eauto.
  - destruct st; injection H as <- <-; (apply Q; [split; reflexivity|right]); eauto.
  - destruct st; injection H as <- <-; (apply Q; [split; reflexivity|]); eauto.
  - destruct st; try (injection H as <- <-; apply Q; [split; reflexivity|right; eauto]; fail).
    destruct gone; injection H as <- <-; (apply Q; [split; reflexivity|]); eauto.
Qed.
Lemma intake_run c evs : forall s os s' o, intake c os s -> run s evs = (s', o) -> intake c (os ++ o) s'.
Proof.
  induction evs as [|ev evs IH]; cbn; intros s os s' o Hf H.
  - injection H as <- <-. now rewrite app_nil_r.
  - destruct (step s ev) as [s1 o1] eqn:E1. destruct (run s1 evs) as [s2 o2] eqn:E2. injection H as <- <-.
    rewrite app_assoc. eapply IH; [|exact E2]. eapply intake_step; eauto.
Qed.
Lemma framing_any c port ch evs s os : run (init port ch) evs = (s, os) -> exists rest, framed_with c os rest.
Proof.
  intros H. change os with ([] ++ os). eapply (intake_run c) in H as [Hf _]; [exact Hf|].
  split; [exists []; split; [reflexivity|constructor]|]. intros _. split; reflexivity.
Qed.
Lemma chunking_any c1 c2 port1 ch1 evs1 s1 os1 port2 ch2 evs2 s2 os2 S :
  run (init port1 ch1) evs1 = (s1, os1) -> reads c1 os1 `prefix_of` S ->
  run (init port2 ch2) evs2 = (s2, os2) -> reads c2 os2 `prefix_of` S ->
  frames c1 os1 `prefix_of` frames c2 os2 \/ frames c2 os2 `prefix_of` frames c1 os1.
Proof.
  intros H1 [x1 P1] H2 [x2 P2].
  destruct (framing_any c1 _ _ _ _ _ H1) as (r1 & E1 & F1). destruct (framing_any c2 _ _ _ _ _ H2) as (r2 & E2 & F2).
  rewrite E1, <- app_assoc in P1. rewrite E2, <- app_assoc in P2.
  symmetry in P1, P2. eapply (frames_unique _ _ _ _ S); eauto.
Qed.

(** Nothing is left over when a well-formed request is read. *)
Lemma well_formed_rest port m corr extra tk : well_formed m -> beginRequest port m = Some (corr, extra, tk) -> extra = [].
Proof.
  intros (key & ver & co & h & b & -> & Hh & Lh & sh & Hsh & Hp & Lb) E. rewrite app_nil_r in E.
  rewrite (begin_header _ _ _ _ _ _ Hh Lh) in E.
  destruct (dispatch key ver) as [a|] eqn:Ha; [|discriminate].
  destruct (startApi a port b) as [[more tk']|] eqn:Es; [|discriminate]. injection E as <- <- <-.
  pose proof (layout_schema _ _ _ Ha) as Hlay. destruct (req_ty a) as [t|] eqn:Et.
  - destruct Hlay as (Hlay & Hsim & _). rewrite Hsh in Hlay. injection Hlay as ->.
    destruct (complete t Hsim b Hp) as (v & Hg & _). destruct (start_reads _ _ _ _ _ _ Et Es) as [v' Hr].
    rewrite <- (app_nil_r b), (readRequest_good t b v) in Hr by assumption. now injection Hr.
  - destruct Hlay as [-> ->]. injection Hsh as <-. inversion Hp as [| | | |fs bs HF]; subst. inversion HF; subst.
    destruct a; try discriminate. cbn [startApi] in Es. now injection Es.
Qed.
Lemma short_malformed m : zlen m < 10 -> ~ well_formed m.
Proof.
  intros Hl (key & ver & co & h & b & -> & (client & -> & Hc & _) & _).
  rewrite !zlen_app in Hl. unfold w_int16, w_int32 in Hl. rewrite !zlen_w_be in Hl.
  pose proof (zlen_nonneg b). pose proof (zlen_nonneg (@nil Z)).
  inversion Hc as [|n Hn Hneg|s Hs| |]; subst; unfold w_string, w_int16 in Hl; rewrite ?zlen_app, ?zlen_w_be in Hl;
    try pose proof (zlen_nonneg s); lia.
Qed.
