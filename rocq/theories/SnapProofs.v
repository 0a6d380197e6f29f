(** * SnapProofs: the last round of a Fetch finds nothing new *)
From Verif Require Export SnapSpec FetchProofs Demo.
From Verif Require TurnProofs OddReplies.
From stdpp Require Import gmap list.
Open Scope Z_scope.
Open Scope list_scope.

Definition full (A B0 : list obs) (fd : fdata) : Prop :=
  match fdKp fd with Some (t, idx) => zlen (tr_log t idx (A ++ B0)) <= fdOff fd | None => True end.
Definition nokp (fd : fdata) : Prop := fdKp fd = None -> empty_fd fd.
Definition round (A : list obs) (qs : list (bytes * fetch_part)) (B : list obs) (seen fds : list fdata) : Prop :=
  exists B0, B0 `prefix_of` B /\ Forall2 (fd_right A B0) qs fds /\ Forall (full A B0) seen.
Definition snap_inv (A : list obs) (rq : fetch_req) (B : list obs) (n : nat) (tk : task) : Prop :=
  let qs := flat (fqTopics rq) in
  match tk with
  | TkFetchOpen _ _ _ fds => Forall nokp fds
  | TkFetchScan _ _ _ more done todo => Forall nokp (done ++ todo) /\ (more = false -> round A qs B done (done ++ todo))
  | TkFetchPoll _ _ fds | TkFetchSleep _ _ _ fds => Forall nokp fds /\ round A qs B fds fds
  | TkRet t v => t = tFetchResp /\ exists fds, fetchReply rq fds = Some v /\ Forall nokp fds /\ round A qs B fds fds
  | _ => False
  end.

Lemma round_mono A qs B o seen fds : round A qs B seen fds -> round A qs (B ++ o) seen fds.
Proof. intros (B0 & H1 & H2). exists B0. split; [|exact H2]. now apply prefix_app_r. Qed.
Lemma round_start A qs B fds : Forall2 (fd_right A B) qs fds -> round A qs B [] fds.
Proof. intros H. exists B. split; [reflexivity|]. split; [exact H|constructor]. Qed.
Lemma zlen_log_prefix t p A B0 B : B0 `prefix_of` B -> zlen (tr_log t p (A ++ B0)) <= zlen (tr_log t p (A ++ B)).
Proof. intros [k ->]. rewrite app_assoc. rewrite (tr_log_app t p (A ++ B0) k), zlen_app. pose proof (zlen_nonneg (tr_log t p k)). lia. Qed.

Lemma finish_inv ds rq fds ds' tk' o : fetchFinish ds rq fds = TCont ds' tk' o ->
  exists v, fetchReply rq fds = Some v /\ tk' = TkRet tFetchResp v /\ o = [].
Proof. unfold fetchFinish. destruct (fetchReply rq fds) as [v|]; [|discriminate]. intros [= _ <- <-]. now exists v. Qed.

Lemma snap_handler port vers A c rq : handler_ok port vers A c (fun B n tk => fetch_inv A rq B n tk /\ snap_inv A rq B n tk).
Proof.
  apply TurnProofs.handler_and; [apply fetch_handler| |].
  - intros B n tk o _ H. destruct tk; try contradiction; cbn [snap_inv] in *.
    + destruct H as (H1 & fds & H2 & H3 & H4). split; [exact H1|]. exists fds. split; [exact H2|]. split; [exact H3|]. now apply round_mono.
    + exact H.
    + destruct H as (H1 & H2). split; [exact H1|]. intros E. apply round_mono. auto.
    + destruct H as (H1 & H2). split; [exact H1|]. now apply round_mono.
    + destruct H as (H1 & H2). split; [exact H1|]. now apply round_mono.
  - intros s B n tk ch ds tk' o Hi [_ [HN HI]] HJ Hr E. destruct tk; try contradiction; try discriminate; cbn [tstep] in E; cbn [snap_inv] in HJ.
    + destruct HI as (-> & dn & cur & H1 & H2 & _ & _ & H5). destruct ops as [|[m|p] ops].
      * injection E as _ <- <-. cbn [snap_inv]. rewrite app_nil_r. cbn [app]. split; [exact HJ|]. intros _. apply round_start.
        cbn [rest_flat] in H1. rewrite app_nil_r in H1. now rewrite H1.
      * injection E as _ <- <-. exact HJ.
      * injection E as _ <- <-. cbn [snap_inv]. apply Forall_app. split; [exact HJ|]. constructor; [|constructor]. intros _. reflexivity.
    + destruct HI as (-> & _ & H2 & _). destruct HJ as (J1 & J2). destruct todo as [|fd todo].
      * rewrite app_nil_r in *. destruct more.
        -- injection E as _ <- <-. cbn [snap_inv]. rewrite app_nil_r. cbn [app]. split; [exact J1|]. intros _. now apply round_start.
        -- specialize (J2 eq_refl). destruct (hasOne || (exp <? eMono (env_of s))).
           ++ apply finish_inv in E as (v & Hv & -> & ->). cbn [snap_inv]. rewrite app_nil_r. split; [reflexivity|]. exists done. now split.
           ++ injection E as _ <- <-. cbn [snap_inv]. rewrite app_nil_r. now split.
      * apply Forall2_app_inv_r in H2 as (q1 & q2 & F1 & F2 & Eq). inversion F2 as [|q ? q2' ? Hq F2']; subst.
        destruct (fetchOne_right _ _ _ _ _ _ _ Hi Hq) as (fd' & got & EF & G1 & G2 & G3). rewrite EF in E.
        injection E as _ <- <-. cbn [snap_inv]. rewrite app_nil_r, <- app_assoc. cbn [app].
        apply Forall_app in J1 as [J1 J1']. apply Forall_cons_1 in J1' as [J1' J1'']. split.
        -- apply Forall_app. split; [exact J1|]. constructor; [|exact J1'']. destruct got.
           ++ destruct G3 as [(t & p & Ek & _) [(G3 & _)|[-> _]]]; [|exact J1']. intros C. congruence.
           ++ destruct G3 as [-> _]. exact J1'.
        -- intros Em. apply orb_false_iff in Em as [-> ->]. destruct G3 as (-> & _ & _ & Ha). destruct (J2 eq_refl) as (B0 & P1 & P2 & P3).
           exists B0. split; [exact P1|]. split; [exact P2|]. apply Forall_app. split; [exact P3|]. constructor; [|constructor].
           unfold full. destruct (fdKp fd) as [[t p]|] eqn:Ek; [|exact I].
           destruct (Z.le_gt_cases (zlen (tr_log t p (A ++ B))) (fdOff fd)) as [Hle|Hgt].
           ++ pose proof (zlen_log_prefix t p A B0 B P1). lia.
           ++ destruct Ha. exists t, p. split; [exact Ek|lia].
    + destruct HI as (-> & _). destruct (eCancel (env_of s)).
      * apply finish_inv in E as (v & Hv & -> & ->). cbn [snap_inv]. rewrite app_nil_r. split; [reflexivity|]. exists fds. now split.
      * injection E as _ <- <-. cbn [snap_inv]. now rewrite app_nil_r.
    + destruct HI as (-> & _ & H2 & _). destruct (wake <=? eMono (env_of s)); injection E as _ <- <-; cbn [snap_inv]; rewrite app_nil_r; [|exact HJ].
      cbn [app]. split; [apply HJ|]. intros _. now apply round_start.
Qed.

(** ** The reply *)
Lemma full_exh A B fd : full A B fd -> exh A B fd.
Proof. unfold full, exh. destruct (fdKp fd) as [[t p]|]; [|auto]. intros H. now apply sometime_now. Qed.
Lemma reply_bytes A corr r w mb ts B fds v payload :
  (length ts <= length (flat ts))%nat -> posts_small (A ++ B) ->
  fetchReply (mk_fetch_req r w mb ts) fds = Some v -> Forall2 (fd_right A B) (flat (mk_topics mk_fetch_part ts)) fds -> Forall (exh A B) fds ->
  encodeObject tFetchResp v = Some payload ->
  w_reply corr payload = w_reply corr (w_fetch_resp 0 (fetch_ents ts (map (fun fd => (fdOff fd, fd_set fd)) fds))).
Proof.
  intros HL Hp Hv Hr Hx He.
  assert (Hall : forall fd, In fd fds -> msTotal (fdMs fd) = zlen (fd_set fd)).
  { clear - Hr Hx Hp. induction Hr as [|q fd qs fds H _ IH]; [contradiction|]. inversion Hx; subst.
    intros fd' [<-|Hin]; [|auto]. eapply fd_right_fetched; eauto. }
  assert (Hlen : (length ts <= length fds)%nat).
  { rewrite <- (Forall2_length _ _ _ Hr). rewrite flat_mk, map_length. exact HL. }
  f_equal. rewrite (fetchReply_enc fd_body fds) with (v := v) (rq := mk_fetch_req r w mb ts) in He; [|clear He|exact Hv].
  - injection He as <-. cbn [fqTopics mk_fetch_req]. destruct (fetch_ents_bytes ts fds Hall Hlen) as [E1 E2].
    unfold w_fetch_resp. unfold w_array at 1. rewrite E1, E2.
    assert (E3 : zlen (mk_topics mk_fetch_part ts) = zlen ts) by apply zlen_map. now rewrite E3.
  - intros fd Hin. apply encs_msgset. intros m Hm. clear - Hin Hm Hr.
    induction Hr as [|q fd' qs fds H _ IH]; [contradiction|]. destruct Hin as [->|Hin]; [|auto].
    destruct H as (_ & _ & _ & rs & _ & Em & _ & _ & Hb). rewrite Em in Hm. cbn [msMsgs] in Hm.
    revert Hm. generalize (fpOffset (snd q)). clear - Hb. induction Hb as [|r rs [Hk Hv] _ IH]; intros off; cbn [msgs_of]; [contradiction|].
    intros [<-|Hm]; [now apply message_encs|eauto].
Qed.

Lemma slice_all {X} n (rs l : list X) : slice n rs l -> (length l <= n + length rs)%nat -> rs = skipn n l.
Proof. unfold slice. intros H Hl. rewrite H. apply firstn_all2. rewrite skipn_length. lia. Qed.
Lemma has_sometime A B t p : sometime A B (fun os => tr_has t p os = false) -> tr_has t p A = false.
Proof.
  intros (B1 & _ & H). destruct (tr_has t p A) eqn:E; [|reflexivity]. rewrite (tr_has_mono t p A B1 E) in H. discriminate.
Qed.
Lemma fd_as_it_was A B0 B q fd : B0 `prefix_of` B -> posts_small (A ++ B) -> fd_right A B0 q fd -> full A B0 fd -> nokp fd ->
  as_it_was A (A ++ B0) (fst q, (fpIndex (snd q), fpOffset (snd q), fpMax (snd q))) (fdOff fd, fd_set fd).
Proof.
  intros HP Hp (H1 & H2 & H3 & rs & H4 & H5 & H6 & H7 & H8) HF HK. unfold as_it_was, exactly. cbn [fst snd].
  assert (Hs : small rs).
  { eapply slice_forall; [exact H6|]. apply log_small. eapply posts_small_prefix; eassumption. }
  assert (E : fd_set fd = w_records (fpOffset (snd q)) rs).
  { unfold fd_set. rewrite H5. cbn [msMsgs]. now apply raw_records. }
  rewrite E, H4. unfold full in HF. destruct (fdKp fd) as [[t p]|] eqn:Ek.
  - left. destruct H3 as [[= -> ->] _].
    assert (Ers : rs = skipn (Z.to_nat (fpOffset (snd q))) (tr_log (fst q) (fpIndex (snd q)) (A ++ B0))).
    { apply slice_all; [exact H6|]. rewrite H4 in HF. unfold zlen in HF. lia. }
    now rewrite <- Ers.
  - right. split; [eapply has_sometime, H3|]. specialize (HK Ek). unfold empty_fd in HK. rewrite H5 in HK. cbn [msMsgs] in HK.
    destruct rs as [|x rs]; [|discriminate]. cbn [w_records]. now rewrite Z.add_0_r.
Qed.

Theorem fetch_snapshot port ch A c corr client r w mb ts s :
  let m := w_request 1 2 corr client (w_fetch_req r w mb ts) in
  l_header 1 2 corr client = true -> l_fetch r w mb ts = true -> zlen (w_fetch_req r w mb ts) <= 4096 ->
  nonneg_offsets ts -> (length ts <= length (flat ts))%nat ->
  serving port ch A c m s ->
  answers_right c s (snapshot (A ++ [OFrame c m]) corr ts).
Proof.
  intros m Hh Hl Hz Hn Hlen Hs.
  destruct (serving_inv _ _ _ _ _ _ _ _ _ Hs (fetch_begin _ _ _ _ _ _ _ Hh Hl Hz)) as (inb & Hk & Hi & Hc).
  eapply (answers_right_intro port (initApiVersions ch) (A ++ [OFrame c m]) c corr
    (fun B n tk => fetch_inv (A ++ [OFrame c m]) (mk_fetch_req r w mb ts) B n tk /\ snap_inv (A ++ [OFrame c m]) (mk_fetch_req r w mb ts) B n tk)); eauto using snap_handler.
  - split; [exact (fetch_inv_start _ _ _ _ _ Hn Hlen)|constructor].
  - intros B n t v payload [_ (-> & fds & Hv & HK & B0 & HP & HR & HF)] He Hp.
    cbn [fqTopics mk_fetch_req] in HR.
    assert (HR' : Forall2 (fd_right (A ++ [OFrame c m]) B) (flat (mk_topics mk_fetch_part ts)) fds).
    { destruct HP as [k ->]. now apply fds_right_mono. }
    assert (HX : Forall (exh (A ++ [OFrame c m]) B) fds).
    { destruct HP as [k ->]. apply exhs_mono. eapply Forall_impl; [exact HF|]. intros. now apply full_exh. }
    exists (map (fun fd => (fdOff fd, fd_set fd)) fds), B0. split; [exact HP|]. split; [|exact (reply_bytes _ _ _ _ _ _ _ _ _ _ Hlen Hp Hv HR' HX He)].
    rewrite flat_mk in HR. clear - HR HF HK HP Hp. revert Hp HR HF. generalize (A ++ [OFrame c m]) as A0. intros A0 Hp HR HF. revert fds HR HF HK.
    induction (flat ts) as [|[t [[i o] mx]] qs IH]; intros fds HR HF HK; inversion HR as [|q fd qs' fds' G1 G2]; subst; [constructor|].
    inversion HF; subst. inversion HK; subst. cbn [map]. constructor; [|auto].
    refine (fd_as_it_was _ _ B _ _ HP Hp G1 _ _); assumption.
Qed.

(** ** Order of posting *)
Lemma exact_hw os t p off mx x : exactly os (t, (p, off, mx)) x -> 0 <= off ->
  zlen (tr_log t p os) <= fst x /\ (fst x = off \/ fst x = zlen (tr_log t p os)).
Proof.
  unfold exactly. intros -> H. cbn [fst]. unfold zlen. rewrite skipn_length. lia.
Qed.
Lemma prefix_or (U V W : list obs) : U `prefix_of` W -> V `prefix_of` W -> U `prefix_of` V \/ V `prefix_of` U.
Proof. apply prefix_weak_total. Qed.
Lemma zlen_log_pre t p U V : U `prefix_of` V -> zlen (tr_log t p U) <= zlen (tr_log t p V).
Proof. intros H. exact (zlen_log_prefix t p [] U V H). Qed.
Lemma snapshot_order A B B0 qs res : B0 `prefix_of` B -> Forall (fun q : bytes * (Z * Z * Z) => 0 <= snd (fst (snd q))) qs ->
  Forall2 (as_it_was A (A ++ B0)) qs res -> in_order_of_posting A B qs res.
Proof.
  intros HP HN HF k l ta pa oa ma xa tb pb ob mb xb X i ra Y j rb Z Qa Ra Qb Rb HA E [Hb1 Hb2].
  assert (N : forall k q x, nth_error qs k = Some q -> nth_error res k = Some x -> as_it_was A (A ++ B0) q x /\ 0 <= snd (fst (snd q))).
  { clear - HF HN. induction HF as [|q x qs res H _ IH]; intros k q' x' H1 H2; [now destruct k|].
    apply Forall_cons_1 in HN as [HN1 HN2]. destruct k as [|k]; [injection H1 as <-; injection H2 as <-; now split|exact (IH HN2 k q' x' H1 H2)]. }
  destruct (N _ _ _ Qa Ra) as [Wa Na]. destruct (N _ _ _ Qb Rb) as [Wb Nb]. clear N HF HN. cbn [fst snd] in Na, Nb.
  destruct Wa as [Wa|[C _]]; [|cbn [fst snd] in C; congruence].
  destruct Wb as [Wb|[_ ->]]; [|cbn [fst snd] in Hb2; lia].
  apply exact_hw in Wa as [Wa _]; [|exact Na]. apply exact_hw in Wb as [_ Wb]; [|exact Nb].
  assert (P1 : (A ++ B0) `prefix_of` (A ++ B)) by now apply prefix_app.
  assert (P2 : (X ++ OPosted i ta pa ra :: Y) `prefix_of` (A ++ B)) by (rewrite E; now apply prefix_app_r).
  destruct (prefix_or _ _ _ P1 P2) as [P|P].
  - apply (zlen_log_pre tb pb) in P. lia.
  - assert (P3 : (X ++ [OPosted i ta pa ra]) `prefix_of` (A ++ B0)).
    { etransitivity; [|exact P]. exists Y. now rewrite <- app_assoc. }
    apply (zlen_log_pre ta pa) in P3. rewrite tr_log_app, zlen_app in P3.
    assert (L : zlen (tr_log ta pa [OPosted i ta pa ra]) = 1).
    { unfold tr_log. cbn. now rewrite same_refl. }
    lia.
Qed.
Theorem fetch_in_order port ch A c corr client r w mb ts s :
  let m := w_request 1 2 corr client (w_fetch_req r w mb ts) in
  l_header 1 2 corr client = true -> l_fetch r w mb ts = true -> zlen (w_fetch_req r w mb ts) <= 4096 ->
  nonneg_offsets ts -> (length ts <= length (flat ts))%nat ->
  serving port ch A c m s ->
  answers_right c s (fun B rep => posts_small ((A ++ [OFrame c m]) ++ B) ->
    exists res, rep = w_reply corr (w_fetch_resp 0 (fetch_ents ts res)) /\ length res = length (flat ts) /\
      in_order_of_posting (A ++ [OFrame c m]) B (flat ts) res).
Proof.
  cbv zeta. intros H1 H2 H3 H4 H5 H6. eapply OddReplies.answers_right_mono; [|exact (fetch_snapshot _ _ _ _ _ _ _ _ _ _ _ H1 H2 H3 H4 H5 H6)].
  intros B rep HS Hp. destruct (HS Hp) as (res & B0 & P & F & ->). exists res. split; [reflexivity|].
  split; [symmetry; exact (Forall2_length _ _ _ F)|]. exact (snapshot_order _ _ _ _ _ P H4 F).
Qed.

(** ** Partitions made later *)
Definition late_ts : list (bytes * list (Z * Z * Z)) := [(topicA, [(2, 2, 1000)]); (w_text "new", [(0, 0, 1000)])].
Definition late_m : bytes := w_request 1 2 6 clientA (w_fetch_req (-1) 1000 1 late_ts).
Definition late_evs : list event := repeat (EvConn 0 ch0) 5 ++
  (EvCall (CallPost (w_text "new") 0 None None [] (Some 5)) :: repeat (EvApi 4) 4) ++
  (EvCall (CallPost topicA 2 None None [] (Some 5)) :: repeat (EvApi 5) 4) ++ repeat (EvConn 0 ch0) 12.
Definition late_B : list obs := snd (run (demo_state late_m) late_evs).
Definition late_res : list (Z * bytes) := [(3, w_records 2 [Rec 0 5 None None []]); (0, [])].
Lemma late_not ta tn A B x : forallb (fun n => negb ((zlen (tr_log ta 2 (A ++ firstn n B)) =? 3) && (zlen (tr_log tn 0 (A ++ firstn n B)) =? 0)))
    (seq 0 (S (length B))) = true -> forall B0, B0 `prefix_of` B ->
  ~ Forall2 (exactly (A ++ B0)) [(ta, (2, 2, 1000)); (tn, (0, 0, 1000))] [(3, x); (0, [])].
Proof.
  intros H B0 [k E] F. rewrite forallb_forall in H.
  assert (EB : B0 = firstn (length B0) B) by (rewrite E; now rewrite firstn_app, firstn_all, Nat.sub_diag, app_nil_r).
  specialize (H (length B0)). rewrite <- EB in H. clear EB.
  assert (I : In (length B0) (seq 0 (S (length B)))) by (apply in_seq; rewrite E, app_length; lia).
  specialize (H I). clear I E k. inversion F as [|? ? ? ? F1 F2]; subst. inversion F2 as [|? ? ? ? F3 _]; subst. clear F F2.
  unfold exactly in F1, F3. apply (f_equal fst) in F1. apply (f_equal fst) in F3. cbn [fst] in F1, F3.
  assert (L0 : forall l : list krecord, zlen (skipn (Z.to_nat 0) l) = zlen l) by reflexivity.
  assert (L2 : forall l : list krecord, 3 = 2 + zlen (skipn (Z.to_nat 2) l) -> zlen l = 3).
  { intros l. unfold zlen. rewrite skipn_length. change (Z.to_nat 2) with 2%nat. lia. }
  apply L2 in F1. rewrite L0 in F3. apply negb_true_iff, andb_false_iff in H as [H|H]; apply Z.eqb_neq in H; [now apply H|apply H].
  rewrite Z.add_0_l in F3. now symmetry.
Qed.
Lemma late_reply : writes 0 late_B = w_reply 6 (w_fetch_resp 0 (fetch_ents late_ts late_res)).
Proof. vm_compute. reflexivity. Qed.
Lemma late_none : forallb (fun n => negb ((zlen (tr_log topicA 2 ((demo_trace late_m ++ [OFrame 0 late_m]) ++ firstn n late_B)) =? 3) &&
    (zlen (tr_log (w_text "new") 0 ((demo_trace late_m ++ [OFrame 0 late_m]) ++ firstn n late_B)) =? 0)))
    (seq 0 (S (length late_B))) = true.
Proof. vm_compute. reflexivity. Qed.
Lemma late_serving : serving 9092 [] (demo_trace late_m) 0 late_m (demo_state late_m).
Proof. apply demo_serving. vm_compute. reflexivity. Qed.
Lemma late_sends : sends_ok 0 late_evs.
Proof.
  intros gn H. unfold late_evs in H. apply in_app_or in H as [H|H]; [apply repeat_spec in H; discriminate|].
  apply in_app_or in H as [H|H]; [destruct H as [H|H]; [discriminate|apply repeat_spec in H; discriminate]|].
  apply in_app_or in H as [H|H]; [destruct H as [H|H]; [discriminate|apply repeat_spec in H; discriminate]|].
  apply repeat_spec in H; discriminate.
Qed.
Lemma late_intro A c m s evs B res ts r w mb corr client : m = w_request 1 2 corr client (w_fetch_req r w mb ts) ->
  serving 9092 [] A c m s -> B = snd (run s evs) -> sends_ok c evs ->
  writes c B = w_reply corr (w_fetch_resp 0 (fetch_ents ts res)) ->
  (forall B0, B0 `prefix_of` B -> ~ Forall2 (exactly ((A ++ [OFrame c m]) ++ B0)) (flat ts) res) ->
  exists port ch A c s corr client r w mb ts res evs s' B,
  let m := w_request 1 2 corr client (w_fetch_req r w mb ts) in
  serving port ch A c m s /\ run s evs = (s', B) /\ sends_ok c evs /\
  writes c B = w_reply corr (w_fetch_resp 0 (fetch_ents ts res)) /\
  forall B0, B0 `prefix_of` B -> ~ Forall2 (exactly ((A ++ [OFrame c m]) ++ B0)) (flat ts) res.
Proof.
  intros -> H1 -> H3 H4 H5. exists 9092, [], A, c, s, corr, client, r, w, mb, ts, res, evs, (fst (run s evs)), (snd (run s evs)).
  cbv zeta. split; [exact H1|]. split; [apply surjective_pairing|]. auto.
Qed.
Lemma late_final : forall B0, B0 `prefix_of` late_B -> ~ Forall2 (exactly ((demo_trace late_m ++ [OFrame 0 late_m]) ++ B0)) (flat late_ts) late_res.
Proof.
  generalize late_none. generalize late_B as B. generalize (demo_trace late_m ++ [OFrame 0 late_m]) as A.
  intros A B H B0 HP. unfold late_res. change (flat late_ts) with [(topicA, (2, 2, 1000)); (w_text "new", (0, 0, 1000))]. generalize (w_records 2 [Rec 0 5 None None []]) as x. intros x.
  exact (late_not topicA (w_text "new") A B x H B0 HP).
Qed.
Lemma late_m_eq : late_m = w_request 1 2 6 clientA (w_fetch_req (-1) 1000 1 late_ts).
Proof. unfold late_m. reflexivity. Qed.
Lemma late_B_eq : late_B = snd (run (demo_state late_m) late_evs).
Proof. unfold late_B. reflexivity. Qed.
Lemma late_partition : exists port ch A c s corr client r w mb ts res evs s' B,
  let m := w_request 1 2 corr client (w_fetch_req r w mb ts) in
  serving port ch A c m s /\ run s evs = (s', B) /\ sends_ok c evs /\
  writes c B = w_reply corr (w_fetch_resp 0 (fetch_ents ts res)) /\
  forall B0, B0 `prefix_of` B -> ~ Forall2 (exactly ((A ++ [OFrame c m]) ++ B0)) (flat ts) res.
Proof.
  exact (late_intro (demo_trace late_m) 0 late_m (demo_state late_m) late_evs late_B late_res late_ts (-1) 1000 1 6 clientA
    late_m_eq late_serving late_B_eq late_sends late_reply late_final).
Qed.
