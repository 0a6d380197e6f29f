(** * FetchProofs: Fetch *)
From Verif Require Export FetchEnc.
From stdpp Require Import gmap list.
From Coq Require Import ZifyBool ZifyNat.
Open Scope Z_scope.
Open Scope list_scope.

(** [rs] is a run of the list [l] from position [n] on. *)
Definition slice {X} (n : nat) (rs l : list X) : Prop := rs = firstn (length rs) (skipn n l).
Lemma slice_nil {X} n (l : list X) : slice n [] l.
Proof. reflexivity. Qed.
Lemma slice_iff {X} n (rs l : list X) : slice n rs l <-> exists r, skipn n l = rs ++ r.
Proof.
  unfold slice. split.
  - intros H. exists (skipn (length rs) (skipn n l)). rewrite H at 1. now rewrite firstn_skipn.
  - intros [r ->]. now rewrite firstn_app, firstn_all, Nat.sub_diag, app_nil_r.
Qed.
Lemma slice_mono {X} n (rs l x : list X) : slice n rs l -> slice n rs (l ++ x).
Proof.
  rewrite !slice_iff. intros [r H]. destruct (decide (n <= length l)%nat) as [Hn|Hn].
  - rewrite skipn_app, H. replace (n - length l)%nat with 0%nat by lia. exists (r ++ x). now rewrite app_assoc.
  - rewrite skipn_all2 in H by lia. symmetry in H. apply app_eq_nil in H as [-> _].
    exists (skipn n (l ++ x)). reflexivity.
Qed.
Lemma slice_snoc {X} n (rs l : list X) r : slice n rs l -> nth_error l (n + length rs) = Some r ->
  slice n (rs ++ [r]) l.
Proof.
  rewrite !slice_iff. intros [k H] Hr.
  assert (E : l = firstn n l ++ rs ++ k) by (rewrite <- H; symmetry; apply firstn_skipn).
  assert (Hlen : length (firstn n l) = n).
  { apply firstn_length_le. assert (nth_error l (n + length rs) <> None) as Hlt by congruence.
    apply nth_error_Some in Hlt. lia. }
  rewrite E, nth_error_app2, nth_error_app2 in Hr by lia.
  replace (n + length rs - length (firstn n l) - length rs)%nat with 0%nat in Hr by lia.
  destruct k as [|y k]; [discriminate|]. injection Hr as ->. exists k. rewrite H. now rewrite <- app_assoc.
Qed.

Lemma tr_now_mono os l : Forall obs_bytes l -> tr_now os <= tr_now (os ++ l).
Proof.
  intros H. unfold tr_now. rewrite fold_left_app.
  generalize (fold_left (fun n o => match o with OClock d => n + d | _ => n end) os 0).
  induction H as [|o l Ho _ IH]; cbn; intros z; [lia|]. destruct o; try exact (IH z).
  cbn in Ho. specialize (IH (z + d)). lia.
Qed.
Lemma log_bytes t p os : Forall obs_bytes os -> Forall rec_bytes (tr_log t p os).
Proof.
  induction 1 as [|o os Ho _ IH]; [constructor|]. unfold tr_log. cbn. fold (tr_log t p os).
  apply Forall_app. split; [|assumption]. destruct o; try constructor. destruct (same _ _ _ _); constructor; [|constructor].
  destruct Ho as (_ & H1 & H2). split; assumption.
Qed.

(** ** What the handler knows *)
Definition fd_right (A B : list obs) (q : bytes * fetch_part) (fd : fdata) : Prop :=
  let t := fst q in let idx := fpIndex (snd q) in let off := fpOffset (snd q) in
  fdMax fd = fpMax (snd q) /\ 0 <= off /\
  match fdKp fd with
  | Some tp => tp = (t, idx) /\ tr_has t idx (A ++ B) = true
  | None => sometime A B (fun os => tr_has t idx os = false)
  end /\
  exists rs, fdOff fd = off + zlen rs /\
    fdMs fd = MsgSet (msgs_of off rs) (off + zlen rs) (total_of rs) /\
    slice (Z.to_nat off) rs (tr_log t idx (A ++ B)) /\
    (rs = [] \/ total_of rs <= fdMax fd) /\ Forall rec_bytes rs.

Definition exh (A B : list obs) (fd : fdata) : Prop :=
  match fdKp fd with
  | Some (t, idx) => sometime A B (fun os => zlen (tr_log t idx os) <= fdOff fd)
  | None => True
  end.
Definition nonempty (fd : fdata) : Prop := msMsgs (fdMs fd) <> [].
Definition empty_fd (fd : fdata) : Prop := msMsgs (fdMs fd) = [].
Definition stuck (os : list obs) (fd : fdata) : Prop :=
  exists t idx r, fdKp fd = Some (t, idx) /\ nth_error (tr_log t idx os) (Z.to_nat (fdOff fd)) = Some r /\
    appendMessage (fdMs fd) r (fdMax fd) = None.

Lemma fd_right_mono A B o q fd : fd_right A B q fd -> fd_right A (B ++ o) q fd.
Proof.
  intros (H1 & H2 & H3 & rs & H4 & H5 & H6 & H7). split; [assumption|]. split; [assumption|]. split.
  - destruct (fdKp fd); [|now apply sometime_mono]. destruct H3. split; [assumption|]. rewrite app_assoc. now apply tr_has_mono.
  - exists rs. split_and!; auto; try apply H7. rewrite app_assoc, tr_log_app. now apply slice_mono.
Qed.
Lemma fds_right_mono A B o qs fds : Forall2 (fd_right A B) qs fds -> Forall2 (fd_right A (B ++ o)) qs fds.
Proof. apply Forall2_mono. intros. now apply fd_right_mono. Qed.
Lemma exh_mono A B o fd : exh A B fd -> exh A (B ++ o) fd.
Proof. unfold exh. destruct (fdKp fd) as [[t p]|]; [|auto]. now apply sometime_mono. Qed.
Lemma exhs_mono A B o fds : Forall (exh A B) fds -> Forall (exh A (B ++ o)) fds.
Proof. apply Forall_mono. intros. now apply exh_mono. Qed.
Lemma stuck_mono os o fd : stuck os fd -> stuck (os ++ o) fd.
Proof.
  intros (t & p & r & H1 & H2 & H3). exists t, p, r. split_and!; auto.
  rewrite tr_log_app, nth_error_app1; [assumption|]. apply nth_error_Some. congruence.
Qed.
Lemma stucks_mono os o fds : Exists (stuck os) fds -> Exists (stuck (os ++ o)) fds.
Proof. induction 1; [left; now apply stuck_mono|right; assumption]. Qed.

Definition avail (os : list obs) (fd : fdata) : Prop :=
  exists t p, fdKp fd = Some (t, p) /\ fdOff fd < zlen (tr_log t p os).

(** One look at a partition. *)
Lemma fetchOne_right port vers A B s q fd :
  inv port vers (A ++ B) s -> fd_right A B q fd ->
  exists fd' got, fetchOne (sDs s) fd = Some (fd', got) /\ fd_right A B q fd' /\
    (nonempty fd -> nonempty fd') /\
    (if got then avail (A ++ B) fd /\
       ((fdKp fd' = fdKp fd /\ fdOff fd' = fdOff fd + 1 /\ 0 <= fdOff fd /\ nonempty fd') \/ (fd' = fd /\ stuck (A ++ B) fd))
     else fd' = fd /\ exh A B fd /\ ~ stuck (A ++ B) fd /\ ~ avail (A ++ B) fd).
Proof.
  intros Hi (H1 & H2 & H3 & rs & H4 & H5 & H6 & H7 & H8). unfold fetchOne.
  assert (Hsame : fd_right A B q fd).
  { split_and!; auto. exists rs. auto. }
  destruct (fdKp fd) as [[t p]|] eqn:Ek.
  - destruct H3 as [[= -> ->] Hhas]. set (t := fst q) in *. set (p := fpIndex (snd q)) in *. set (off := fpOffset (snd q)) in *.
    pose proof (proj2 (i_store _ _ _ _ Hi) t p) as Hp. destruct (lookupPart (sDs s) t p) as [kp|].
    2: { rewrite (np_has _ _ _ Hp) in Hhas. discriminate. }
    rewrite (po_recs _ _ _ _ Hp). destruct (Z.ltb_spec (fdOff fd) (zlen (tr_log t p (A ++ B)))) as [Hlt|Hge].
    + pose proof (zlen_nonneg rs). destruct (Z.ltb_spec (fdOff fd) 0); [lia|].
      destruct (nth_error (tr_log t p (A ++ B)) (Z.to_nat (fdOff fd))) as [r|] eqn:En.
      2: { apply nth_error_None in En. unfold zlen in Hlt. lia. }
      rewrite H5, appendMessage_eq. destruct (Z.ltb_spec (fdMax fd) (total_of (rs ++ [r]))) as [Hm|Hm].
      * exists fd, true. split_and!; auto; [exists t, p; auto|]. right. split; [reflexivity|]. exists t, p, r. split_and!; auto.
        rewrite H5, appendMessage_eq. now destruct (Z.ltb_spec (fdMax fd) (total_of (rs ++ [r]))); [|lia].
      * eexists _, true. split; [reflexivity|]. split_and!.
        -- split; [exact H1|]. split; [assumption|]. cbn [fdKp fdOff fdMax fdMs]. split; [auto|].
           exists (rs ++ [r]). split_and!; auto.
           ++ fold off. rewrite H4, zlen_app. unfold zlen. cbn. lia.
           ++ fold off t p. apply slice_snoc; [assumption|]. rewrite <- En. f_equal. rewrite H4. unfold zlen. lia.
           ++ apply Forall_app. split; [assumption|]. constructor; [|constructor].
              pose proof (log_bytes t p _ (i_obytes _ _ _ _ Hi)) as F. rewrite List.Forall_forall in F.
              apply F. eapply nth_error_In, En.
        -- unfold nonempty. cbn. intros _. rewrite msgs_of_snoc. now destruct (msgs_of off rs).
        -- exists t, p. auto.
        -- left. cbn. split_and!; auto. unfold nonempty. cbn. rewrite msgs_of_snoc. now destruct (msgs_of off rs).
    + exists fd, false. split_and!; auto.
      * unfold exh. rewrite Ek. now apply sometime_now.
      * intros (t' & p' & r & E & En & _). rewrite Ek in E. injection E as <- <-.
        assert (nth_error (tr_log t p (A ++ B)) (Z.to_nat (fdOff fd)) <> None) as Hs by congruence.
        apply nth_error_Some in Hs. unfold zlen in Hge. lia.
      * intros (t' & p' & E & Hlt). rewrite Ek in E. injection E as <- <-. lia.
  - exists fd, false. split_and!; auto.
    + unfold exh. now rewrite Ek.
    + intros (t' & p' & r & E & _). congruence.
    + intros (t' & p' & E & _). congruence.
Qed.

Definition due (A B : list obs) (wait : Z) (fds : list fdata) : Prop :=
  Exists nonempty fds \/
  sometime A B (fun os => tr_now A + wait * 1000000 < tr_now os) \/
  sometime A B (fun os => tr_cancelled os = true).

Definition fetch_core (A : list obs) (rq : fetch_req) (B : list obs) (n : nat) (tk : task) : Prop :=
  let qs := flat (fqTopics rq) in
  Forall (fun q => 0 <= fpOffset (snd q)) qs /\
  match tk with
  | TkFetchOpen rq' ops kt fds =>
      rq' = rq /\
      exists done cur, qs = done ++ rest_flat (default [] cur) ops /\ Forall2 (fd_right A B) done fds /\
        kt_spec A B kt cur /\ (cur = None -> ops = plan (fqTopics rq)) /\ Forall empty_fd fds
  | TkFetchScan rq' exp hasOne more done todo =>
      rq' = rq /\ tr_now A + fqWait rq * 1000000 <= exp /\
      Forall2 (fd_right A B) qs (done ++ todo) /\
      (more = false -> Forall (exh A B) done) /\
      (hasOne = true -> Exists nonempty (done ++ todo) \/
         Exists (stuck (A ++ B)) (if more then done ++ todo else todo)) /\
      (hasOne = false -> Forall empty_fd (done ++ todo))
  | TkFetchPoll rq' exp fds | TkFetchSleep rq' exp _ fds =>
      rq' = rq /\ tr_now A + fqWait rq * 1000000 <= exp /\
      Forall2 (fd_right A B) qs fds /\ Forall (exh A B) fds /\ Forall empty_fd fds
  | TkRet t v =>
      t = tFetchResp /\
      exists fds, fetchReply rq fds = Some v /\ Forall2 (fd_right A B) qs fds /\ Forall (exh A B) fds /\
        due A B (fqWait rq) fds
  | _ => False
  end.

Definition fetch_inv (A : list obs) (rq : fetch_req) (B : list obs) (n : nat) (tk : task) : Prop :=
  (length (fqTopics rq) <= length (flat (fqTopics rq)))%nat /\ fetch_core A rq B n tk.

Lemma due_mono A B o w fds : due A B w fds -> due A (B ++ o) w fds.
Proof. intros [H|[H|H]]; [now left|right; left|right; right]; now apply sometime_mono. Qed.
Lemma fetch_core_mono A rq B n n' tk o : fetch_core A rq B n tk -> fetch_core A rq (B ++ o) n' tk.
Proof.
  intros (HN & H). split; [assumption|]. destruct tk; try contradiction.
  - destruct H as (-> & fds & H1 & H2 & H3 & H4). split; [reflexivity|].
    exists fds. split_and!; auto using fds_right_mono, exhs_mono, due_mono.
  - destruct H as (-> & dn & cur & H1 & H2 & H3 & H4). split; [reflexivity|]. exists dn, cur.
    split; [assumption|]. split; [now apply fds_right_mono|]. split; [now apply kt_spec_mono|assumption].
  - destruct H as (-> & H1 & H2 & H3 & H4 & H5). split_and!; auto using fds_right_mono.
    + intros Hm. apply exhs_mono. auto.
    + intros Hh. rewrite app_assoc. destruct (H4 Hh) as [?|?]; [now left|right]. now apply stucks_mono.
  - destruct H as (-> & H1 & H2 & H3 & H4). split_and!; auto using fds_right_mono, exhs_mono.
  - destruct H as (-> & H1 & H2 & H3 & H4). split_and!; auto using fds_right_mono, exhs_mono.
Qed.

Lemma fetch_inv_mono A rq B n n' tk o : fetch_inv A rq B n tk -> fetch_inv A rq (B ++ o) n' tk.
Proof. intros [HL H]. split; [assumption|]. eapply fetch_core_mono, H. Qed.

Lemma fetchFinish_panics ds rq fds : (length fds < length (fqTopics rq))%nat -> fetchFinish ds rq fds = TPanic.
Proof. intros H. unfold fetchFinish, fetchReply. now rewrite fetchTopicVals_none. Qed.
Lemma fetchFinish_some ds rq fds : (length (fqTopics rq) <= length fds)%nat ->
  exists v, fetchReply rq fds = Some v /\ fetchFinish ds rq fds = TCont ds (TkRet tFetchResp v) [].
Proof.
  intros H. unfold fetchFinish, fetchReply. destruct (fetchTopicVals_some _ _ H) as [l ->]. cbn. eauto.
Qed.

Lemma newMessageSet_eq off : newMessageSetV1 off = MsgSet (msgs_of off []) (off + zlen (@nil krecord)) (total_of []).
Proof. unfold newMessageSetV1. cbn. now rewrite Z.add_0_r. Qed.

Lemma fds_enc A B qs fds : Forall2 (fd_right A B) qs fds -> forall fd, In fd fds ->
  exists b, encs (TPtr (TMsgSet tMessageV1))
     (VPtr (Some (VMsgSet (msTotal (fdMs fd)) (map message_val (msMsgs (fdMs fd)))))) b.
Proof.
  induction 1 as [|q fd qs fds H _ IH]; [contradiction|]. intros fd' [<-|Hin]; [|auto].
  destruct H as (_ & _ & _ & rs & _ & -> & _ & _ & Hb). cbn. now apply msgset_encs_some.
Qed.

Lemma fetchReply_enc_some A B rq fds v : Forall2 (fd_right A B) (flat (fqTopics rq)) fds ->
  fetchReply rq fds = Some v -> exists payload, encodeObject tFetchResp v = Some payload.
Proof.
  intros H Hv. pose proof (fds_enc _ _ _ _ H) as He. eexists.
  apply (fetchReply_enc (fun fd => default [] (enc (TPtr (TMsgSet tMessageV1)) false false
     (VPtr (Some (VMsgSet (msTotal (fdMs fd)) (map message_val (msMsgs (fdMs fd)))))))) fds); [|exact Hv].
  intros fd Hin. destruct (He fd Hin) as [b Hb]. rewrite (Hb false). exact Hb.
Qed.

Lemma fetch_core_step port vers A c rq s B n tk ch : inv port vers (A ++ B) s -> is_ret tk = false -> fetch_core A rq B n tk ->
  ((length (flat (fqTopics rq)) < length (fqTopics rq))%nat /\ tstep c (env_of s) ch (sDs s) tk = TPanic /\
   exists fds, Forall2 (fd_right A B) (flat (fqTopics rq)) fds /\ Forall (exh A B) fds) \/
  exists ds tk' o, tstep c (env_of s) ch (sDs s) tk = TCont ds tk' o /\ fetch_core A rq (B ++ o) (S n) tk'.
Proof.
  intros Hi Hr (HN & H). destruct tk; try discriminate; try contradiction; cbn [tstep].
  - destruct H as (-> & dn & cur & H1 & H2 & H3 & H4 & H5). destruct ops as [|[m|p] ops].
    + right. eexists _, _, _. split; [reflexivity|]. rewrite app_nil_r. split; [assumption|].
      cbn [rest_flat] in H1. rewrite app_nil_r in H1. rewrite H1. split_and!; auto.
      * cbn [eMono env_of]. rewrite (i_now _ _ _ _ Hi).
         pose proof (i_obytes _ _ _ _ Hi) as Hb. apply Forall_app in Hb as [_ Hb].
         pose proof (tr_now_mono A B Hb). lia.
      * discriminate.
    + right. eexists _, _, _. split; [reflexivity|]. rewrite app_nil_r. split; [assumption|].
      split; [reflexivity|]. exists dn, (Some m). split; [assumption|]. split; [assumption|].
      split; [eapply kt_spec_get; eauto|]. split; [discriminate|assumption].
    + assert (Hcur : exists m, cur = Some m).
      { destruct cur as [m|]; [eauto|]. specialize (H4 eq_refl). destruct (fqTopics rq) as [|[? ?] ?]; discriminate. }
      destruct Hcur as [m ->]. cbn [default rest_flat] in H1.
      right. eexists _, _, _. split; [reflexivity|]. rewrite app_nil_r. split; [assumption|].
      split; [reflexivity|]. exists (dn ++ [(m, p)]), (Some m). cbn [default].
      split; [rewrite H1, <- app_assoc; reflexivity|].
      split; [|split; [assumption|split; [discriminate|apply Forall_app; split; [assumption|]; repeat constructor]]].
      apply Forall2_app; [assumption|]. constructor; [|constructor].
      rewrite H1 in HN. apply Forall_app in HN as [_ HN]. apply Forall_cons_1 in HN as [HN _].
      split; [reflexivity|]. split; [exact HN|]. cbn [fst snd fdKp fdOff fdMs fdMax]. split.
      * destruct kt as [k|].
         ++ cbn [kt_spec] in H3. injection H3 as ->. pose proof (inv_hasPart _ _ _ _ k (fpIndex p) Hi) as Hp.
            destruct (hasPart (sDs s) k (fpIndex p)); [auto|]. now apply sometime_now.
         ++ destruct (H3 m eq_refl) as (B1 & HB & HP). exists B1. auto.
      * exists []. change (zlen (@nil krecord)) with 0. split; [lia|]. split; [apply newMessageSet_eq|]. split; [apply slice_nil|]. auto.
  - destruct H as (-> & H1 & H2 & H3 & H4 & H5). destruct todo as [|fd todo].
    + rewrite app_nil_r in *. destruct more.
      * right. eexists _, _, _. split; [reflexivity|]. rewrite app_nil_r. split; [assumption|].
         split_and!; auto.
      * destruct (hasOne || (exp <? eMono (env_of s))) eqn:Ef.
         ++ pose proof (Forall2_length _ _ _ H2) as Hlen.
            destruct (le_lt_dec (length (fqTopics rq)) (length (flat (fqTopics rq)))) as [HL|HL];
        [|left; split; [exact HL|]; split; [apply fetchFinish_panics; congruence|eauto]].
      destruct (fetchFinish_some (sDs s) rq done) as (v & Hv & ->); [congruence|].
            right. eexists _, _, _. split; [reflexivity|]. rewrite app_nil_r. split; [assumption|].
            split; [reflexivity|]. exists done. split_and!; auto.
            destruct hasOne.
            { destruct (H4 eq_refl) as [?|He]; [now left|]. inversion He. }
            cbn in Ef. right. left. apply sometime_now. rewrite (i_now _ _ _ _ Hi) in Ef. lia.
         ++ right. eexists _, _, _. split; [reflexivity|]. rewrite app_nil_r. split; [assumption|].
            apply orb_false_iff in Ef as [-> _]. split_and!; auto.
    + apply Forall2_app_inv_r in H2 as (q1 & q2 & F1 & F2 & Eq). inversion F2 as [|q ? q2' ? Hq F2']; subst.
      destruct (fetchOne_right _ _ _ _ _ _ _ Hi Hq) as (fd' & got & -> & G1 & G2 & G3).
      right. eexists _, _, _. split; [reflexivity|]. rewrite app_nil_r. split; [assumption|].
      split; [reflexivity|]. split; [assumption|]. rewrite <- app_assoc. cbn [app].
      split; [rewrite Eq; apply Forall2_app; [assumption|]; now constructor|].
      split; [|split].
      * intros Hm. apply orb_false_iff in Hm as [-> ->]. destruct G3 as (-> & Hx & _).
         apply Forall_app. split; [auto|]. now constructor.
      * intros Hh.
         assert (N : Exists nonempty (done ++ fd :: todo) -> Exists nonempty (done ++ fd' :: todo)).
         { rewrite !Exists_app, !Exists_cons. tauto. }
         destruct got.
         ++ rewrite orb_true_r. destruct G3 as [_ [(_ & _ & _ & G3)|[-> G3]]]; [left|right]; rewrite Exists_app, Exists_cons; auto.
         ++ destruct G3 as (-> & _ & Hns & _). rewrite orb_false_r in *.
            destruct (H4 Hh) as [?|Hs]; [auto|right]. destruct more; [assumption|].
            apply Exists_cons in Hs. tauto.
      * intros Hh. apply orb_false_iff in Hh as [-> ->]. destruct G3 as (-> & _). auto.
  - destruct H as (-> & H1 & H2 & H3 & H4). cbn [eCancel env_of]. destruct (sCancel s) eqn:Ec.
    + pose proof (Forall2_length _ _ _ H2) as Hlen.
      destruct (le_lt_dec (length (fqTopics rq)) (length (flat (fqTopics rq)))) as [HL|HL];
        [|left; split; [exact HL|]; split; [apply fetchFinish_panics; congruence|eauto]].
      destruct (fetchFinish_some (sDs s) rq fds) as (v & Hv & ->); [congruence|].
      right. eexists _, _, _. split; [reflexivity|]. rewrite app_nil_r. split; [assumption|].
      split; [reflexivity|]. exists fds. split_and!; auto.
      right. right. apply sometime_now. now rewrite <- (i_cancel _ _ _ _ Hi).
    + right. eexists _, _, _. split; [reflexivity|]. rewrite app_nil_r. split; [assumption|].
      split_and!; auto.
  - destruct H as (-> & H1 & H2 & H3 & H4). destruct (wake <=? eMono (env_of s)).
    + right. eexists _, _, _. split; [reflexivity|]. rewrite app_nil_r. split; [assumption|].
      split_and!; auto; discriminate.
    + right. eexists _, _, _. split; [reflexivity|]. rewrite app_nil_r. split; [assumption|].
      split_and!; auto.
Qed.

Lemma fetch_handler port vers A c rq : handler_ok port vers A c (fetch_inv A rq).
Proof.
  split.
  - intros B n tk o _. apply fetch_inv_mono.
  - intros s B n tk ch Hi Ht Hr [HL H].
    destruct (fetch_core_step port vers A c rq s B n tk ch Hi Hr H) as [[? _]|(ds & tk' & o & E & H')]; [lia|].
    exists ds, tk', o. split; [exact E|]. split; assumption.
  - intros B n t v (_ & _ & -> & fds & Hv & H & _). eapply fetchReply_enc_some; eauto.
Qed.

(** ** Against the specification *)
Definition raw_message (m : message) : bytes :=
  w_int64 (mOffset m) ++ w_int32 (mSize m) ++ w_int32 (mCrc m) ++ w_int8 (mMagic m) ++ w_int8 (mAttr m) ++
  w_int64 (mTs m) ++ w_bytes (mKey m) ++ w_bytes (mVal m).
Definition fd_set (fd : fdata) : bytes := concat (map raw_message (msMsgs (fdMs fd))).
Definition fd_body (fd : fdata) : bytes := w_int32 (msTotal (fdMs fd)) ++ fd_set fd.

Lemma raw_records off rs : Forall rec_bytes rs -> small rs ->
  concat (map raw_message (msgs_of off rs)) = w_records off rs.
Proof.
  intros Hb Hs. revert off. induction Hb as [|r rs Hr _ IH]; intros off; [reflexivity|].
  inversion Hs; subst. cbn [msgs_of map concat w_records]. rewrite IH by assumption. f_equal.
  unfold raw_message, msg_of. cbn [mOffset mSize mCrc mMagic mAttr mTs mKey mVal].
  rewrite message_crc_eq, !w_int32_swrap by assumption. reflexivity.
Qed.

Lemma log_small t p os : posts_small os -> small (tr_log t p os).
Proof.
  intros H. apply Forall_forall. intros r Hr. apply elem_of_list_In in Hr. unfold tr_log in Hr. apply in_flat_map in Hr as (o & Ho & Hr).
  destruct o; try contradiction. destruct (same _ _ _ _); [|contradiction]. destruct Hr as [->|[]]. eapply H, Ho.
Qed.
Lemma slice_forall {X} (P : X -> Prop) n rs l : slice n rs l -> Forall P l -> Forall P rs.
Proof. unfold slice. intros -> H. now apply Forall_take, Forall_drop. Qed.

Lemma fd_right_fetched A B q fd : posts_small (A ++ B) -> fd_right A B q fd -> exh A B fd ->
  fetched A B (fst q, (fpIndex (snd q), fpOffset (snd q), fpMax (snd q))) (fdOff fd, fd_set fd) /\
  msTotal (fdMs fd) = zlen (fd_set fd).
Proof.
  intros Hp (H1 & H2 & H3 & rs & H4 & H5 & H6 & H7 & H8) Hx.
  assert (Hs : small rs) by (eapply slice_forall; [exact H6|now apply log_small]).
  assert (E : fd_set fd = w_records (fpOffset (snd q)) rs).
  { unfold fd_set. rewrite H5. cbn [msMsgs]. now apply raw_records. }
  rewrite E, H5. cbn [msTotal]. rewrite zlen_w_records, <- total_small by assumption. split; [|reflexivity].
  exists rs. cbn [fst snd]. rewrite zlen_w_records, <- total_small by assumption. split_and!; auto.
  - destruct H7 as [?|?]; [now left|right]. split; [assumption|]. now rewrite <- H1.
  - unfold exh in Hx. destruct (fdKp fd) as [[t p]|].
    + destruct H3 as [[= -> ->] _]. destruct Hx as (B1 & HB & Hz). exists B1. rewrite <- H4. auto.
    + destruct H3 as (B1 & HB & Hz). exists B1. auto.
Qed.

Lemma fetch_ents_bytes ts fds : (forall fd, In fd fds -> msTotal (fdMs fd) = zlen (fd_set fd)) ->
  (length ts <= length fds)%nat ->
  let res := map (fun fd => (fdOff fd, fd_set fd)) fds in
  zlen (fetch_ents ts res) = zlen ts /\
  ftopics fd_body (mk_topics mk_fetch_part ts) fds =
  map (fun t => w_string (fst t) ++
    w_array (fun p : Z * Z * Z * bytes => let '(i, e, hw, set) := p in
      w_int32 i ++ w_int16 e ++ w_int64 hw ++ w_int32 (zlen set) ++ set) (snd t)) (fetch_ents ts res).
Proof.
  revert fds. induction ts as [|[t ps] ts IH]; intros [|fd fds] Ht Hl; cbn [length] in Hl; try lia; try (split; reflexivity).
  destruct (IH fds (fun x Hx => Ht x (or_intror Hx)) ltac:(lia)) as [I1 I2]. cbn zeta in *.
  cbn [map fetch_ents]. split; [rewrite !zlen_cons; lia|].
  cbn [mk_topics map ftopics fst snd]. fold (mk_topics mk_fetch_part ts). f_equal; [|exact I2].
  f_equal. unfold w_array. rewrite !zlen_map. f_equal. f_equal. rewrite !map_map. apply map_ext.
  intros [[i o] mx]. unfold fpart_bytes, mk_fetch_part, fd_body. cbn [fpIndex fst snd]. rewrite (Ht fd) by now left. reflexivity.
Qed.

Lemma map_mk_part {P} (ts : list (bytes * list P)) (f : P -> fetch_part) : 
  flat (mk_topics f ts) = map (fun q => (fst q, f (snd q))) (flat ts).
Proof. apply flat_mk. Qed.

Lemma fetch_inv_reply A corr r w mb ts B n t v payload :
  fetch_inv A (mk_fetch_req r w mb ts) B n (TkRet t v) -> encodeObject t v = Some payload ->
  fetch_reply A corr w ts B (w_reply corr payload).
Proof.
  intros (HL & _ & -> & fds & Hv & Hr & Hx & Hd) He Hp.
  cbn [fqTopics fqWait mk_fetch_req] in *.
  assert (Hall : forall fd, In fd fds -> msTotal (fdMs fd) = zlen (fd_set fd)).
  { clear - Hr Hx Hp. induction Hr as [|q fd qs fds H _ IH]; [contradiction|]. inversion Hx; subst.
    intros fd' [<-|Hin]; [|auto]. eapply fd_right_fetched; eauto. }
  assert (Hlen : (length ts <= length fds)%nat).
  { rewrite <- (Forall2_length _ _ _ Hr). unfold mk_topics in HL at 1. now rewrite map_length in HL. }
  exists (map (fun fd => (fdOff fd, fd_set fd)) fds). split_and!.
  - rewrite flat_mk in Hr. clear - Hr Hx Hp. revert fds Hr Hx.
    induction (flat ts) as [|[t [[i o] mx]] qs IH]; intros fds Hr Hx; inversion Hr as [|q fd qs' fds' H1 H2]; subst; [constructor|].
    inversion Hx; subst. cbn [map]. constructor; [|auto].
    exact (proj1 (fd_right_fetched _ _ _ _ Hp H1 H3)).
  - destruct Hd as [Hd|Hd]; [left|right; exact Hd].
    clear - Hd Hr Hx Hp. induction Hr as [|q fd qs fds H _ IH]; [inversion Hd|]. inversion Hx; subst.
    apply Exists_cons in Hd as [Hd|Hd]; [left|right; auto]. cbn [snd]. unfold nonempty, fd_set in *.
    destruct (msMsgs (fdMs fd)) as [|m ms]; [congruence|]. cbn. unfold raw_message, w_int64. cbn. discriminate.
  - f_equal. rewrite (fetchReply_enc fd_body fds) with (v := v) (rq := mk_fetch_req r w mb ts) in He; [|clear He|exact Hv].
    + injection He as <-. cbn [fqTopics mk_fetch_req]. destruct (fetch_ents_bytes ts fds Hall Hlen) as [E1 E2].
      unfold w_fetch_resp. unfold w_array at 1. rewrite E1, E2.
      assert (E3 : zlen (mk_topics mk_fetch_part ts) = zlen ts) by apply zlen_map. now rewrite E3.
    + intros fd Hin. apply encs_msgset. intros m Hm. clear - Hin Hm Hr.
      induction Hr as [|q fd' qs fds H _ IH]; [contradiction|]. destruct Hin as [->|Hin]; [|auto].
      destruct H as (_ & _ & _ & rs & _ & Em & _ & _ & Hb). rewrite Em in Hm. cbn [msMsgs] in Hm.
      revert Hm. generalize (fpOffset (snd q)). clear - Hb. induction Hb as [|r rs [Hk Hv] _ IH]; intros off; cbn [msgs_of]; [contradiction|].
      intros [<-|Hm]; [now apply message_encs|eauto].
Qed.

(** ** The theorems *)
Lemma fetch_begin port corr client r w mb ts :
  l_header 1 2 corr client = true -> l_fetch r w mb ts = true -> zlen (w_fetch_req r w mb ts) <= 4096 ->
  let rq := mk_fetch_req r w mb ts in
  beginRequest port (w_request 1 2 corr client (w_fetch_req r w mb ts)) =
  Some (corr, [], TkFetchOpen rq (plan (fqTopics rq)) None []).
Proof.
  intros Hh Hl Hz rq. rewrite begin_request by assumption. change (dispatch 1 2) with (Some ApiFetch). cbn [startApi].
  rewrite <- (app_nil_r (w_fetch_req _ _ _ _)).
  rewrite (with_req_good _ _ _ _ _ [] _ (fetch_good _ _ _ _ Hl)) by (try assumption; apply fetch_req_of_val).
  reflexivity.
Qed.

(** Offsets from 0 on. *)
Definition nonneg_offsets (ts : list (bytes * list (Z * Z * Z))) : Prop :=
  Forall (fun q : bytes * (Z * Z * Z) => 0 <= snd (fst (snd q))) (flat ts).

Lemma fetch_core_start A r w mb ts : nonneg_offsets ts ->
  let rq := mk_fetch_req r w mb ts in
  fetch_core A rq [] 0 (TkFetchOpen rq (plan (fqTopics rq)) None []).
Proof.
  intros Hn rq. unfold fetch_core. change (fqTopics rq) with (mk_topics mk_fetch_part ts). rewrite flat_mk. split; [|split; [reflexivity|]].
  - unfold nonneg_offsets in Hn. clear rq. induction Hn as [|[t [[i o] m]] qs H _ IH]; cbn [map]; constructor; [exact H|exact IH].
  - exists [], None. cbn [default]. split; [rewrite <- flat_mk; symmetry; apply rest_flat_plan|].
    split; [constructor|]. split; [discriminate|]. split; [reflexivity|constructor].
Qed.
Lemma fetch_inv_start A r w mb ts : nonneg_offsets ts -> (length ts <= length (flat ts))%nat ->
  let rq := mk_fetch_req r w mb ts in
  fetch_inv A rq [] 0 (TkFetchOpen rq (plan (fqTopics rq)) None []).
Proof.
  intros Hn Hl rq. split; [|now apply fetch_core_start].
  change (fqTopics rq) with (mk_topics mk_fetch_part ts). rewrite flat_mk. unfold mk_topics. now rewrite !map_length.
Qed.

Theorem fetch_answered_right port ch A c corr client r w mb ts s :
  let m := w_request 1 2 corr client (w_fetch_req r w mb ts) in
  l_header 1 2 corr client = true -> l_fetch r w mb ts = true -> zlen (w_fetch_req r w mb ts) <= 4096 ->
  nonneg_offsets ts -> (length ts <= length (flat ts))%nat ->
  serving port ch A c m s ->
  answers_right c s (fetch_reply (A ++ [OFrame c m]) corr w ts).
Proof.
  intros m Hh Hl Hz Hn Hlen Hs.
  destruct (serving_inv _ _ _ _ _ _ _ _ _ Hs (fetch_begin _ _ _ _ _ _ _ Hh Hl Hz)) as (inb & Hk & Hi & Hc).
  eapply (answers_right_intro port (initApiVersions ch) (A ++ [OFrame c m]) c corr
    (fetch_inv (A ++ [OFrame c m]) (mk_fetch_req r w mb ts))); eauto using fetch_handler.
  - exact (fetch_inv_start _ _ _ _ _ Hn Hlen).
  - intros B n t v payload H Hp. exact (fetch_inv_reply _ _ _ _ _ _ _ _ _ _ _ H Hp).
Qed.

Lemma posts_small_prefix A B B' : B' `prefix_of` B -> posts_small (A ++ B) -> posts_small (A ++ B').
Proof. intros [k ->] H i t p r Hin. apply (H i t p r). rewrite app_assoc. apply in_or_app. now left. Qed.
Lemma until_frame_prefix c B : until_frame c B `prefix_of` B.
Proof.
  induction B as [|o B IH]; [reflexivity|]. destruct o; cbn; try (now apply prefix_cons).
  destruct (Nat.eqb c c0); [apply prefix_nil|now apply prefix_cons].
Qed.

(** Records that do not fit: no reply, ever. *)
Lemma fetch_never A B t idx off max qs res : In (t, (idx, off, max)) qs -> 
  tr_has t idx A = true -> Z.max 0 max < log_size (skipn (Z.to_nat off) (tr_log t idx A)) ->
  ~ Forall2 (fetched A B) qs res.
Proof.
  intros Hin Hhas Hbig H. induction H as [|q x qs res Hq _ IH]; [contradiction|].
  destruct Hin as [->|Hin]; [|auto]. destruct Hq as (rs & H1 & H2 & H3 & H4 & B1 & HB & Hlen).
  destruct Hlen as [Hlen|Hlen]; [rewrite tr_has_app, Hhas in Hlen; discriminate|].
  destruct HB as [B2 ->]. rewrite H2, zlen_w_records in H3.
  set (l := tr_log t idx A) in *. rewrite tr_log_app in Hlen. fold l in Hlen. rewrite app_assoc, !tr_log_app in H4. fold l in H4.
  rewrite zlen_app in Hlen. set (l1 := tr_log t idx B1) in *.
  assert (Hn : 0 <= off \/ off < 0) by lia.
  apply slice_iff in H4 as [k Hk].
  assert (P : skipn (Z.to_nat off) l `prefix_of` rs).
  { assert (E : rs ++ k = skipn (Z.to_nat off) l ++ skipn (Z.to_nat off - length l) ((l1 ++ tr_log t idx B2))).
    { rewrite <- Hk, <- app_assoc. apply skipn_app. }
    assert (Hle : (length (skipn (Z.to_nat off) l) <= length rs)%nat).
    { rewrite skipn_length. unfold zlen in *. lia. }
    exists (firstn (length rs - length (skipn (Z.to_nat off) l)) (skipn (Z.to_nat off - length l) (l1 ++ tr_log t idx B2))).
    apply (f_equal (firstn (length rs))) in E. rewrite firstn_app, firstn_all, Nat.sub_diag in E. cbn [firstn] in E.
    rewrite app_nil_r in E. rewrite E at 1. rewrite firstn_app. f_equal. now apply firstn_all2. }
  destruct P as [k' Ek]. destruct H3 as [->|[_ H3]].
  - destruct (skipn (Z.to_nat off) l); [|discriminate]. cbn in Hbig. lia.
  - rewrite Ek, log_size_app in H3. pose proof (log_size_nonneg k'). lia.
Qed.
