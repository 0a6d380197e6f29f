(** * ConsumerProofs: the consumer loop gets every record once, in order *)
From Verif Require Export ConsumerSpec ReplyMore StateProofs.
From stdpp Require Import gmap list.
From Coq Require Import ZifyBool ZifyNat.
Open Scope Z_scope.
Open Scope list_scope.

(** ** Decoding *)
Lemma w_be_inj n a b : w_be n a = w_be n b -> a mod 256 ^ Z.of_nat n = b mod 256 ^ Z.of_nat n.
Proof. intros H. now rewrite <- !be_get_w, H. Qed.
Lemma w_int32_inj a b : 0 <= a < 2 ^ 32 -> 0 <= b < 2 ^ 32 -> w_int32 a = w_int32 b -> a = b.
Proof. intros Ha Hb H. apply w_be_inj in H. change (256 ^ Z.of_nat 4) with (2 ^ 32) in H. now rewrite !Z.mod_small in H by assumption. Qed.
Lemma w_int32_sinj a b : - 2 ^ 31 <= a < 2 ^ 31 -> - 2 ^ 31 <= b < 2 ^ 31 -> w_int32 a = w_int32 b -> a = b.
Proof. intros Ha Hb H. apply w_be_inj in H. change (256 ^ Z.of_nat 4) with 4294967296 in H. lia. Qed.
Lemma w_int64_inj a b : l_i64 a = true -> l_i64 b = true -> w_int64 a = w_int64 b -> a = b.
Proof.
  intros Ha Hb H. apply w_be_inj in H. change (256 ^ Z.of_nat 8) with 18446744073709551616 in H.
  unfold l_i64 in Ha, Hb. lia.
Qed.
Lemma w_app_inj n a b x y : w_be n a ++ x = w_be n b ++ y -> w_be n a = w_be n b /\ x = y.
Proof. apply app_inj_len. now rewrite !w_be_length. Qed.

Lemma zlen_reply corr b : zlen (w_reply corr b) = 8 + zlen b.
Proof. unfold w_reply, w_frame, w_int32. rewrite !zlen_app, !zlen_w_be. lia. Qed.
(** A complete reply that is a prefix of a reply is that reply. *)
Lemma reply_prefix corr b b' : w_reply corr b `prefix_of` w_reply corr b' -> zlen b' < 2 ^ 32 - 4 -> b = b'.
Proof.
  intros [k Hk] Hb. pose proof (f_equal zlen Hk) as Hl. rewrite zlen_app, !zlen_reply in Hl.
  assert (0 <= zlen b /\ 0 <= zlen k) as [? ?] by (unfold zlen; lia).
  unfold w_reply, w_frame in Hk. rewrite <- app_assoc in Hk. apply w_app_inj in Hk as [H1 H2].
  apply w_int32_inj in H1; [|unfold w_int32; rewrite zlen_app, zlen_w_be; lia..].
  unfold w_int32 in H1. rewrite !zlen_app, !zlen_w_be in H1.
  destruct k as [|z k]; [|rewrite zlen_cons in Hl; unfold zlen in *; lia].
  rewrite app_nil_r in H2. now apply app_inv_head in H2.
Qed.

Lemma w_bytes_inj a b x y : blen a <= 2147483647 -> blen b <= 2147483647 -> w_bytes a ++ x = w_bytes b ++ y -> a = b /\ x = y.
Proof.
  assert (N : forall s : bytes, 0 <= zlen s) by (intros; unfold zlen; lia).
  destruct a as [a|], b as [b|]; cbn [w_bytes blen]; intros Ha Hb; rewrite <- ?app_assoc; intros H;
    apply w_app_inj in H as [H1 H2]; apply w_int32_sinj in H1; try lia;
    try (pose proof (N a)); try (pose proof (N b)); try lia.
  - apply app_inj_len in H2 as [-> ->]; [auto|unfold zlen in H1; lia].
  - auto.
Qed.
Lemma w_record_inj off r r' x y : rec_size r <= 2147483647 -> rec_size r' <= 2147483647 ->
  l_i64 (rTs r) = true -> l_i64 (rTs r') = true ->
  w_record off r ++ x = w_record off r' ++ y -> msg_of_rec r = msg_of_rec r' /\ x = y.
Proof.
  intros Hs Hs' Ht Ht' H. unfold w_record, w_message, w_msg_tail in H. rewrite <- !app_assoc in H.
  do 5 (apply w_app_inj in H as [_ H]). apply w_app_inj in H as [H6 H]. apply w_int64_inj in H6; try assumption.
  unfold rec_size in Hs, Hs'.
  pose proof (blen_nonneg (rKey r)). pose proof (blen_nonneg (rVal r)).
  pose proof (blen_nonneg (rKey r')). pose proof (blen_nonneg (rVal r')).
  apply w_bytes_inj in H as [HK H]; try lia. apply w_bytes_inj in H as [HV H]; try lia.
  split; [|assumption]. unfold msg_of_rec. congruence.
Qed.
Definition rec_legal (r : krecord) : Prop := rec_size r <= 2147483647 /\ l_i64 (rTs r) = true.
Lemma w_records_inj rs : forall rs' off, Forall rec_legal rs -> Forall rec_legal rs' ->
  w_records off rs = w_records off rs' -> map msg_of_rec rs = map msg_of_rec rs'.
Proof.
  induction rs as [|r rs IH]; intros [|r' rs'] off H H' E; cbn in E.
  - reflexivity.
  - exfalso. symmetry in E. pose proof (w_records_nil off (r' :: rs') E). discriminate.
  - exfalso. pose proof (w_records_nil off (r :: rs) E). discriminate.
  - apply Forall_cons in H as [[H1 H2] H]. apply Forall_cons in H' as [[G1 G2] H'].
    apply w_record_inj in E as [E1 E]; try assumption. cbn. rewrite E1. f_equal. eapply IH; eauto.
Qed.

(** ** Timestamps are int64 *)
Definition time64 (o : option Z) : bool := match o with Some x => int64 x | None => true end.
Definition athread64 (a : athread) : Prop :=
  match a with
  | APostTopic _ _ _ _ _ ts | APostPart _ _ _ _ _ ts | APostNow _ _ _ _ _ ts => time64 ts = true
  | APostRec _ _ r => int64 (rTs r) = true
  | _ => True
  end.
Definition obs64 (o : obs) : Prop := match o with OPosted _ _ _ r => int64 (rTs r) = true | _ => True end.
Definition sys64 (s : sys) : Prop := int64 (sWall s) = true /\ Forall athread64 (sThreads s).
Lemma int64_swrap w : int64 (swrap 64 w) = true.
Proof. unfold int64, swrap. change (2 ^ (64 - 1)) with 9223372036854775808. change (2 ^ 64) with 18446744073709551616. lia. Qed.
Lemma int64_l z : int64 z = true -> l_i64 z = true.
Proof. unfold int64, swrap, l_i64. change (2 ^ (64 - 1)) with 9223372036854775808. change (2 ^ 64) with 18446744073709551616. lia. Qed.
Lemma astep64 i w ds a ds' a' o : int64 w = true -> athread64 a -> astep i w ds a = (ds', a', o) -> athread64 a' /\ Forall obs64 o.
Proof.
  intros Hw Ha H. destruct a; cbn in H, Ha; repeat match type of H with context [match ?x with _ => _ end] => destruct x; try discriminate end;
    injection H as _ <- <-; (split; [cbn; auto|repeat constructor; auto]).
Qed.
Lemma conn_step_keeps s c ch k s' o : conn_step s c ch k = (s', o) -> sWall s' = sWall s /\ sThreads s' = sThreads s.
Proof.
  unfold conn_step. intros H.
  repeat match type of H with context [match ?x with _ => _ end] => destruct x; try discriminate end;
  injection H as <- _; auto.
Qed.
Lemma conn_step_posts s c ch k s' o : conn_step s c ch k = (s', o) -> Forall obs64 o.
Proof.
  unfold conn_step. intros H.
  assert (T : forall e tk ds tk' o, tstep c e ch (sDs s) tk = TCont ds tk' o -> Forall obs64 o).
  { clear. intros e tk ds tk' o H. assert (F : forall rq fds, fetchFinish (sDs s) rq fds = TCont ds tk' o -> Forall obs64 o).
    { intros rq fds. unfold fetchFinish. destruct (fetchReply rq fds); [|discriminate]. intros [= _ _ <-]. constructor. }
    destruct tk; cbn [tstep] in H;
    repeat match type of H with context [match ?x with _ => _ end] => destruct x; try discriminate end;
    first [injection H as _ _ <-; repeat constructor|eauto]. }
  destruct (cSt k) as [| |corr extra tk|[|b bs]|].
  - destruct (getMessage (cIn k)); [destruct (sCancel s)| |]; try (injection H as _ <-; repeat constructor).
    destruct (beginRequest (sPort s) msg) as [[[? ?] ?]|]; injection H as _ <-; repeat constructor.
  - injection H as _ <-; constructor.
  - destruct tk as [t v| | | | | | | | | |];
      try (match type of H with context [tstep _ ?e _ _ ?x] => destruct (tstep c e ch (sDs s) x) eqn:E; injection H as _ <-; [eapply T, E|repeat constructor] end).
    destruct (finishRequest corr extra t v); injection H as _ <-; repeat constructor.
  - injection H as _ <-; constructor.
  - injection H as _ <-; repeat constructor.
  - injection H as _ <-; constructor.
Qed.
Lemma step64 s ev s' o : sys64 s -> step s ev = (s', o) -> sys64 s' /\ Forall obs64 o.
Proof.
  intros [Hw Ht] H. unfold step in H. destruct (sCrash s); [injection H as <- <-; split; [now split|constructor]|].
  assert (S : sys64 s) by now split.
  destruct ev as [cl|j| |d chh|d chunk|d|d|d|d gone|d|w| |].
  - destruct (call_ok cl) eqn:E; injection H as <- <-; (split; [|constructor]); [|assumption].
    split; [assumption|]. cbn. apply Forall_app. split; [assumption|]. repeat constructor.
    destruct cl; cbn in E |- *; try exact I. unfold time64. now repeat (apply andb_true_iff in E as [? E]).
  - destruct (sThreads s !! j) as [a|] eqn:Ej; [|injection H as <- <-; split; [assumption|constructor]].
    destruct (astep j (sWall s) (sDs s) a) as [[ds a'] o'] eqn:Ea. injection H as <- <-.
    destruct (astep64 _ _ _ _ _ _ _ Hw (Forall_lookup_1 _ _ _ _ Ht Ej) Ea) as [Ha Ho].
    split; [|assumption]. split; [assumption|]. cbn. now apply Forall_insert.
  - destruct (sCancel s); injection H as <- <-; (split; [|constructor]); [assumption|now split].
  - destruct (sConns s !! d) as [k|]; [|injection H as <- <-; split; [assumption|constructor]].
    pose proof (conn_step_keeps _ _ _ _ _ _ H) as [E1 E2]. apply conn_step_posts in H. split; [|assumption].
    split; [now rewrite E1|now rewrite E2].
  - destruct (sConns s !! d) as [[inb []]|]; try (injection H as <- <-; split; [assumption|constructor]; fail).
    destruct (_ && _); injection H as <- <-; (split; [|repeat constructor]); assumption.
  - destruct (sConns s !! d) as [[inb []]|]; injection H as <- <-; (split; [|repeat constructor]); assumption.
  - destruct (sConns s !! d) as [[inb []]|]; injection H as <- <-; (split; [|repeat constructor]); assumption.
  - destruct (sConns s !! d) as [[inb []]|]; injection H as <- <-; (split; [|repeat constructor]); assumption.
  - destruct (sConns s !! d) as [[inb []]|]; try (injection H as <- <-; split; [assumption|constructor]; fail).
    destruct gone; injection H as <- <-; (split; [|repeat constructor]); assumption.
  - injection H as <- <-; (split; [|repeat constructor]); assumption.
  - injection H as <- <-; (split; [|repeat constructor]). split; [apply int64_swrap|assumption].
  - injection H as <- <-; (split; [|repeat constructor]); assumption.
  - destruct (forallb closed (sConns s)); injection H as <- <-; (split; [|repeat constructor]); assumption.
Qed.
Lemma run64 evs : forall s s' o, sys64 s -> run s evs = (s', o) -> sys64 s' /\ Forall obs64 o.
Proof.
  induction evs as [|ev evs IH]; cbn [run]; intros s s' o Hs H; [injection H as <- <-; split; [assumption|constructor]|].
  destruct (step s ev) as [s1 o1] eqn:E1. destruct (run s1 evs) as [s2 o2] eqn:E2. injection H as <- <-.
  destruct (step64 _ _ _ _ Hs E1) as [H1 H2]. destruct (IH _ _ _ H1 E2) as [H3 H4]. split; [assumption|]. now apply Forall_app.
Qed.
Lemma init64 port ch : sys64 (init port ch).
Proof. split; [reflexivity|constructor]. Qed.

(** ** Exchanges *)
Lemma dialogue_run port ch A c m r A' : r <> [] -> dialogue port ch A c m r A' ->
  exists evs s, run (init port ch) evs = (s, A').
Proof.
  intros Hr (s & evs & s' & B & Hs & Hrun & _ & _ & Hw & ->).
  destruct Hs as (e0 & s0 & ev & o & H0 & H1).
  destruct (step_frame _ _ _ _ c H1) as (inb & msg & rest & ch' & -> & _ & _ & _ & [(corr & extra & tk & _ & Ho & ->)|(_ & Ho & ->)]).
  - cbn. now rewrite Nat.eqb_refl.
  - injection Ho as <- ->. exists (e0 ++ EvConn c ch' :: evs). eexists.
    rewrite run_app, H0. cbn [fst snd run]. rewrite H1, Hrun. reflexivity.
  - apply run_frozen in Hrun as [_ ->]; [|reflexivity]. now contradict Hr.
Qed.
Lemma reply_nonempty corr b : w_reply corr b <> [].
Proof. intros H. apply (f_equal zlen) in H. rewrite zlen_reply in H. unfold zlen in H. cbn in H. lia. Qed.

Lemma dialogue_answered port ch A c m corr pay A' R :
  dialogue port ch A c m (w_reply corr pay) A' ->
  (forall s, serving port ch A c m s -> answers_right c s R) ->
  exists B' r, (A ++ OFrame c m :: B') `prefix_of` A' /\ R B' r /\ w_reply corr pay `prefix_of` r.
Proof.
  intros (s & evs & s' & B & Hs & Hrun & Hok & Hf & Hw & ->) HR.
  destruct (HR s Hs evs s' B Hrun Hok) as [H _]. rewrite until_frame_none, Hw in H by assumption.
  destruct H as [H|(B' & r & HB & Hr & Hp)]; [now apply reply_nonempty in H|].
  exists B', r. split; [|auto]. destruct HB as [k ->]. exists k. now rewrite <- app_assoc.
Qed.
Lemma answers_weaken c s R K : answers c s R K -> answers_right c s R.
Proof. intros H evs s' B Hr Ho. destruct (H evs s' B Hr Ho) as [H1 H2]. split; [exact H1|]. intros Hx. apply H2. tauto. Qed.

Lemma asks_right port ch t p g A o A' : asks_offset port ch t p g A o A' ->
  exists A1, A `prefix_of` A1 /\ A1 `prefix_of` A' /\ w_int64 o = w_int64 (tr_off t p g A1).
Proof.
  intros (c & corr & client & md & er & Hh & Hl & Hz & _ & He).
  destruct (dialogue_answered _ _ _ _ _ _ _ _ _ He (fun s Hs => answers_weaken _ _ _ _ (off_answered _ _ _ _ _ _ _ _ _ Hh Hl Hz Hs)))
    as (B' & r & HA & (ents & inc & -> & Hinc & Hnd & Hin & Hr) & Hp).
  set (m := w_request 9 1 corr client (w_off_req g [(t, [p])])) in *. clearbody m. clear He Hh Hz.
  change (flat [(t, [p])]) with [(t, p)] in Hinc.
  assert (Ht : zlen t <= 32767).
  { unfold l_off, l_topics in Hl. cbn in Hl. unfold l_string in Hl. lia. }
  inversion Hinc as [|t0 p0 req inc0 Hhas Hrest|t0 p0 req inc0 Hno Hrest]; subst; inversion Hrest; subst.
  - destruct ents as [|[t1 l1] ents].
    { exfalso. destruct (Hin t) as [_ Hx]. destruct Hx; now left. }
    assert (t1 = t) as -> by (destruct (proj1 (Hin t1)) as [Hx|[]]; [now left|now cbn in Hx]).
    assert (ents = []) as ->.
    { destruct ents as [|[t2 l2] ents]; [reflexivity|]. exfalso. cbn in Hnd. apply NoDup_cons in Hnd as [Hnd _]. apply Hnd.
      destruct (proj1 (Hin t2)) as [Hx|[]]; [now right; left|]. cbn in Hx. subst. now left. }
    destruct (Hr t l1) as [Hix Hall]; [now left|]. cbn in Hix. rewrite bool_decide_true in Hix by reflexivity.
    destruct l1 as [|[[[i1 o1] m1] e1] [|? ?]]; try discriminate. injection Hix as ->.
    apply Forall_cons in Hall as [(-> & -> & B1 & HB1 & Ho1) _].
    apply reply_prefix in Hp.
    + unfold w_off_resp, w_array in Hp. cbn [map concat fst snd] in Hp. rewrite !app_nil_r in Hp.
      apply app_inv_head in Hp. unfold w_string in Hp. rewrite <- ?app_assoc in Hp.
      do 4 apply app_inv_head in Hp. apply w_app_inj in Hp as [Hp _].
      exists ((A ++ [OFrame c m]) ++ B1). split; [rewrite <- app_assoc; apply prefix_app_r; reflexivity|]. split.
      * etransitivity; [|exact HA]. rewrite <- app_assoc. apply prefix_app. cbn. apply prefix_cons. exact HB1.
      * rewrite <- Ho1. exact Hp.
    + unfold w_off_resp, w_array. cbn [map concat fst snd]. rewrite !app_nil_r. unfold w_string, w_nstring, w_int32, w_int16, w_int64.
      rewrite !zlen_app, !zlen_w_be. lia.
  - exfalso. destruct ents as [|[t1 l1] ents].
    2: { destruct (proj1 (Hin t1)); now left. }
    apply reply_prefix in Hp; [|now vm_compute]. apply (f_equal zlen) in Hp. revert Hp.
    unfold w_off_resp, w_array. cbn [map concat fst snd]. rewrite !app_nil_r. unfold w_string, w_int32, w_int16, w_int64.
    rewrite !zlen_app, !zlen_w_be. unfold zlen. lia.
Qed.

Lemma gets_right port ch t p A o batch A' : gets_batch port ch t p A o batch A' -> 0 <= o -> posts_small A' ->
  exists rs A1 A2, A `prefix_of` A1 /\ A1 `prefix_of` A2 /\ A2 `prefix_of` A' /\
    w_records o (map rec_of_msg batch) = w_records o rs /\
    rs = firstn (length rs) (skipn (Z.to_nat o) (tr_log t p A2)) /\
    (tr_has t p A1 = false \/ zlen (tr_log t p A1) <= o + zlen rs).
Proof.
  intros (c & corr & client & r & w & mb & max & er & hw & Hh & Hl & Hz & Hb & He) Ho Hsm.
  assert (Hn : nonneg_offsets [(t, [(p, o, max)])]).
  { repeat constructor. assumption. }
  destruct (dialogue_answered _ _ _ _ _ _ _ _ _ He (fun s Hs => fetch_answered_right _ _ _ _ _ _ _ _ _ _ _ Hh Hl Hz Hn (le_n 1) Hs))
    as (B' & rr & HA & HR & Hp).
  set (m := w_request 1 2 corr client _) in *. clearbody m. clear He Hh Hz.
  destruct HR as (res & Hf & _ & ->).
  { intros i t' p' r' Hi. apply (Hsm i t' p' r'). destruct HA as [k ->]. rewrite <- app_assoc in Hi. apply in_or_app. now left. }
  change (flat [(t, [(p, o, max)])]) with [(t, (p, o, max))] in Hf.
  destruct res as [|[hw' set] [|? ?]]; try (inversion Hf; subst; now match goal with H : Forall2 _ [] _ |- _ => inversion H end).
  apply Forall2_cons in Hf as [(rs & Hhw & Hset & Hlim & Hrs & (B1 & HB1 & Hsome)) _]. cbn [fst snd] in *. subst hw' set.
  assert (Ht : zlen t <= 32767 /\ max <= 2147483647).
  { unfold l_fetch, l_topics in Hl. cbn in Hl. unfold l_string, l_i32 in Hl. lia. }
  assert (Hmx : zlen (w_records o rs) <= 2147483647) by (destruct Hlim as [->|[_ Hlim]]; [now cbn|lia]).
  cbn [fetch_ents map fst snd] in Hp.
  apply reply_prefix in Hp.
  2: { unfold w_fetch_resp, w_array. cbn [map concat fst snd]. rewrite !app_nil_r. unfold w_string, w_int32, w_int16, w_int64.
       rewrite !zlen_app, !zlen_w_be. lia. }
  unfold w_fetch_resp, w_array in Hp. cbn [map concat fst snd] in Hp. rewrite !app_nil_r in Hp. apply app_inv_head in Hp.
  unfold w_string in Hp. rewrite <- !app_assoc in Hp.
  do 5 apply app_inv_head in Hp. do 3 apply w_app_inj in Hp as [_ Hp].
  exists rs, ((A ++ [OFrame c m]) ++ B1), ((A ++ [OFrame c m]) ++ B').
  split; [rewrite <- app_assoc; apply prefix_app_r; reflexivity|].
  split; [now apply prefix_app|]. split; [rewrite <- app_assoc; exact HA|]. split; [exact Hp|]. split; [exact Hrs|exact Hsome].
Qed.

(** ** The commit *)
Definition commit_of (o : Z) (tk : task) : Prop :=
  match tk with
  | TkCommit _ ops _ pend _ => (forall q, In (WPart q) ops -> cpOffset q = o) /\ (forall q, pend = Some q -> cpOffset q = o)
  | TkRet _ _ => True
  | _ => False
  end.
Definition commit_ok_obs (o : Z) (x : obs) : Prop := match x with OCommit _ _ _ _ y => y = o | _ => True end.
Lemma commit_of_tstep o c e ch ds tk ds' tk' os : commit_of o tk -> tstep c e ch ds tk = TCont ds' tk' os ->
  (forall x, In x os -> commit_ok_obs o x) /\ frames c os = [] /\ commit_of o tk'.
Proof.
  intros Ht H. destruct tk; cbn [commit_of] in Ht; try contradiction; cbn [tstep] in H.
  - injection H as _ <- <-. split; [intros ? []|split; [reflexivity|exact I]].
  - destruct Ht as [H1 H2]. destruct pend as [q|].
    + destruct kt; injection H as _ <- <-.
      * split; [|split; [reflexivity|split; [assumption|discriminate]]]. intros x [<-|[]]. cbn. now apply H2.
      * split; [intros ? []|split; [reflexivity|split; [assumption|discriminate]]].
    + destruct ops as [|[n|q] ops].
      * injection H as _ <- <-. split; [intros ? []|split; [reflexivity|exact I]].
      * injection H as _ <- <-. split; [intros ? []|split; [reflexivity|split; [|discriminate]]]. intros q Hq. apply H1. now right.
      * assert (H1' : forall q', In (WPart q') ops -> cpOffset q' = o) by (intros; apply H1; now right).
        destruct kt; [destruct (hasPart _ _ _)|]; injection H as _ <- <-; (split; [intros ? []|split; [reflexivity|split; [assumption|]]]); try discriminate.
        intros q' [= <-]. apply H1. now left.
Qed.

Lemma commit_within port ch A c corr client g gen mem ret t p o md s :
  let m := w_request 8 2 corr client (w_commit_req g gen mem ret [(t, [(p, o, md)])]) in
  l_header 8 2 corr client = true -> l_commit g gen mem ret [(t, [(p, o, md)])] = true ->
  zlen (w_commit_req g gen mem ret [(t, [(p, o, md)])]) <= 4096 -> serving port ch A c m s ->
  forall evs s' B, run s evs = (s', B) -> frames c B = [] -> forall t' p' g' x, In (OCommit c t' p' g' x) B -> x = o.
Proof.
  intros m Hh Hl Hz Hs evs s' B Hr Hf t' p' g' x Hin.
  assert (Hb : beginRequest port m = Some (corr, [], TkCommit (mk_commit_req g gen mem ret [(t, [(p, o, md)])])
                 (plan (mk_topics mk_commit_part [(t, [(p, o, md)])])) None None [])).
  { unfold m. rewrite begin_request by assumption. change (dispatch 8 2) with (Some ApiOffsetCommit). cbn [startApi].
    rewrite <- (app_nil_r (w_commit_req _ _ _ _ _)).
    rewrite (with_req_good _ _ _ _ _ [] _ (commit_good _ _ _ _ _ Hl)) by (try assumption; apply commit_req_of_val).
    reflexivity. }
  destruct (serving_inv _ _ _ _ _ _ _ _ _ Hs Hb) as (inb & Hk & _).
  rewrite <- (until_frame_none c B) in Hin by assumption.
  refine (task_run (commit_of o) (commit_ok_obs o) c evs _ (commit_of_tstep o c) s s' B _ Hk _ Hr _ Hin eq_refl).
  - intros [] Hx; cbn in *; tauto.
  - cbn. split; [|discriminate]. intros q [Hq|[Hq|[]]]; [discriminate|]. now injection Hq as <-.
Qed.

Lemma off_unmoved t p g D : (forall x, In x D -> ~ moves t p g x) -> forall z, fold_left (off_step t p g) D z = z.
Proof.
  induction D as [|x D IH]; intros H z; [reflexivity|]. cbn [fold_left]. rewrite IH by (intros; apply H; now right).
  specialize (H x (or_introl eq_refl)). destruct x; cbn in H |- *; try reflexivity;
    (destruct (same t p t0 p0 && bool_decide (g = g0)) eqn:E; [|reflexivity]; exfalso; apply H;
     apply andb_true_iff in E as [E1 E2]; apply same_true in E1 as [-> ->]; apply bool_decide_eq_true in E2 as ->; reflexivity).
Qed.
Lemma off_moved t p g c o D : (forall x, In x D -> moves t p g x -> x = OCommit c t p g o) ->
  In (OCommit c t p g o) D -> forall z, fold_left (off_step t p g) D z = Z.max z o.
Proof.
  intros H Hin. apply in_split in Hin as (D1 & D2 & ->).
  assert (K : forall E z, (forall x, In x E -> moves t p g x -> x = OCommit c t p g o) ->
     fold_left (off_step t p g) E z = z \/ fold_left (off_step t p g) E z = Z.max z o).
  { clear. induction E as [|x E IH]; intros z H; [now left|]. cbn [fold_left].
    assert (Hx : off_step t p g z x = z \/ off_step t p g z x = Z.max z o).
    { specialize (H x (or_introl eq_refl)). destruct x; cbn in H |- *; auto;
       (destruct (same t p t0 p0 && bool_decide (g = g0)) eqn:Eq; [|auto];
        apply andb_true_iff in Eq as [E1 E2]; apply same_true in E1 as [-> ->]; apply bool_decide_eq_true in E2 as ->;
        specialize (H eq_refl)); [discriminate|]. injection H as <- <-. auto. }
    destruct (IH (off_step t p g z x)) as [->| ->]; [intros; apply H; [now right|assumption]|..]; lia. }
  intros z. rewrite fold_left_app. cbn [fold_left].
  assert (E : forall y, off_step t p g y (OCommit c t p g o) = Z.max y o).
  { intros y. cbn. now rewrite same_refl, bool_decide_true. }
  rewrite E. destruct (K D1 z) as [->| ->]; [intros; apply H; [apply in_or_app; now left|assumption]| |];
   (match goal with |- context [fold_left _ D2 ?y] => destruct (K D2 y) as [->| ->] end;
     [intros; apply H; [apply in_or_app; right; now right|assumption]|lia|lia]).
Qed.

Lemma commits_right port ch t p g A o A' : commits_to port ch t p g A o A' ->
  A `prefix_of` A' /\ tr_off t p g A' = Z.max (tr_off t p g A) o /\ l_i64 o = true.
Proof.
  intros (c & corr & client & gen & mem & ret & md & Hh & Hl & Hz & He & (D & HD & Hmv)).
  destruct (dialogue_answered _ _ _ _ _ _ _ _ _ He (fun s Hs => answers_weaken _ _ _ _ (commit_answered _ _ _ _ _ _ _ _ _ _ _ _ Hh Hl Hz Hs)))
    as (B' & r & HA & (ents & -> & Hents & Hcm) & Hp).
  assert (Hlo : l_i64 o = true) by (unfold l_commit, l_topics in Hl; cbn in Hl; lia).
  assert (Ht : zlen t <= 32767) by (unfold l_commit, l_topics in Hl; cbn in Hl; unfold l_string in Hl; lia).
  assert (Hone : forall x, In x D -> moves t p g x -> x = OCommit c t p g o).
  { intros x Hx Hmx. destruct (Hmv x Hx Hmx) as [o' ->]. f_equal.
    destruct He as (s & evs & s' & B & Hs & Hrun & _ & Hf & _ & E). rewrite E in HD. apply app_inv_head in HD as <-.
    destruct Hx as [Hx|Hx]; [discriminate|].
    exact (commit_within _ _ _ _ _ _ _ _ _ _ _ _ _ _ _ Hh Hl Hz Hs _ _ _ Hrun Hf _ _ _ _ Hx). }
  set (m := w_request 8 2 corr client _) in *. clearbody m. clear He Hh Hz Hl.
  subst A'. split; [now apply prefix_app_r|]. split; [|assumption].
  unfold tr_off. rewrite fold_left_app. apply (off_moved t p g c); [assumption|].
  destruct ents as [|[t1 es] [|? ?]]; try (inversion Hents; subst; now match goal with H : Forall2 _ [] (_ :: _) |- _ => inversion H end).
  apply Forall2_cons in Hents as [[E1 E2] _]. cbn in E1, E2. subst t1.
  destruct es as [|[i er] [|? ?]]; try (inversion E2; subst; now match goal with H : Forall2 _ [] (_ :: _) |- _ => inversion H end).
  apply Forall2_cons in E2 as [[Ei Her] _]. cbn in Ei. subst i. cbn [snd] in Her.
  apply reply_prefix in Hp.
  2: { unfold w_commit_resp, w_array. cbn [map concat fst snd]. rewrite !app_nil_r. unfold w_string, w_int32, w_int16.
       rewrite !zlen_app, !zlen_w_be. lia. }
  unfold w_commit_resp, w_array in Hp. cbn [map concat fst snd] in Hp. rewrite !app_nil_r in Hp. apply app_inv_head in Hp.
  unfold w_string in Hp. rewrite <- ?app_assoc in Hp. do 4 apply app_inv_head in Hp.
  assert (er = 0) as ->.
  { destruct Her as [[-> _]|[-> _]]; [reflexivity|]. now vm_compute in Hp. }
  cbn in Hcm.
  destruct HA as [k Hk]. rewrite <- app_assoc in Hk. apply app_inv_head in Hk. subst D. cbn. right. apply in_or_app. left.
  unfold commits in Hcm. assert (Hi : In (t, p, g, o) (flat_map (fun o0 => match o0 with
     | OCommit c' t0 p0 g0 x => if Nat.eqb c c' then [(t0, p0, g0, x)] else [] | _ => [] end) B')) by (rewrite Hcm; now left).
  apply in_flat_map in Hi as (x & Hx & Hi). destruct x; try contradiction. destruct (Nat.eqb c c0) eqn:Ec; [|contradiction].
  apply Nat.eqb_eq in Ec as <-. destruct Hi as [[= <- <- <- <-]|[]]. assumption.
Qed.

(** ** The loop *)
Lemma firstn_grow {A} (rs l m : list A) k : rs = firstn (length rs) (skipn k l) -> rs = firstn (length rs) (skipn k (l ++ m)).
Proof.
  intros H. rewrite skipn_app, firstn_app. rewrite <- H.
  assert (Hl : (length rs <= length (skipn k l))%nat).
  { rewrite H at 1. rewrite firstn_length. lia. }
  replace (length rs - length (skipn k l))%nat with 0%nat by lia. cbn. now rewrite app_nil_r.
Qed.
Lemma firstn_join {A} (a b l : list A) k : a = firstn (length a) (skipn k l) -> b = firstn (length b) (skipn (k + length a) l) ->
  a ++ b = firstn (length (a ++ b)) (skipn k l).
Proof.
  intros Ha Hb. rewrite app_length. rewrite <- (firstn_skipn (length a) (skipn k l)) at 1. rewrite <- Ha.
  rewrite firstn_app. rewrite firstn_all2 by lia. f_equal.
  replace (length a + length b - length a)%nat with (length b) by lia.
  rewrite Hb at 1. f_equal. rewrite drop_drop. reflexivity.
Qed.
Lemma map_firstn_skipn {A B} (f : A -> B) n k l : map f (firstn n (skipn k l)) = firstn n (skipn k (map f l)).
Proof. now rewrite <- firstn_map, <- skipn_map. Qed.
Lemma log_posted t p os r : In r (tr_log t p os) -> exists i, In (OPosted i t p r) os.
Proof.
  unfold tr_log. intros H. apply in_flat_map in H as (x & Hx & Hr). destruct x; try contradiction.
  destruct (same t p t0 p0) eqn:E; [|contradiction]. apply same_true in E as [-> ->]. destruct Hr as [<-|[]]. eauto.
Qed.
Lemma rec_msg m : msg_of_rec (rec_of_msg m) = m.
Proof. now destruct m as [[? ?] ?]. Qed.
Lemma tr_log_prefix t p A B : A `prefix_of` B -> exists l, tr_log t p B = tr_log t p A ++ l.
Proof. intros [k ->]. rewrite tr_log_app. eauto. Qed.

Section Loop.
Context (port : Z) (ch : list nat) (t : bytes) (p : Z) (g : bytes).

Lemma gets_prefix A o batch A' : gets_batch port ch t p A o batch A' -> A `prefix_of` A'.
Proof. intros (c & corr & client & r & w & mb & max & er & hw & _ & _ & _ & _ & (s & evs & s' & B & _ & _ & _ & _ & _ & ->)). now apply prefix_app_r. Qed.

Lemma round A A1 o A1' A2 batch A2' A3 A3' :
  A `prefix_of` A1 -> asks_offset port ch t p g A1 o A1' ->
  A1' `prefix_of` A2 -> gets_batch port ch t p A2 o batch A2' ->
  A2' `prefix_of` A3 -> unmoved t p g A A3 ->
  commits_to port ch t p g A3 (o + zlen batch) A3' ->
  posts_small A3' -> 0 <= tr_off t p g A -> l_i64 (tr_off t p g A) = true ->
  A `prefix_of` A3' /\
  o = tr_off t p g A /\
  batch = firstn (length batch) (skipn (Z.to_nat o) (map msg_of_rec (tr_log t p A3'))) /\
  tr_off t p g A3' = o + zlen batch /\ l_i64 (o + zlen batch) = true /\
  (zlen (tr_log t p A2) <= o + zlen batch \/ tr_has t p A2 = false).
Proof.
  intros HA1 Hq H12 Hb H23 (D & -> & HD) Hc Hsm Hpos Hi.
  destruct (commits_right _ _ _ _ _ _ _ _ Hc) as (H33 & Hoff & Hi').
  destruct (asks_right _ _ _ _ _ _ _ _ Hq) as (X & HX1 & HX2 & HX).
  pose proof (gets_prefix _ _ _ _ Hb) as H22.
  assert (Hsame : forall Y, A `prefix_of` Y -> Y `prefix_of` (A ++ D) -> tr_off t p g Y = tr_off t p g A).
  { intros Y [k ->] [k' Hk']. rewrite <- app_assoc in Hk'. apply app_inv_head in Hk'. subst D.
    unfold tr_off. rewrite fold_left_app. apply off_unmoved. intros x Hx. apply HD. apply in_or_app. now left. }
  assert (HA1' : A1 `prefix_of` A1') by (destruct Hq as (? & ? & ? & ? & ? & _ & _ & _ & _ & (? & ? & ? & ? & _ & _ & _ & _ & _ & ->)); now apply prefix_app_r).
  assert (o = tr_off t p g A) as ->.
  { apply w_int64_inj; [now destruct Hq as (? & ? & ? & ? & ? & _ & _ & _ & Ho & _)|assumption|]. rewrite HX. f_equal.
    apply Hsame; etransitivity; eauto. etransitivity; eauto. etransitivity; eauto. }
  set (o := tr_off t p g A) in *.
  assert (H3 : A2' `prefix_of` A3') by (etransitivity; eauto).
  assert (HsmB : posts_small A2').
  { intros i t' p' r' Hi2. apply (Hsm i t' p' r'). destruct H3 as [k ->]. apply in_or_app. now left. }
  destruct (gets_right _ _ _ _ _ _ _ _ Hb Hpos HsmB) as (rs & Y1 & Y2 & HY1 & HY2 & HY3 & Henc & Hrs & Hsome).
  assert (Hlegal : Forall rec_legal rs).
  { apply List.Forall_forall. intros r Hr. assert (Hr' : In r (tr_log t p A3')).
    { rewrite Hrs in Hr. destruct (tr_log_prefix t p Y2 A3') as [l ->]; [etransitivity; eauto|]. apply in_or_app. left.
      rewrite <- (firstn_skipn (Z.to_nat o) (tr_log t p Y2)). apply in_or_app. right.
      rewrite <- (firstn_skipn (length rs) (skipn _ _)). apply in_or_app. now left. }
    apply log_posted in Hr' as [i Hr']. split; [now apply (Hsm _ _ _ _ Hr')|].
    assert (exists evs s, run (init port ch) evs = (s, A3')) as (evs & s & Hrun).
    { destruct Hc as (? & ? & ? & ? & ? & ? & ? & _ & _ & _ & He & _). eapply dialogue_run; [|exact He]. apply reply_nonempty. }
    destruct (run64 _ _ _ _ (init64 _ _) Hrun) as [_ Ho]. rewrite List.Forall_forall in Ho. apply int64_l. exact (Ho _ Hr'). }
  assert (Hmsgs : map msg_of_rec (map rec_of_msg batch) = map msg_of_rec rs).
  { apply (w_records_inj _ _ o); [|assumption..].
    destruct Hb as (? & ? & ? & ? & ? & ? & ? & ? & ? & _ & _ & _ & Hok & _).
    apply Forall_map. eapply Forall_impl; [exact Hok|]. intros y [? ?]. now split. }
  rewrite map_map in Hmsgs. rewrite (map_ext _ (fun x => x) rec_msg), map_id in Hmsgs.
  assert (Hlen : length batch = length rs) by (rewrite Hmsgs; apply map_length).
  assert (Hz : zlen batch = zlen rs) by (unfold zlen; now rewrite Hlen).
  split; [transitivity (A ++ D); [now apply prefix_app_r|assumption]|]. split; [reflexivity|]. split; [|split; [|split]].
  - destruct (tr_log_prefix t p Y2 A3') as [l ->]; [etransitivity; eauto|].
    rewrite <- map_firstn_skipn, Hlen, <- (firstn_grow rs _ _ _ Hrs). exact Hmsgs.
  - rewrite Hoff. rewrite (Hsame (A ++ D)); [|now apply prefix_app_r|reflexivity]. fold o. assert (0 <= zlen batch) by (unfold zlen; lia). lia.
  - assumption.
  - destruct (tr_log_prefix t p A2 Y1 HY1) as [l Hl]. rewrite Hz. destruct Hsome as [Hno|Hle].
    + right. destruct HY1 as [k ->]. rewrite tr_has_app in Hno. now destruct (tr_has t p A2).
    + left. rewrite Hl, zlen_app in Hle. assert (0 <= zlen l) by (unfold zlen; lia). lia.
Qed.

Lemma no_records A : (exists evs s, run (init port ch) evs = (s, A)) -> tr_has t p A = false -> tr_log t p A = [].
Proof.
  intros (evs & s & Hr) Hh. rewrite <- (reach_records _ _ _ _ _ Hr). pose proof (init_run_inv _ _ _ _ _ Hr) as Hi.
  unfold records_of. destruct (sDs s !! t) as [kt|] eqn:E1; [|reflexivity]. destruct (kt !! p) as [kp|] eqn:E2; [|reflexivity].
  exfalso. assert (Hp : has_part s t p) by (exists kt, kp; auto). apply (inv_part _ _ _ _ Hi) in Hp. congruence.
Qed.

Theorem consumer_loop A0 A got F : consumes port ch t p g A0 A got F -> posts_small A ->
  let o := tr_off t p g A0 in 0 <= o -> l_i64 o = true ->
  A0 `prefix_of` A /\ F `prefix_of` A /\
  got = firstn (length got) (skipn (Z.to_nat o) (map msg_of_rec (tr_log t p A))) /\
  tr_off t p g A = o + zlen got /\ l_i64 (o + zlen got) = true /\
  zlen (tr_log t p F) <= o + zlen got.
Proof.
  intros H Hsm o Hpos Hi. induction H as [|A got F A1 o1 A1' A2 batch A2' A3 A3' H IH HA1 Hq H12 Hb H23 Hun Hc].
  - split_and!; try reflexivity.
    + apply prefix_nil.
    + unfold o. cbn. unfold zlen. cbn. lia.
    + unfold zlen. cbn. now rewrite Z.add_0_r.
    + unfold zlen. cbn. lia.
  - assert (HA3 : A `prefix_of` A3') by (destruct (commits_right _ _ _ _ _ _ _ _ Hc) as [H33 _], Hun as (D & -> & _); etransitivity; [|exact H33]; now apply prefix_app_r).
    destruct IH as (I1 & I2 & I3 & I4 & I5 & I6).
    { intros i t' p' r' Hx. apply (Hsm i t' p' r'). destruct HA3 as [k ->]. apply in_or_app. now left. }
    assert (Z0 : 0 <= zlen got /\ 0 <= zlen batch) by (unfold zlen; lia).
    destruct (round _ _ _ _ _ _ _ _ _ HA1 Hq H12 Hb H23 Hun Hc Hsm) as (R1 & -> & R3 & R4 & R5 & R6); [rewrite I4; lia|now rewrite I4|].
    rewrite I4 in *. rewrite zlen_app.
    assert (HF : A2 `prefix_of` A3').
    { etransitivity; [eapply gets_prefix, Hb|]. etransitivity; [exact H23|]. now destruct (commits_right _ _ _ _ _ _ _ _ Hc). }
    split; [etransitivity; eauto|]. split; [exact HF|]. split; [|split; [|split]].
    + apply firstn_join.
      * destruct (tr_log_prefix t p A A3' R1) as [l ->]. rewrite map_app. now apply firstn_grow.
      * rewrite R3 at 1. f_equal. f_equal. unfold zlen. lia.
    + lia.
    + now rewrite Z.add_assoc.
    + destruct R6 as [R6|R6]; [lia|].
      assert (Hn : tr_log t p A2 = []).
      { destruct Hb as (? & ? & ? & ? & ? & ? & ? & ? & ? & _ & _ & _ & _ & (s & ? & ? & ? & (e0 & s0 & ? & ? & H0 & _) & _)).
        apply no_records; eauto. }
      rewrite Hn. unfold zlen at 1. cbn. lia.
Qed.
End Loop.

Theorem consumer_reset port ch t p g i k A0 A got F :
  consumes port ch t p g (A0 ++ [OSet i t p g k; OReturn i]) A got F -> posts_small A -> 0 <= k <= 9223372036854775807 ->
  got = firstn (length got) (skipn (Z.to_nat k) (map msg_of_rec (tr_log t p A))) /\
  zlen (tr_log t p F) <= k + zlen got.
Proof.
  intros H Hsm Hk. assert (E : tr_off t p g (A0 ++ [OSet i t p g k; OReturn i]) = k).
  { unfold tr_off. rewrite fold_left_app. cbn. now rewrite same_refl, bool_decide_true. }
  pose proof (consumer_loop _ _ _ _ _ _ _ _ _ H Hsm) as K. cbv zeta in K. rewrite E in K.
  destruct K as (_ & _ & K1 & _ & _ & K2); [lia|unfold l_i64; lia|]. auto.
Qed.

(** A dialogue in a given run. *)
Definition dialogue_check (port : Z) (ch : list nat) (e0 : list event) (c : nat) (ch' : Server.choice) (e1 : list event) (m r : bytes) : bool :=
  let s0 := fst (run (init port ch) e0) in
  let '(s, o) := step s0 (EvConn c ch') in
  let B := snd (run s e1) in
  match o with [OFrame c' m'] => Nat.eqb c c' && beqb m m' | _ => false end &&
  forallb (fun e => match e with EvSendFail _ _ => false | _ => true end) e1 &&
  match frames c B with [] => true | _ => false end && beqb (writes c B) r.
Lemma dialogue_intro port ch e0 c ch' e1 m r : dialogue_check port ch e0 c ch' e1 m r = true ->
  dialogue port ch (snd (run (init port ch) e0)) c m r (snd (run (init port ch) (e0 ++ EvConn c ch' :: e1))).
Proof.
  unfold dialogue_check. rewrite run_app. cbn [fst snd run].
  destruct (run (init port ch) e0) as [s0 A] eqn:E0. cbn [fst snd].
  destruct (step s0 (EvConn c ch')) as [s o] eqn:E1. destruct (run s e1) as [s' B] eqn:E2. cbn [fst snd].
  intros H. repeat (apply andb_true_iff in H as [H ?]).
  destruct o as [|[] [|? ?]]; try discriminate. apply andb_true_iff in H as [Hc Hm]. apply Nat.eqb_eq in Hc as <-.
  unfold beqb in *. apply bool_decide_eq_true in Hm as <-, H0 as <-.
  exists s, e1, s', B. split; [exists e0, s0, (EvConn c ch'), []; auto|]. split; [assumption|]. split.
  { intros gone Hin. rewrite forallb_forall in H2. specialize (H2 _ Hin). discriminate. }
  split; [now destruct (frames c B)|]. split; [reflexivity|]. reflexivity.
Qed.
