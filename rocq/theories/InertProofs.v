(** * InertProofs: what the records say steers nothing *)
From Verif Require Export InertSpec Demo HeaderProofs ListProofs FetchEnc RejectProofs.
From stdpp Require Import gmap list.
From Coq Require Import ZifyBool ZifyNat.
Open Scope Z_scope.
Open Scope list_scope.

(** ** Blanked records *)
Definition er_bytes (o : option bytes) : option bytes := Some (repeat 0 (size_of o)).
Definition er_rec (r : krecord) : krecord := Rec (rAttr r) 0 (er_bytes (rKey r)) (er_bytes (rVal r)) [].
Lemma er_rec_iff r r' : er_rec r = er_rec r' <-> alike_rec r r'.
Proof.
  unfold er_rec, er_bytes, alike_rec. split.
  - intros [= H1 H2 H3]. apply (f_equal (@Datatypes.length Z)) in H2, H3. rewrite !repeat_length in H2, H3. auto.
  - intros (-> & -> & ->). reflexivity.
Qed.
Definition er_part (kp : kpart) : kpart := Part (pIndex kp) (pError kp) (map er_rec (pRecs kp)) (pOffs kp) (pMeta kp).
Definition er_topic (kt : ktopic) : ktopic := er_part <$> kt.
Definition er_store (ds : store) : store := er_topic <$> ds.

Lemma er_get ds t : er_store ds !! t = er_topic <$> ds !! t.
Proof. apply lookup_fmap. Qed.
Lemma er_getTopic ds t : getTopic (er_store ds) t = getTopic ds t.
Proof. unfold getTopic. rewrite er_get. now destruct (ds !! t). Qed.
Lemma er_lookupPart ds t p : lookupPart (er_store ds) t p = option_map er_part (lookupPart ds t p).
Proof. unfold lookupPart. rewrite er_get. destruct (ds !! t) as [kt|]; [|reflexivity]. cbn. unfold er_topic. rewrite lookup_fmap. now destruct (kt !! p). Qed.
Lemma er_hasPart ds t p : hasPart (er_store ds) t p = hasPart ds t p.
Proof. unfold hasPart. rewrite er_lookupPart. now destruct (lookupPart ds t p). Qed.
Lemma er_createTopic ds t : createTopic (er_store ds) t = er_store (createTopic ds t).
Proof.
  unfold createTopic. rewrite er_get. destruct (ds !! t); [reflexivity|]. cbn. unfold er_store. rewrite fmap_insert. f_equal.
  unfold er_topic. now rewrite fmap_empty.
Qed.
Lemma er_createPartition ds t p : createPartition (er_store ds) t p = er_store (createPartition ds t p).
Proof.
  unfold createPartition. rewrite er_get. destruct (ds !! t) as [kt|]; [|reflexivity]. cbn.
  unfold er_topic at 1. rewrite lookup_fmap. destruct (kt !! p); [reflexivity|]. cbn. unfold er_store. rewrite fmap_insert. f_equal.
  unfold er_topic. now rewrite fmap_insert.
Qed.
Lemma er_updPart ds t p f f' : (forall kp, f' (er_part kp) = er_part (f kp)) -> updPart (er_store ds) t p f' = er_store (updPart ds t p f).
Proof.
  intros H. unfold updPart. rewrite er_get. destruct (ds !! t) as [kt|]; [|reflexivity]. cbn.
  unfold er_topic at 1. rewrite lookup_fmap. destruct (kt !! p) as [kp|]; [|reflexivity]. cbn. rewrite H. unfold er_store. rewrite fmap_insert. f_equal.
  unfold er_topic. now rewrite fmap_insert.
Qed.
Lemma er_postRecord ds t p r : postRecord (er_store ds) t p (er_rec r) = er_store (postRecord ds t p r).
Proof. apply er_updPart. intros kp. unfold er_part. cbn. now rewrite map_app. Qed.
Lemma er_setOffset ds t p g o : setOffset (er_store ds) t p g o = er_store (setOffset ds t p g o).
Proof. apply er_updPart. reflexivity. Qed.
Lemma er_touchGroup ds t p g : touchGroup (er_store ds) t p g = er_store (touchGroup ds t p g).
Proof.
  unfold touchGroup. rewrite er_lookupPart. destruct (lookupPart ds t p) as [kp|]; [|reflexivity]. cbn.
  destruct (pOffs kp !! g); [reflexivity|]. apply er_setOffset.
Qed.
Lemma er_commitOffset ds t p g o : commitOffset (er_store ds) t p g o = er_store (commitOffset ds t p g o).
Proof.
  unfold commitOffset. rewrite er_lookupPart. destruct (lookupPart ds t p) as [kp|]; [|reflexivity]. cbn.
  change (offsetOf (er_part kp) g) with (offsetOf kp g). destruct (offsetOf kp g <? o); [|reflexivity]. apply er_setOffset.
Qed.

(** ** Handlers *)
Lemma er_assign l : forall chs, assign_topics (map (fun q => (fst q, er_topic (snd q))) l) chs = assign_topics l chs.
Proof.
  induction l as [|[n kt] l IH]; intros chs; [reflexivity|]. cbn [map assign_topics fst snd]. rewrite IH. f_equal. f_equal. f_equal.
  unfold er_topic. rewrite map_to_list_order, shuffle_map, map_map. reflexivity.
Qed.
Lemma er_sync ds ch chs : syncReply (er_store ds) ch chs = syncReply ds ch chs.
Proof.
  unfold syncReply, makeMemberAssignment, memberAssignmentVal. unfold er_store. rewrite map_to_list_order, shuffle_map, er_assign. reflexivity.
Qed.

(** ** Handlers *)
Definition mlike (m m' : message) : Prop := size_of (mKey m) = size_of (mKey m') /\ size_of (mVal m) = size_of (mVal m').
Definition fdlike (f f' : fdata) : Prop :=
  fdKp f = fdKp f' /\ fdOff f = fdOff f' /\ fdMax f = fdMax f' /\
  msOffset (fdMs f) = msOffset (fdMs f') /\ msTotal (fdMs f) = msTotal (fdMs f') /\ Forall2 mlike (msMsgs (fdMs f)) (msMsgs (fdMs f')).
Definition acclike (a a' : list (bytes * list (Z * (Z * Z * Z)))) : Prop :=
  Forall2 (fun x y => fst x = fst y /\ length (snd x) = length (snd y)) a a'.
Definition leq (a b : option bytes) : Prop :=
  match a, b with Some x, Some y => length x = length y | None, None => True | _, _ => False end.

Definition tklike (b : bool) (tk tk' : task) : Prop :=
  match tk with
  | TkFetchOpen rq ops kt fds => b = true /\ exists fds', tk' = TkFetchOpen rq ops kt fds' /\ Forall2 fdlike fds fds'
  | TkFetchScan rq exp h m dn td => b = true /\ exists dn' td', tk' = TkFetchScan rq exp h m dn' td' /\ Forall2 fdlike dn dn' /\ Forall2 fdlike td td'
  | TkFetchPoll rq exp fds => b = true /\ exists fds', tk' = TkFetchPoll rq exp fds' /\ Forall2 fdlike fds fds'
  | TkFetchSleep rq exp wk fds => b = true /\ exists fds', tk' = TkFetchSleep rq exp wk fds' /\ Forall2 fdlike fds fds'
  | TkList rq ops kt pend acc => b = true /\ exists acc', tk' = TkList rq ops kt pend acc' /\ acclike acc acc'
  | TkRet t v => exists v', tk' = TkRet t v' /\ (v = v' \/ b = true /\ leq (encodeObject t v) (encodeObject t v'))
  | _ => tk' = tk
  end.

Lemma look2 ds ds' t p : er_store ds = er_store ds' -> option_map er_part (lookupPart ds t p) = option_map er_part (lookupPart ds' t p).
Proof. intros H. now rewrite <- !er_lookupPart, H. Qed.
Lemma topic2 ds ds' t : er_store ds = er_store ds' -> getTopic ds t = getTopic ds' t.
Proof. intros H. now rewrite <- (er_getTopic ds), H, er_getTopic. Qed.
Lemma has2 ds ds' t p : er_store ds = er_store ds' -> hasPart ds t p = hasPart ds' t p.
Proof. intros H. now rewrite <- (er_hasPart ds), H, er_hasPart. Qed.
Lemma sync2 ds ds' a b : er_store ds = er_store ds' -> syncReply ds a b = syncReply ds' a b.
Proof. intros H. now rewrite <- (er_sync ds), H, er_sync. Qed.

Lemma olen_size o : olen o = Z.of_nat (size_of o).
Proof. now destruct o. Qed.
Lemma append2 f f' r r' : fdlike f f' -> alike_rec r r' ->
  match appendMessage (fdMs f) r (fdMax f), appendMessage (fdMs f') r' (fdMax f') with
  | Some m, Some m' => msOffset m = msOffset m' /\ msTotal m = msTotal m' /\ Forall2 mlike (msMsgs m) (msMsgs m')
  | None, None => True
  | _, _ => False
  end.
Proof.
  intros (_ & _ & Hm & Ho & Ht & Hl) (_ & Hk & Hv). unfold appendMessage. rewrite !olen_size, Hk, Hv, Hm, Ht.
  destruct (fdMax f' <? _); [trivial|]. cbn. rewrite Ho. split; [reflexivity|]. split; [reflexivity|].
  apply Forall2_app; [assumption|]. repeat constructor; cbn; assumption.
Qed.
Lemma fetchOne2 ds ds' f f' : er_store ds = er_store ds' -> fdlike f f' ->
  match fetchOne ds f, fetchOne ds' f' with
  | Some (g, b), Some (g', b') => fdlike g g' /\ b = b'
  | None, None => True
  | _, _ => False
  end.
Proof.
  intros H Hf. unfold fetchOne. pose proof Hf as (Hk & Ho & Hm & _). rewrite <- Hk, <- Ho.
  destruct (fdKp f) as [[t p]|] eqn:Ek; [|auto]. pose proof (look2 _ _ t p H) as Hl.
  destruct (lookupPart ds t p) as [kp|], (lookupPart ds' t p) as [kp'|]; try discriminate; [|auto]. injection Hl as _ _ Hr _ _.
  assert (Hz : zlen (pRecs kp) = zlen (pRecs kp')).
  { unfold zlen. apply (f_equal (@Datatypes.length krecord)) in Hr. rewrite !map_length in Hr. now rewrite Hr. }
  rewrite <- Hz. destruct (fdOff f <? zlen (pRecs kp)); [|auto]. destruct (fdOff f <? 0); [trivial|].
  assert (Hn := f_equal (fun l => nth_error l (Z.to_nat (fdOff f))) Hr). cbn in Hn. rewrite !nth_error_map in Hn.
  destruct (nth_error (pRecs kp) _) as [r|], (nth_error (pRecs kp') _) as [r'|]; try discriminate; [|trivial].
  assert (Hrr : er_rec r = er_rec r') by (change (Some (er_rec r) = Some (er_rec r')) in Hn; congruence). apply er_rec_iff in Hrr.
  pose proof (append2 _ _ _ _ Hf Hrr) as Ha.
  destruct (appendMessage (fdMs f) r (fdMax f)) as [m|], (appendMessage (fdMs f') r' (fdMax f')) as [m'|]; try contradiction; [|auto].
  destruct Ha as (A1 & A2 & A3). split; [|reflexivity]. unfold fdlike. cbn. auto 10.
Qed.

(** ** Lengths of replies *)
Lemma vb_encs o : exists b, encs (TSlice TUint8) (vbytes o) b /\ length b = (4 + size_of o)%nat.
Proof.
  destruct o as [l|]; [|eexists; split; [intros n; reflexivity|reflexivity]].
  assert (E : val_bytes (map VInt l) = Some (map (uwrap 8) l)).
  { induction l as [|x l IH]; [reflexivity|]. cbn [map].
    change (val_bytes (VInt x :: map VInt l)) with (match val_bytes (map VInt l) with Some r => Some (uwrap 8 x :: r) | None => None end). now rewrite IH. }
  exists (enc_nbytes (Some (map (uwrap 8) l))). split; [intros n; cbn [vbytes option_map enc]; now rewrite E|].
  cbn [enc_nbytes size_of]. rewrite app_length, map_length. reflexivity.
Qed.

Lemma msg_encs m : exists b, encs tMessageV1 (message_val m) b /\ length b = (34 + size_of (mKey m) + size_of (mVal m))%nat.
Proof.
  destruct (vb_encs (mKey m)) as (bk & Hk & Lk). destruct (vb_encs (mVal m)) as (bv & Hv & Lv).
  exists (w_int64 (mOffset m) ++ w_int32 (mSize m) ++ w_int32 (mCrc m) ++ w_int8 (mMagic m) ++ w_int8 (mAttr m) ++ w_int64 (mTs m) ++ bk ++ bv). split.
  - unfold message_val. eapply encs_eq; [autounfold with wire; repeat encs_step; [exact Hk|exact Hv]|]. now rewrite app_nil_r.
  - rewrite !app_length, Lk, Lv. cbn. lia.
Qed.
Definition msg_bytes (m : message) : bytes := default [] (enc tMessageV1 false false (message_val m)).
Lemma msg_bytes_encs m : encs tMessageV1 (message_val m) (msg_bytes m) /\ length (msg_bytes m) = (34 + size_of (mKey m) + size_of (mVal m))%nat.
Proof. destruct (msg_encs m) as (b & Hb & Lb). unfold msg_bytes. rewrite (Hb false). cbn. auto. Qed.
Definition fd_bytes (fd : fdata) : bytes := w_int32 (msTotal (fdMs fd)) ++ concat (map msg_bytes (msMsgs (fdMs fd))).
Lemma fd_bytes_encs fd : encs (TPtr (TMsgSet tMessageV1)) (VPtr (Some (VMsgSet (msTotal (fdMs fd)) (map message_val (msMsgs (fdMs fd)))))) (fd_bytes fd).
Proof. apply encs_msgset. intros m _. apply msg_bytes_encs. Qed.
Lemma fd_bytes_len f f' : fdlike f f' -> length (fd_bytes f) = length (fd_bytes f').
Proof.
  intros (_ & _ & _ & _ & _ & H). unfold fd_bytes. rewrite !app_length. f_equal.
  induction H as [|m m' l l' [H1 H2] _ IH]; [reflexivity|]. cbn [map concat]. rewrite !app_length, IH.
  rewrite (proj2 (msg_bytes_encs m)), (proj2 (msg_bytes_encs m')), H1, H2. reflexivity.
Qed.
Lemma concat_len (l l' : list bytes) : Forall2 (fun a b => length a = length b) l l' -> length (concat l) = length (concat l').
Proof. induction 1 as [|a b l l' H _ IH]; [reflexivity|]. cbn. now rewrite !app_length, H, IH. Qed.
Lemma w_array_len {X Y} (f : X -> bytes) (g : Y -> bytes) l l' : Forall2 (fun a b => length (f a) = length (g b)) l l' ->
  length (w_array f l) = length (w_array g l').
Proof.
  intros H. unfold w_array. rewrite !app_length. f_equal. apply concat_len.
  induction H; cbn; constructor; auto.
Qed.
Lemma ftopics_len ts : forall fds fds', Forall2 fdlike fds fds' ->
  length (concat (ftopics fd_bytes ts fds)) = length (concat (ftopics fd_bytes ts fds')).
Proof.
  induction ts as [|[n ps] ts IH]; intros fds fds' H; [reflexivity|]. destruct H as [|f f' fds fds' Hf H]; [reflexivity|].
  cbn [ftopics concat]. rewrite !app_length, (IH _ _ H). f_equal. f_equal. apply w_array_len.
  induction ps as [|p ps IHp]; constructor; [|exact IHp].
  unfold fpart_bytes. rewrite !app_length, (fd_bytes_len _ _ Hf). reflexivity.
Qed.
Lemma fetchVals2 ts : forall fds fds', Forall2 fdlike fds fds' ->
  fetchTopicVals ts fds = None <-> fetchTopicVals ts fds' = None.
Proof.
  induction ts as [|[n ps] ts IH]; intros fds fds' H; cbn; [split; discriminate|]. destruct H as [|f f' fds fds' _ H]; [tauto|].
  specialize (IH _ _ H). destruct (fetchTopicVals ts fds), (fetchTopicVals ts fds'); split; intros; try discriminate; try tauto; exfalso; destruct IH as [I1 I2]; (discriminate (I1 eq_refl) || discriminate (I2 eq_refl)).
Qed.
Lemma fetchFinish2 ds ds' rq fds fds' : er_store ds = er_store ds' -> Forall2 fdlike fds fds' ->
  match fetchFinish ds rq fds, fetchFinish ds' rq fds' with
  | TCont d tk o, TCont d' tk' o' => er_store d = er_store d' /\ tklike true tk tk' /\ o = o'
  | TPanic, TPanic => True
  | _, _ => False
  end.
Proof.
  intros H Hf. unfold fetchFinish. pose proof (fetchVals2 (fqTopics rq) _ _ Hf) as Hn.
  destruct (fetchReply rq fds) as [v|] eqn:E, (fetchReply rq fds') as [v'|] eqn:E'.
  - split; [assumption|]. split; [|reflexivity]. exists v'. split; [reflexivity|]. right. split; [reflexivity|].
    rewrite (fetchReply_enc fd_bytes fds (fun fd _ => fd_bytes_encs fd) rq v E), (fetchReply_enc fd_bytes fds' (fun fd _ => fd_bytes_encs fd) rq v' E').
    cbn [leq]. rewrite !app_length. rewrite (ftopics_len (fqTopics rq) _ _ Hf). reflexivity.
  - unfold fetchReply in *. destruct (fetchTopicVals _ fds) eqn:F, (fetchTopicVals _ fds'); try discriminate. destruct Hn as [_ Hn]. discriminate (Hn eq_refl).
  - unfold fetchReply in *. destruct (fetchTopicVals _ fds) eqn:F, (fetchTopicVals _ fds'); try discriminate. destruct Hn as [Hn _]. discriminate (Hn eq_refl).
  - trivial.
Qed.
Lemma list_enc2 acc acc' : acclike acc acc' ->
  leq (encodeObject (TPtr tListResp) (VPtr (Some (listReply acc)))) (encodeObject (TPtr tListResp) (VPtr (Some (listReply acc')))).
Proof.
  intros H. rewrite !list_resp_enc. cbn [leq]. unfold w_list_resp. apply w_array_len.
  induction H as [|[n l] [n' l'] acc acc' [Hn Hl] _ IH]; cbn [map]; constructor; [|exact IH]. cbn [fst snd] in *. subst n'.
  rewrite !app_length. f_equal. apply w_array_len. clear - Hl. revert l' Hl. induction l as [|e l IHl]; intros [|e' l'] Hl; try discriminate; cbn [map]; constructor.
  - destruct (list_ent e) as [[[? ?] ?] ?], (list_ent e') as [[[? ?] ?] ?]. rewrite !app_length. reflexivity.
  - apply IHl. now injection Hl.
Qed.
Lemma add_last2 acc acc' x x' : acclike acc acc' -> acclike (add_last x acc) (add_last x' acc').
Proof.
  induction 1 as [|a b acc acc' [H1 H2] H IH]; [constructor|]. cbn [add_last]. destruct a as [n l], b as [n' l']. cbn in H1, H2. subst n'.
  destruct H as [|c d acc acc' Hc H].
  - constructor; [|constructor]. cbn. rewrite !app_length, H2. auto.
  - constructor; [auto|]. exact IH.
Qed.

Lemma tstep2 b c e e' ch ds ds' tk tk' : er_store ds = er_store ds' -> tklike b tk tk' ->
  eMono e = eMono e' -> eCancel e = eCancel e' -> eVers e = eVers e' -> is_ret tk = false ->
  match tstep c e ch ds tk, tstep c e' ch ds' tk' with
  | TCont d t o, TCont d' t' o' => er_store d = er_store d' /\ tklike b t t' /\ o = o'
  | TPanic, TPanic => True
  | _, _ => False
  end.
Proof.
  intros H Ht Hm Hc Hv Hr. destruct tk; try discriminate; cbn [tklike] in Ht.
  - subst tk'. cbn. rewrite Hv. split; [assumption|]. split; [eexists; split; [reflexivity|now left]|reflexivity].
  - subst tk'. cbn. rewrite (sync2 _ _ _ _ H). destruct (syncReply ds' _ _); [|trivial].
    split; [assumption|]. split; [eexists; split; [reflexivity|now left]|reflexivity].
  - destruct Ht as (-> & fds' & -> & Hf). cbn. destruct ops as [|[n|p] ops].
    + split; [assumption|]. split; [|reflexivity]. split; [reflexivity|]. rewrite Hm. eauto.
    + split; [assumption|]. split; [|reflexivity]. split; [reflexivity|]. rewrite (topic2 _ _ _ H). eauto.
    + split; [assumption|]. split; [|reflexivity]. split; [reflexivity|]. eexists. split; [reflexivity|]. apply Forall2_app; [assumption|].
      constructor; [|constructor]. unfold fdlike. cbn. destruct kt; [rewrite (has2 _ _ _ _ H)|]; auto 10.
  - destruct Ht as (-> & dn' & td' & -> & Hd & Ht). cbn. destruct Ht as [|f f' td td' Hf Ht].
    + destruct more.
      * split; [assumption|]. split; [|reflexivity]. split; [reflexivity|]. eauto.
      * rewrite Hm. destruct (hasOne || (exp <? eMono e')); [now apply fetchFinish2|].
        split; [assumption|]. split; [|reflexivity]. split; [reflexivity|]. eauto.
    + pose proof (fetchOne2 _ _ _ _ H Hf) as Ho. destruct (fetchOne ds f) as [[g gb]|], (fetchOne ds' f') as [[g' gb']|]; try contradiction; [|trivial].
      destruct Ho as [Hg ->]. split; [assumption|]. split; [|reflexivity]. split; [reflexivity|].
      eexists _, _. split; [reflexivity|]. split; [|assumption]. apply Forall2_app; [assumption|]. now constructor.
  - destruct Ht as (-> & fds' & -> & Hf). cbn. rewrite Hc. destruct (eCancel e'); [now apply fetchFinish2|].
    split; [assumption|]. split; [|reflexivity]. split; [reflexivity|]. rewrite Hm. eauto.
  - destruct Ht as (-> & fds' & -> & Hf). cbn. rewrite Hm. destruct (wake <=? eMono e').
    + split; [assumption|]. split; [|reflexivity]. split; [reflexivity|]. eauto.
    + split; [assumption|]. split; [|reflexivity]. split; [reflexivity|]. eauto.
  - subst tk'. cbn. destruct pend as [p|].
    + destruct kt as [n|]; (split; [|split; reflexivity]); [|assumption]. now rewrite <- !er_commitOffset, H.
    + destruct ops as [|[n|p] ops].
      * split; [assumption|]. split; [eexists; split; [reflexivity|now left]|reflexivity].
      * rewrite (topic2 _ _ _ H). split; [assumption|]. split; reflexivity.
      * destruct kt as [n|]; [rewrite (has2 _ _ _ _ H); destruct (hasPart ds' _ _)|]; (split; [assumption|]; split; reflexivity).
  - destruct Ht as (-> & acc' & -> & Ha). cbn. destruct pend as [p|].
    + destruct kt as [n|]; (split; [assumption|]; split; [|reflexivity]); (split; [reflexivity|]); eexists; (split; [reflexivity|]); [now apply add_last2|assumption].
    + destruct ops as [|[n|p] ops].
      * split; [assumption|]. split; [|reflexivity]. eexists. split; [reflexivity|]. right. split; [reflexivity|]. now apply list_enc2.
      * rewrite (topic2 _ _ _ H). split; [assumption|]. split; [|reflexivity]. split; [reflexivity|]. eexists. split; [reflexivity|].
        apply Forall2_app; [assumption|]. repeat constructor.
      * destruct kt as [n|]; [rewrite (has2 _ _ _ _ H); destruct (hasPart ds' _ _)|];
        (split; [assumption|]; split; [|reflexivity]; split; [reflexivity|]; eexists; split; [reflexivity|]); try assumption; now apply add_last2.
  - subst tk'. cbn. destruct ops as [|[n|p] ops].
    + split; [assumption|]. split; reflexivity.
    + rewrite (topic2 _ _ _ H). split; [assumption|]. split; reflexivity.
    + destruct kt as [n|]; [rewrite (has2 _ _ _ _ H); destruct (hasPart ds' _ _)|]; (split; [assumption|]; split; reflexivity).
  - subst tk'. cbn. destruct ops as [|[n|p] ops].
    + split; [assumption|]. split; [eexists; split; [reflexivity|now left]|reflexivity].
    + split; [assumption|]. split; reflexivity.
    + destruct kt as [n|]; [|trivial]. pose proof (look2 _ _ n p H) as Hl.
      destruct (lookupPart ds n p) as [kp|], (lookupPart ds' n p) as [kp'|]; try discriminate; [|trivial]. injection Hl as E1 E2 _ E4 E5.
      split; [now rewrite <- !er_touchGroup, H|]. split; [|reflexivity]. unfold offsetOf. rewrite E1, E2, E4, E5. reflexivity.
Qed.

(** ** Taking up a request *)
Lemma records_key m next key ver corr : all_bytes m = true ->
  peekObject m 0 tHeader0 = DOk next (VStruct [VInt key; VInt ver; VInt corr]) -> key = 1 \/ key = 2 -> asks_records m = true.
Proof.
  intros Hb H Hk. destruct (header_dec _ _ _ _ _ Hb H) as (_ & Hl & Hs & _).
  assert (E : firstn 2 m = w_int16 key).
  { assert (Hs' : firstn 8 m = w_int16 key ++ w_int16 ver ++ w_int32 corr) by exact Hs.
    replace (firstn 2 m) with (firstn 2 (firstn 8 m)) by (rewrite firstn_firstn; reflexivity). rewrite Hs'. reflexivity. }
  unfold asks_records. rewrite E. destruct Hk as [-> | ->]; reflexivity.
Qed.
Lemma begin2 port m corr extra tk : all_bytes m = true -> beginRequest port m = Some (corr, extra, tk) -> tklike (asks_records m) tk tk.
Proof.
  intros Hb. unfold beginRequest. destruct (peekObject m 0 tHeader0) as [next v| |] eqn:E; try discriminate.
  destruct v as [| | | | | | | |[|[|key| | | | | | | | |] [|[|ver| | | | | | | | |] [|[|co| | | | | | | | |] [|]]]]| |]; try discriminate.
  destruct (peekString m next) as [n2 cl| |]; try discriminate. destruct (dispatch key ver) as [a|] eqn:Ed; [|discriminate].
  destruct (startApi a port (discard m n2)) as [[rest tk']|] eqn:Es; [|discriminate]. intros [= <- <- <-].
  assert (Hrec : a = ApiFetch \/ a = ApiListOffsets -> asks_records m = true).
  { intros Ha. eapply records_key; [exact Hb|exact E|]. rewrite dispatch_supported in Ed. unfold supported in Ed.
    repeat match type of Ed with context [match ?x with _ => _ end] => destruct x; try discriminate end;
    try (injection Ed as <-; destruct Ha; discriminate); auto. }
  destruct a; cbn [startApi] in Es;
  unfold with_req in Es;
  repeat match type of Es with
  | context [if ?x =? 0 then _ else _] => destruct (x =? 0); [|discriminate]
  | context [match ?x with Some _ => _ | None => _ end] => destruct x as [?|]; [|discriminate]
  | context [let '(_, _) := ?x in _] => destruct x
  end;
  injection Es as <- <-; unfold ptr; cbn [tklike];
  first [reflexivity|eexists; split; [reflexivity|now left]|split; [apply Hrec; auto|]; eexists; split; [reflexivity|constructor]].
Qed.

(** ** The whole machine *)
Definition cslike (b : bool) (c c' : cstate) : Prop :=
  match c with
  | CBusy corr extra tk => exists tk', c' = CBusy corr extra tk' /\ tklike b tk tk'
  | CSend l => exists l', c' = CSend l' /\ Forall2 (fun x y => if b then length x = length y else x = y) l l'
  | _ => c' = c
  end.
Definition clike (b : bool) (k k' : conn) : Prop := cIn k = cIn k' /\ cslike b (cSt k) (cSt k').
Inductive alike_thread : athread -> athread -> Prop :=
| at_1 t p k v h ts k' v' h' ts' : size_of k = size_of k' -> size_of v = size_of v' -> alike_thread (APostTopic t p k v h ts) (APostTopic t p k' v' h' ts')
| at_2 t p k v h ts k' v' h' ts' : size_of k = size_of k' -> size_of v = size_of v' -> alike_thread (APostPart t p k v h ts) (APostPart t p k' v' h' ts')
| at_3 t p k v h ts k' v' h' ts' : size_of k = size_of k' -> size_of v = size_of v' -> alike_thread (APostNow t p k v h ts) (APostNow t p k' v' h' ts')
| at_4 t p r r' : alike_rec r r' -> alike_thread (APostRec t p r) (APostRec t p r')
| at_same a : alike_thread a a.
Record slike (now : nat -> bool) (s s' : sys) : Prop := {
  l_ds : er_store (sDs s) = er_store (sDs s');
  l_conns : length (sConns s) = length (sConns s') /\
    forall c k k', sConns s !! c = Some k -> sConns s' !! c = Some k' -> clike (now c) k k' /\ all_bytes (cIn k) = true;
  l_threads : Forall2 alike_thread (sThreads s) (sThreads s');
  l_mono : sMono s = sMono s';
  l_cancel : sCancel s = sCancel s';
  l_crash : sCrash s = sCrash s';
  l_port : sPort s = sPort s';
  l_vers : sVers s = sVers s'
}.
Lemma rec_refl r : alike_rec r r.
Proof. now unfold alike_rec. Qed.
Lemma astep2 i w w' ds ds' a a' now : er_store ds = er_store ds' -> alike_thread a a' ->
  let '(d, b, o) := astep i w ds a in let '(d', b', o') := astep i w' ds' a' in
  er_store d = er_store d' /\ alike_thread b b' /\ like_traces now o o' /\ (forall c m, ~ In (OFrame c m) o).
Proof.
  assert (T : forall t, er_store ds = er_store ds' -> er_store (createTopic ds t) = er_store (createTopic ds' t)) by (intros t E; now rewrite <- !er_createTopic, E).
  assert (P : forall t p, er_store ds = er_store ds' -> er_store (createPartition ds t p) = er_store (createPartition ds' t p)) by (intros t p E; now rewrite <- !er_createPartition, E).
  assert (R : forall t p r r', er_store ds = er_store ds' -> alike_rec r r' -> er_store (postRecord ds t p r) = er_store (postRecord ds' t p r')).
  { intros t p r r' E Er. apply er_rec_iff in Er. now rewrite <- !er_postRecord, E, Er. }
  assert (S : forall t p g x, er_store ds = er_store ds' -> er_store (setOffset ds t p g x) = er_store (setOffset ds' t p g x)) by (intros t p g x E; now rewrite <- !er_setOffset, E).
  intros H Ha. destruct Ha as [t p k v h ts k' v' h' ts' Hk Hv|t p k v h ts k' v' h' ts' Hk Hv|t p k v h ts k' v' h' ts' Hk Hv|t p r r' Hr|a]; cbn [astep].
  - split; [now apply T|]. split; [now constructor|]. split; [cbn; auto|]. intros c m [X|[]]; discriminate.
  - split; [now apply P|]. split; [now constructor|]. split; [cbn; auto|]. intros c m [X|[]]; discriminate.
  - split; [assumption|]. split; [constructor; unfold alike_rec; cbn; auto|]. split; [cbn; auto|]. intros c m [].
  - split; [now apply R|]. split; [constructor|]. split; [cbn; auto|]. intros c m [X|[X|[]]]; discriminate.
  - destruct a; cbn [astep]; try (split; [auto|]; split; [constructor; auto using rec_refl|]; split; [cbn; auto using rec_refl|]; intros c m X; cbn in X; intuition discriminate).
    + split; [assumption|]. split; [constructor; unfold alike_rec; cbn; auto|]. split; [cbn; auto|]. intros c m [].
    + split; [now apply R; [|apply rec_refl]|]. split; [constructor|]. split; [cbn; auto using rec_refl|]. intros c m X; cbn in X; intuition discriminate.
    + destruct ts as [|t ts]; (split; [auto|]; split; [constructor|]; split; [cbn; auto|]; intros c m X; cbn in X; intuition discriminate).
    + rewrite (topic2 _ _ t H). destruct (getTopic ds' t); (split; [auto|]; split; [constructor|]; split; [cbn; auto|]; intros c m X; cbn in X; intuition discriminate).
    + rewrite (has2 _ _ t (swrap 32 p) H). destruct (hasPart ds' t (swrap 32 p)); (split; [auto|]; split; [constructor|]; split; [cbn; auto|]; intros c m X; cbn in X; intuition discriminate).
Qed.

Fixpoint after (now : nat -> bool) (o : list obs) : nat -> bool :=
  match o with [] => now | x :: o' => after (next_now now x) o' end.
Lemma alike_app a : forall now b c d, like_traces now a b -> like_traces (after now a) c d -> like_traces now (a ++ c) (b ++ d).
Proof.
  induction a as [|x a IH]; intros now [|y b] c d H1 H2; try contradiction; [exact H2|]. destruct H1 as [Hx H1]. cbn. split; [assumption|]. now apply IH.
Qed.

Lemma set_conn2 now s s' c k k' d d' : slike now s s' -> er_store d = er_store d' -> clike (now c) k k' -> all_bytes (cIn k) = true ->
  slike now (set_conn s c k d) (set_conn s' c k' d').
Proof.
  intros [H1 [Hl H2] H3 H4 H5 H6 H7 H8] Hd Hk Hb. split; cbn; try assumption. split; [now rewrite !insert_length|].
  intros e x x' Hx Hx'. destruct (decide (e = c)) as [->|Hne].
  - rewrite list_lookup_insert in Hx by (apply lookup_lt_Some in Hx; now rewrite insert_length in Hx).
    rewrite list_lookup_insert in Hx' by (apply lookup_lt_Some in Hx'; now rewrite insert_length in Hx'). injection Hx as <-. injection Hx' as <-. auto.
  - rewrite list_lookup_insert_ne in Hx, Hx' by congruence. eauto.
Qed.
Lemma set_conn_now now now' s s' c k k' d d' : slike now s s' -> er_store d = er_store d' -> clike (now' c) k k' -> all_bytes (cIn k) = true ->
  (forall e, e <> c -> now' e = now e) -> slike now' (set_conn s c k d) (set_conn s' c k' d').
Proof.
  intros [H1 [Hl H2] H3 H4 H5 H6 H7 H8] Hd Hk Hb Hn. split; cbn; try assumption. split; [now rewrite !insert_length|].
  intros e x x' Hx Hx'. destruct (decide (e = c)) as [->|Hne].
  - rewrite list_lookup_insert in Hx by (apply lookup_lt_Some in Hx; now rewrite insert_length in Hx).
    rewrite list_lookup_insert in Hx' by (apply lookup_lt_Some in Hx'; now rewrite insert_length in Hx'). injection Hx as <-. injection Hx' as <-. auto.
  - rewrite list_lookup_insert_ne in Hx, Hx' by congruence. rewrite Hn by assumption. eauto.
Qed.
Lemma crash2 now s s' : slike now s s' -> slike now (crash s) (crash s').
Proof. intros []. now split. Qed.

Lemma finish2 b corr extra t v v' : v = v' \/ b = true /\ leq (encodeObject t v) (encodeObject t v') ->
  match finishRequest corr extra t v, finishRequest corr extra t v' with
  | Some l, Some l' => Forall2 (fun x y => if b then length x = length y else x = y) l l'
  | None, None => True
  | _, _ => False
  end.
Proof.
  intros H. unfold finishRequest. destruct extra; [|trivial]. destruct H as [<-|[-> H]].
  - destruct (encodeObject t v); [|trivial]. repeat constructor; now destruct b.
  - destruct (encodeObject t v) as [x|], (encodeObject t v') as [y|]; try contradiction; [|trivial]. cbn [leq] in H. repeat constructor; assumption.
Qed.
Lemma getMessage_bytes inb msg rest : all_bytes inb = true -> getMessage inb = GMsg msg rest -> all_bytes msg = true /\ all_bytes rest = true.
Proof.
  unfold getMessage. intros Hb. destruct (zlen inb <? 4); [discriminate|]. destruct (zlen inb <? _); [discriminate|]. destruct (_ <? 4); [discriminate|].
  intros [= <- <-]. split; [apply all_bytes_skipn, all_bytes_firstn, Hb|apply all_bytes_skipn, Hb].
Qed.
Lemma after_id o : forall now, (forall c m, ~ In (OFrame c m) o) -> after now o = now.
Proof.
  induction o as [|x o IH]; intros now H; [reflexivity|]. cbn. destruct x; cbn; try (apply IH; intros c' m' Hin; apply (H c' m'); now right).
  exfalso. eapply H. now left.
Qed.
Lemma same_obs now o : (forall x, In x o -> match x with OFrame _ _ => False | _ => True end) -> like_traces now o o.
Proof.
  induction o as [|x o IH]; intros H; [exact I|]. split.
  - destruct x; cbn; auto using rec_refl. split; [reflexivity|]. now destruct (now c).
  - replace (next_now now x) with now; [apply IH; intros y Hy; apply H; now right|]. specialize (H x (or_introl eq_refl)). now destruct x.
Qed.

Definition res2 (now : nat -> bool) (r r' : sys * list obs) : Prop :=
  like_traces now (snd r) (snd r') /\ slike (after now (snd r)) (fst r) (fst r').
Lemma conn_step2 now s s' c ch k k' : slike now s s' -> sConns s !! c = Some k -> sConns s' !! c = Some k' ->
  res2 now (conn_step s c ch k) (conn_step s' c ch k').
Proof.
  intros H Hk Hk'. pose proof H as [Hd [_ Hc] _ Hmo Hca Hcr Hpo Hve]. destruct (Hc _ _ _ Hk Hk') as [[Hin Hst] Hb].
  assert (Q : forall x, cslike (now c) x x -> slike now (set_conn s c (Conn (cIn k) x) (sDs s)) (set_conn s' c (Conn (cIn k') x) (sDs s'))).
  { intros x Hx. apply set_conn2; auto. split; [exact Hin|exact Hx]. }
  unfold conn_step. destruct k as [inb st], k' as [inb' st']. cbn [cIn cSt] in *. subst inb'.
  destruct st as [| |corr extra tk|l|]; cbn [cslike] in Hst.
  - subst st'. rewrite <- Hca, <- Hpo. destruct (getMessage inb) as [|msg rest|] eqn:Eg.
    + destruct (sCancel s); (split; [cbn; auto|]); cbn [fst snd after]; apply Q; reflexivity.
    + destruct (getMessage_bytes _ _ _ Hb Eg) as [Hbm Hbr]. destruct (beginRequest (sPort s) msg) as [[[corr extra] tk]|] eqn:Eb.
      * split; [cbn; auto|]. cbn [fst snd after]. apply (set_conn_now now); auto.
        -- split; [reflexivity|]. exists tk. split; [reflexivity|]. cbn. rewrite Nat.eqb_refl. eapply begin2; eauto.
        -- intros e Hne. cbn. destruct (Nat.eqb c e) eqn:E; [apply Nat.eqb_eq in E; congruence|reflexivity].
      * split; [cbn; auto|]. cbn [fst snd after]. pose proof (crash2 _ _ _ H) as [C1 [C2 C3] C4 C5 C6 C7 C8 C9]. split; try assumption. split; [assumption|].
        intros e x x' Hx Hx'. cbn [next_now]. destruct (Nat.eqb c e) eqn:E; [|eauto]. apply Nat.eqb_eq in E as <-.
        cbn [crash sConns] in Hx, Hx'. rewrite Hk in Hx. rewrite Hk' in Hx'. injection Hx as <-. injection Hx' as <-. split; [now split|assumption].
    + split; [cbn; auto|]. now apply crash2.
  - subst st'. split; [exact I|exact H].
  - destruct Hst as (tk' & -> & Ht). destruct (is_ret tk) eqn:Er.
    + destruct tk; try discriminate. destruct Ht as (v' & -> & Hv). pose proof (finish2 _ corr extra t v v' Hv) as Hf.
      destruct (finishRequest corr extra t v) as [l|], (finishRequest corr extra t v') as [l'|]; try contradiction.
      * split; [exact I|]. apply set_conn2; auto. split; [reflexivity|]. exists l'. auto.
      * split; [cbn; auto|]. now apply crash2.
    + assert (Er' : is_ret tk' = false).
      { destruct tk; try discriminate; cbn in Ht; try (subst tk'; reflexivity); destruct Ht as (_ & Ht); [destruct Ht as (? & -> & _)|destruct Ht as (? & ? & -> & _)|destruct Ht as (? & -> & _)|destruct Ht as (? & -> & _)|destruct Ht as (? & -> & _)]; reflexivity. }
      pose proof (tstep2 (now c) c (env_of s) (env_of s') ch _ _ tk tk' Hd Ht Hmo Hca Hve Er) as Hs.
      assert (U : forall u x y, is_ret y = false ->
         (match y with TkRet t v => match finishRequest corr extra t v with Some chunks => (set_conn u c (Conn x (CSend chunks)) (sDs u), []) | None => (crash u, [OCrash c]) end
          | _ => match tstep c (env_of u) ch (sDs u) y with TCont ds tk' os => (set_conn u c (Conn x (CBusy corr extra tk')) ds, os) | TPanic => (crash u, [OCrash c]) end end) =
         match tstep c (env_of u) ch (sDs u) y with TCont ds tk' os => (set_conn u c (Conn x (CBusy corr extra tk')) ds, os) | TPanic => (crash u, [OCrash c]) end)
         by (intros u x y Hy; destruct y; try reflexivity; discriminate).
      rewrite (U s inb tk Er), (U s' inb tk' Er').
      assert (F : forall d t o, tstep c (env_of s) ch (sDs s) tk = TCont d t o -> forall x, In x o -> match x with OFrame _ _ => False | _ => True end).
      { intros d t o E x Hx. destruct (tstep_obs _ _ _ _ _ _ _ _ E) as [-> |(t1 & p1 & g1 & x1 & ->)]; [contradiction|]. destruct Hx as [<-|[]]. exact I. }
      destruct (tstep c (env_of s) ch (sDs s) tk) as [d t o|], (tstep c (env_of s') ch (sDs s') tk') as [d' t' o'|]; try contradiction.
      * destruct Hs as (Hd' & Ht' & <-). specialize (F _ _ _ eq_refl). split; [now apply same_obs|]. cbn [fst snd].
        rewrite after_id; [|intros e m Hin; exact (F _ Hin)]. apply set_conn2; auto. split; [reflexivity|]. exists t'. auto.
      * split; [cbn; auto|]. now apply crash2.
  - destruct Hst as (l' & -> & Hl). destruct Hl as [|x y l l' Hxy Hl].
    + split; [exact I|]. apply set_conn2; auto. split; reflexivity.
    + split; [cbn; auto|]. cbn [fst snd after next_now]. apply set_conn2; auto. split; [reflexivity|]. destruct Hl; cbn; [reflexivity|]. eexists. split; [reflexivity|]. now constructor.
  - subst st'. split; [exact I|exact H].
Qed.

Lemma step2 now s s' e e' : slike now s s' -> alike_ev e e' -> res2 now (step s e) (step s' e').
Proof.
  intros H He. pose proof H as [Hd [Hlen Hc] Hth Hmo Hca Hcr Hpo Hve]. unfold step. rewrite <- Hcr.
  destruct (sCrash s) eqn:Ecr; [split; [exact I|exact H]|].
  assert (C : forall c, (exists k k', sConns s !! c = Some k /\ sConns s' !! c = Some k' /\ clike (now c) k k' /\ all_bytes (cIn k) = true) \/
     (sConns s !! c = None /\ sConns s' !! c = None)).
  { intros c. destruct (sConns s !! c) as [k|] eqn:E, (sConns s' !! c) as [k'|] eqn:E'.
    - left. exists k, k'. split; [reflexivity|]. split; [reflexivity|]. eauto.
    - apply lookup_ge_None in E'. apply lookup_lt_Some in E. lia.
    - apply lookup_ge_None in E. apply lookup_lt_Some in E'. lia.
    - auto. }
  destruct He as [cl cl' Hcl Hok Hok'|w w'|ev].
  - rewrite Hok, Hok'. split; [exact I|]. cbn. split; cbn; try assumption; try congruence; [auto|]. apply Forall2_app; [assumption|]. constructor; [|constructor].
    destruct Hcl; [now constructor|constructor].
  - split; [cbn; auto|]. cbn. split; cbn; auto.
  - destruct ev as [cl|j| |d chh|d chunk|d|d|d|d gone|d|w| |].
    + destruct (call_ok cl); [|split; [exact I|exact H]]. split; [exact I|]. cbn. split; cbn; try assumption; try congruence; [auto|]. apply Forall2_app; [assumption|]. repeat constructor.
    + destruct (sThreads s !! j) as [a|] eqn:Ea.
      * destruct (Forall2_lookup_l _ _ _ _ _ Hth Ea) as (a' & Ea' & Haa). rewrite Ea'.
        pose proof (astep2 j (sWall s) (sWall s') _ _ _ _ now Hd Haa) as Hs.
        destruct (astep j (sWall s) (sDs s) a) as [[d1 b1] o1], (astep j (sWall s') (sDs s') a') as [[d2 b2] o2]. destruct Hs as (S1 & S2 & S3 & S4).
        split; [exact S3|]. cbn [fst snd]. rewrite after_id by assumption. split; cbn; try assumption; try congruence; [auto|]. now apply Forall2_insert.
      * pose proof (Forall2_length _ _ _ Hth) as Hl. apply lookup_ge_None in Ea. rewrite (proj2 (lookup_ge_None (sThreads s') j)) by lia. split; [exact I|exact H].
    + rewrite <- Hca. destruct (sCancel s) eqn:Ecs; [split; [exact I|exact H]|]. split; [exact I|]. cbn. split; cbn; try assumption; try congruence.
      split; [rewrite !app_length; cbn; lia|]. intros c k k' Hk Hk'.
      apply lookup_app_Some in Hk as [Hk|[Hge Hk]]; apply lookup_app_Some in Hk' as [Hk'|[Hge' Hk']]; eauto.
      * apply lookup_lt_Some in Hk. lia.
      * apply lookup_lt_Some in Hk'. lia.
      * apply list_lookup_singleton_Some in Hk as [_ <-]. apply list_lookup_singleton_Some in Hk' as [_ <-]. split; [split; reflexivity|reflexivity].
    + destruct (sConns s !! d) as [k|] eqn:E1, (sConns s' !! d) as [k'|] eqn:E2; [eapply conn_step2; eauto| | |split; [exact I|exact H]];
      exfalso; destruct (C d) as [(x & x' & X1 & X2 & _)|[X1 X2]]; congruence.
    + destruct (C d) as [(k & k' & -> & -> & [Hi Hst] & Hb)|[-> ->]]; [|split; [exact I|exact H]]. destruct k as [inb st], k' as [inb' st']. cbn [cIn cSt] in *. subst inb'.
      destruct st; cbn [cslike] in Hst; try (destruct Hst as (? & -> & _); split; [exact I|exact H]); subst st'; try (split; [exact I|exact H]).
      destruct (_ && _ && _) eqn:Ev; [|split; [exact I|exact H]]. split; [cbn; auto|]. apply set_conn2; auto; [split; reflexivity|]. cbn [cIn].
      apply andb_prop in Ev as [_ Ev]. unfold all_bytes in *. rewrite forallb_app, Hb. exact Ev.
    + destruct (C d) as [(k & k' & -> & -> & [Hi Hst] & Hb)|[-> ->]]; [|split; [exact I|exact H]]. destruct k as [inb st], k' as [inb' st']. cbn [cIn cSt] in *. subst inb'.
      destruct st; cbn [cslike] in Hst; try (destruct Hst as (? & -> & _); split; [exact I|exact H]); subst st'; try (split; [exact I|exact H]).
      split; [cbn; auto|]. apply set_conn2; auto. split; reflexivity.
    + destruct (C d) as [(k & k' & -> & -> & [Hi Hst] & Hb)|[-> ->]]; [|split; [exact I|exact H]]. destruct k as [inb st], k' as [inb' st']. cbn [cIn cSt] in *. subst inb'.
      destruct st; cbn [cslike] in Hst; try (destruct Hst as (? & -> & _); split; [exact I|exact H]); subst st'; try (split; [exact I|exact H]).
      split; [cbn; auto|]. apply set_conn2; auto. split; reflexivity.
    + destruct (C d) as [(k & k' & -> & -> & [Hi Hst] & Hb)|[-> ->]]; [|split; [exact I|exact H]]. destruct k as [inb st], k' as [inb' st']. cbn [cIn cSt] in *. subst inb'.
      destruct st; cbn [cslike] in Hst; try (destruct Hst as (? & -> & _); split; [exact I|exact H]); subst st'; try (split; [exact I|exact H]).
      split; [cbn; auto|]. now apply crash2.
    + destruct (C d) as [(k & k' & -> & -> & [Hi Hst] & Hb)|[-> ->]]; [|split; [exact I|exact H]]. destruct k as [inb st], k' as [inb' st']. cbn [cIn cSt] in *. subst inb'.
      destruct st; cbn [cslike] in Hst; try (subst st'; split; [exact I|exact H]); destruct Hst as (? & -> & _); try (split; [exact I|exact H]).
      destruct gone; [|split; [cbn; auto|now apply crash2]]. split; [exact I|]. apply set_conn2; auto. split; reflexivity.
    + split; [cbn; auto|]. cbn. split; cbn; auto. now rewrite Hmo.
    + split; [cbn; auto|]. cbn. split; cbn; auto.
    + split; [cbn; auto|]. cbn. split; cbn; auto.
    + assert (Hf : forallb closed (sConns s) = forallb closed (sConns s')).
      { clear - Hlen Hc. revert Hlen Hc. generalize (sConns s) as l, (sConns s') as l'. intros l. revert now.
        induction l as [|k l IH]; intros now [|k' l'] Hl Hc; try discriminate; [reflexivity|]. cbn [forallb].
        destruct (Hc 0%nat k k' eq_refl eq_refl) as [[_ Hst] _]. rewrite (IH (fun c => now (S c)) l').
        - f_equal. unfold closed. destruct (cSt k); cbn [cslike] in Hst; try (rewrite Hst; reflexivity); destruct Hst as (? & -> & _); reflexivity.
        - now injection Hl.
        - intros c x x' Hx Hx'. exact (Hc (S c) x x' Hx Hx'). }
      rewrite <- Hf. destruct (forallb closed (sConns s)); [|split; [exact I|exact H]]. split; [cbn; auto|]. cbn. split; cbn; auto.
Qed.
Lemma run2 es es' : Forall2 alike_ev es es' -> forall now s s', slike now s s' -> res2 now (run s es) (run s' es').
Proof.
  induction 1 as [|e e' es es' He _ IH]; intros now s s' H; [split; [exact I|exact H]|]. cbn [run].
  destruct (step2 _ _ _ _ _ H He) as [H1 H2]. destruct (step s e) as [s1 o1], (step s' e') as [s1' o1']. cbn [fst snd] in *.
  destruct (IH _ _ _ H2) as [H3 H4]. destruct (run s1 es) as [s2 o2], (run s1' es') as [s2' o2']. cbn [fst snd] in *.
  split; cbn [fst snd]; [now apply alike_app|]. replace (after now (o1 ++ o2)) with (after (after now o1) o2); [assumption|].
  clear. revert now. induction o1 as [|x o1 IH]; intros now; [reflexivity|]. cbn. apply IH.
Qed.
Theorem inert port ch es es' : Forall2 alike_ev es es' ->
  like_traces none (snd (run (init port ch) es)) (snd (run (init port ch) es')).
Proof.
  intros H. apply (run2 _ _ H). split; try reflexivity; [|constructor]. split; [reflexivity|]. intros c k k' Hk. discriminate.
Qed.

(** A connection that never asks for records: all its replies are the same. *)
Lemma like_writes c : forall a b now, now c = false -> like_traces now a b -> forallb (fun m => negb (asks_records m)) (frames c a) = true ->
  writes c a = writes c b.
Proof.
  induction a as [|x a IH]; intros [|y b] now Hn H Hf; try contradiction; [reflexivity|]. destruct H as [Hx H].
  unfold writes, frames in *. cbn [flat_map] in *.
  assert (Hnx : next_now now x c = false /\ forallb (fun m => negb (asks_records m)) (flat_map (fun o => match o with OFrame c' m => if Nat.eqb c c' then [m] else [] | _ => [] end) a) = true).
  { destruct x; cbn [next_now app] in *; auto. rewrite forallb_app in Hf. apply andb_prop in Hf as [Hf1 Hf2]. split; [|exact Hf2].
    rewrite (Nat.eqb_sym c0 c). destruct (Nat.eqb c c0); [|exact Hn]. cbn in Hf1. now destruct (asks_records msg). }
  destruct Hnx as [Hnx Hfx]. rewrite (IH _ _ Hnx H Hfx). f_equal.
  destruct x, y; cbn in Hx; try discriminate; try reflexivity. destruct Hx as [<- Hx]. destruct (Nat.eqb c c0) eqn:E; [|reflexivity].
  apply Nat.eqb_eq in E as <-. rewrite Hn in Hx. exact Hx.
Qed.
Theorem inert_conn port ch es es' c : Forall2 alike_ev es es' ->
  (forall m, In m (frames c (snd (run (init port ch) es))) -> asks_records m = false) ->
  writes c (snd (run (init port ch) es)) = writes c (snd (run (init port ch) es')).
Proof.
  intros H Hf. eapply like_writes; [|now apply inert|]; [reflexivity|]. apply forallb_forall. intros m Hm. now rewrite (Hf m Hm).
Qed.
Lemma like_sizes c : forall a b now, like_traces now a b -> Datatypes.length (writes c a) = Datatypes.length (writes c b).
Proof.
  induction a as [|x a IH]; intros [|y b] now H; try contradiction; [reflexivity|]. destruct H as [Hx H].
  unfold writes in *. cbn [flat_map]. rewrite !app_length, (IH _ _ H). f_equal.
  destruct x, y; cbn in Hx; try discriminate; try reflexivity. destruct Hx as [<- Hx]. destruct (Nat.eqb c c0) eqn:E; [|reflexivity].
  destruct (now c0); [exact Hx|now rewrite Hx].
Qed.
Lemma like_frames c : forall a b now, like_traces now a b -> frames c a = frames c b.
Proof.
  induction a as [|x a IH]; intros [|y b] now H; try contradiction; [reflexivity|]. destruct H as [Hx H].
  unfold frames in *. cbn [flat_map]. rewrite (IH _ _ H). f_equal.
  destruct x, y; cbn in Hx; try discriminate; try reflexivity. now injection Hx as <- <-.
Qed.
Lemma like_crashed : forall a b now, like_traces now a b -> crashed a = crashed b.
Proof.
  induction a as [|x a IH]; intros [|y b] now H; try contradiction; [reflexivity|]. destruct H as [Hx H].
  unfold crashed in *. cbn [existsb]. rewrite (IH _ _ H). f_equal. destruct x, y; cbn in Hx; try discriminate; reflexivity.
Qed.
Lemma like_logs t p : forall a b now, like_traces now a b -> Forall2 alike_rec (tr_log t p a) (tr_log t p b).
Proof.
  induction a as [|x a IH]; intros [|y b] now H; try contradiction; [constructor|]. destruct H as [Hx H].
  unfold tr_log in *. cbn [flat_map]. apply Forall2_app; [|exact (IH _ _ H)].
  destruct x, y; cbn in Hx; try discriminate; try constructor. destruct Hx as [[= <- <- <-] Hx]. destruct (same t p _ _); repeat constructor; apply Hx.
Qed.
Lemma like_offset t p g : forall a b now, like_traces now a b -> tr_off t p g a = tr_off t p g b.
Proof.
  unfold tr_off. generalize 0 as z. intros z a. revert z. induction a as [|x a IH]; intros z [|y b] now H; try contradiction; [reflexivity|]. destruct H as [Hx H].
  cbn [fold_left]. rewrite (IH _ _ _ H). f_equal. destruct x, y; cbn in Hx; try discriminate; try reflexivity; now injection Hx as <- <- <- <- <-.
Qed.
Theorem inert_sums port ch es es' : Forall2 alike_ev es es' ->
  let os := snd (run (init port ch) es) in let os' := snd (run (init port ch) es') in
  crashed os = crashed os' /\
  (forall c, frames c os = frames c os' /\ Datatypes.length (writes c os) = Datatypes.length (writes c os')) /\
  (forall t p, Forall2 alike_rec (tr_log t p os) (tr_log t p os')) /\
  (forall t p g, tr_off t p g os = tr_off t p g os').
Proof.
  intros H os os'. pose proof (inert port ch _ _ H) as L. fold os os' in L. split; [eapply like_crashed, L|]. split; [|split].
  - intros c. split; [eapply like_frames, L|eapply like_sizes, L].
  - intros t p. eapply like_logs, L.
  - intros t p g. eapply like_offset, L.
Qed.

(** ** Runs *)
(** A post to orders/0; one client fetches with room for 60 bytes, another asks for the
    offset of group g. *)
Definition inert_demo (k v : option bytes) (h : list (bytes * option bytes)) (ts : option Z) (w : Z) : list event :=
  [EvWall w; EvCall (CallPost topicA 0 k v h ts); EvApi 0; EvApi 0; EvApi 0; EvApi 0; EvAccept; EvAccept; EvConn 0 ch0; EvConn 1 ch0;
   EvRecv 0 (w_frame (w_request 1 2 8 clientA (w_fetch_req (-1) 0 1 [(topicA, [(0, 0, 60)])])));
   EvRecv 1 (w_frame (w_request 9 1 7 clientA (w_off_req groupA [(topicA, [0])])))] ++
  repeat (EvConn 0 ch0) 40 ++ repeat (EvConn 1 ch0) 40.
Definition inert_obs k v h ts w : list obs := snd (run (init 9092 []) (inert_demo k v h ts w)).
Lemma demo_alike k v h ts w k' v' h' ts' w' : size_of k = size_of k' -> size_of v = size_of v' ->
  call_ok (CallPost topicA 0 k v h ts) = true -> call_ok (CallPost topicA 0 k' v' h' ts') = true ->
  Forall2 alike_ev (inert_demo k v h ts w) (inert_demo k' v' h' ts' w').
Proof.
  intros Hk Hv H H'. unfold inert_demo. cbn [app]. constructor; [apply ae_wall|]. constructor; [apply ae_call; [now apply al_post|assumption|assumption]|].
  do 10 (constructor; [apply ae_same|]). match goal with |- Forall2 _ ?l ?l => generalize l end. intros l. induction l; constructor; [apply ae_same|assumption].
Qed.

Lemma none_asks l : forallb (fun m => negb (asks_records m)) l = true -> forall m, In m l -> asks_records m = false.
Proof. intros E m Hm. rewrite forallb_forall in E. specialize (E m Hm). clear Hm. now destruct (asks_records m). Qed.
(** With other bytes of the same lengths: what the first client gets differs, in no
    length, and the second client gets the same. *)
Lemma demo_bytes :
  let os := inert_obs (Some [1]) (Some [2; 3]) [] (Some 5) 7 in
  let os' := inert_obs (Some [9]) (Some [0; 255]) [(topicB, None)] None 1000 in
  writes 0 os <> writes 0 os' /\ Datatypes.length (writes 0 os) = 83%nat /\ Datatypes.length (writes 0 os') = 83%nat /\
  writes 1 os = writes 1 os' /\ writes 1 os <> [] /\ (forall m, In m (frames 1 os) -> asks_records m = false).
Proof.
  cbv zeta. split; [vm_compute; discriminate|]. split; [vm_compute; reflexivity|]. split; [vm_compute; reflexivity|].
  split; [vm_compute; reflexivity|]. split; [vm_compute; discriminate|].
  apply none_asks. vm_compute. reflexivity.
Qed.
(** With a longer value: the first client is not answered. *)
Lemma demo_longer :
  writes 0 (inert_obs (Some [1]) (Some [2; 3]) [] (Some 5) 7) <> [] /\
  writes 0 (inert_obs (Some [1]) (Some (repeat 2 30)) [] (Some 5) 7) = [].
Proof. split; vm_compute; [discriminate|reflexivity]. Qed.
Lemma longer_unanswered : exists t p k v v' h ts A B,
  writes 0 (snd (run (init 9092 []) (A ++ EvCall (CallPost t p k (Some v) h ts) :: B))) <> [] /\
  writes 0 (snd (run (init 9092 []) (A ++ EvCall (CallPost t p k (Some v') h ts) :: B))) = [].
Proof.
  exists topicA, 0, (Some [1]), [2; 3], (repeat 2 30), [], (Some 5), [EvWall 7], (tail (tail (inert_demo None None [] None 0))).
  split; vm_compute; [discriminate|reflexivity].
Qed.
