(** * FetchEnc: the bytes of messages, message sets and Fetch replies *)
From Verif Require Export WalkProofs CrcProofs.
From stdpp Require Import gmap list.
From Coq Require Import ZifyBool ZifyNat.
Open Scope Z_scope.
Open Scope list_scope.

(** The message the code makes of a record. *)
Definition msg_of (off : Z) (r : krecord) : message :=
  let size := swrap 32 (rec_size r) in
  Msg off size (swrap 32 (message_crc (Msg off size 0 1 0 (rTs r) (rKey r) (rVal r)))) 1 0 (rTs r) (rKey r) (rVal r).
Fixpoint msgs_of (off : Z) (rs : list krecord) : list message :=
  match rs with [] => [] | r :: rs' => msg_of off r :: msgs_of (off + 1) rs' end.
Definition total_of (rs : list krecord) : Z := fold_right (fun r n => swrap 32 (rec_size r) + n) 0 rs.

Lemma msgs_of_snoc off rs r : msgs_of off (rs ++ [r]) = msgs_of off rs ++ [msg_of (off + zlen rs) r].
Proof.
  revert off. induction rs as [|x rs IH]; intros off; cbn [app msgs_of].
  - unfold zlen. cbn. now rewrite Z.add_0_r.
  - rewrite IH, zlen_cons. replace (off + 1 + zlen rs) with (off + (zlen rs + 1)) by lia. reflexivity.
Qed.
Lemma total_of_app a b : total_of (a ++ b) = total_of a + total_of b.
Proof. induction a as [|x a IH]; cbn; [reflexivity|]. fold (total_of (a ++ b)) (total_of a). lia. Qed.
Lemma log_size_app a b : log_size (a ++ b) = log_size a + log_size b.
Proof. induction a as [|x a IH]; cbn; [reflexivity|]. fold (log_size (a ++ b)) (log_size a). lia. Qed.
Lemma blen_nonneg o : 0 <= blen o.
Proof. destruct o; cbn; [apply zlen_nonneg|lia]. Qed.
Lemma rec_size_pos r : 34 <= rec_size r.
Proof. unfold rec_size. pose proof (blen_nonneg (rKey r)). pose proof (blen_nonneg (rVal r)). lia. Qed.
Lemma log_size_nonneg l : 0 <= log_size l.
Proof. induction l as [|r l IH]; cbn; [lia|]. fold (log_size l). pose proof (rec_size_pos r). lia. Qed.

Lemma appendMessage_eq off rs r max : 
  appendMessage (MsgSet (msgs_of off rs) (off + zlen rs) (total_of rs)) r max =
  if max <? total_of (rs ++ [r]) then None
  else Some (MsgSet (msgs_of off (rs ++ [r])) (off + zlen (rs ++ [r])) (total_of (rs ++ [r]))).
Proof.
  unfold appendMessage. cbn [msMsgs msOffset msTotal].
  assert (E : swrap 32 (34 + olen (rKey r) + olen (rVal r)) = swrap 32 (rec_size r)) by reflexivity.
  rewrite E, total_of_app. cbn [total_of fold_right]. rewrite Z.add_0_r.
  destruct (Z.ltb max (total_of rs + swrap 32 (rec_size r))); [reflexivity|].
  rewrite msgs_of_snoc, zlen_app. do 2 f_equal. unfold zlen. cbn [length]. lia.
Qed.

(** ** Bytes *)
Definition rec_bytes (r : krecord) : Prop := okb (rKey r) = true /\ okb (rVal r) = true.

Lemma message_encs m : okb (mKey m) = true -> okb (mVal m) = true ->
  encs tMessageV1 (message_val m)
    (w_int64 (mOffset m) ++ w_int32 (mSize m) ++ w_int32 (mCrc m) ++ w_int8 (mMagic m) ++ w_int8 (mAttr m) ++
     w_int64 (mTs m) ++ w_bytes (mKey m) ++ w_bytes (mVal m)).
Proof. intros H1 H2. unfold message_val. eapply encs_eq; [encs_tac|]. now rewrite app_nil_r. Qed.

Lemma tail_bytes ts k v : okb k = true -> okb v = true -> all_bytes (w_msg_tail ts k v) = true.
Proof.
  intros H1 H2. assert (W : forall o, okb o = true -> all_bytes (w_bytes o) = true).
  { intros [b|] H; unfold all_bytes in *; cbn [w_bytes]; unfold w_int32.
    - rewrite forallb_app. fold (all_bytes (w_be 4 (zlen b))). rewrite w_be_bytes. exact H.
    - apply (w_be_bytes 4). }
  unfold w_msg_tail, all_bytes in *. rewrite !forallb_app.
  pose proof (w_be_bytes 1 1) as E1. pose proof (w_be_bytes 1 0) as E2. pose proof (w_be_bytes 8 ts) as E3.
  unfold all_bytes in *. unfold w_int8, w_int64. rewrite E1, E2, E3, !W by assumption. reflexivity.
Qed.

Lemma message_crc_eq off size r : rec_bytes r ->
  message_crc (Msg off size 0 1 0 (rTs r) (rKey r) (rVal r)) = crc32c_spec (w_msg_tail (rTs r) (rKey r) (rVal r)).
Proof.
  intros [Hk Hv]. unfold message_crc.
  rewrite (encs_object _ _ _ (encs_ptr _ _ _ (message_encs (Msg off size 0 1 0 (rTs r) (rKey r) (rVal r)) Hk Hv))).
  cbn [mOffset mSize mCrc mMagic mAttr mTs mKey mVal].
  rewrite <- crc32c_correct by now apply tail_bytes. f_equal.
Qed.

Lemma msg_of_encs off r : rec_bytes r -> rec_size r <= 2147483647 ->
  encs tMessageV1 (message_val (msg_of off r)) (w_record off r).
Proof.
  intros Hr Hs. destruct (Hr) as [Hk Hv]. eapply encs_eq; [apply message_encs; assumption|].
  unfold msg_of. cbn [mOffset mSize mCrc mMagic mAttr mTs mKey mVal].
  rewrite message_crc_eq by assumption. rewrite !w_int32_swrap.
  unfold w_record, w_message, w_msg_tail. reflexivity.
Qed.
(** The same without the size limit: the size field may have wrapped. *)
Lemma msg_of_enc_some off r : rec_bytes r -> exists b, encs tMessageV1 (message_val (msg_of off r)) b.
Proof. intros [Hk Hv]. eexists. now apply message_encs. Qed.

Lemma zlen_w_bytes o : zlen (w_bytes o) = 4 + blen o.
Proof.
  destruct o as [b|]; cbn [w_bytes blen]; unfold w_int32.
  - now rewrite zlen_app, zlen_w_be.
  - now rewrite zlen_w_be.
Qed.
Lemma zlen_w_record off r : zlen (w_record off r) = rec_size r.
Proof.
  unfold w_record, w_message, w_msg_tail, w_int64, w_int32, w_int8. rewrite !zlen_app, !zlen_w_be, !zlen_w_bytes.
  unfold rec_size. lia.
Qed.
Lemma zlen_w_records off rs : zlen (w_records off rs) = log_size rs.
Proof.
  revert off. induction rs as [|r rs IH]; intros off; [reflexivity|]. cbn [w_records log_size fold_right].
  now rewrite zlen_app, zlen_w_record, IH.
Qed.
Lemma w_records_nil off rs : w_records off rs = [] -> rs = [].
Proof.
  intros H. destruct rs as [|r rs]; [reflexivity|]. apply (f_equal zlen) in H. rewrite zlen_w_records in H.
  cbn in H. fold (log_size rs) in H. pose proof (rec_size_pos r). pose proof (log_size_nonneg rs). unfold zlen in H. cbn in H. lia.
Qed.

Definition small (rs : list krecord) : Prop := Forall (fun r => rec_size r <= 2147483647) rs.
Lemma total_small rs : small rs -> total_of rs = log_size rs.
Proof.
  induction 1 as [|r rs H _ IH]; [reflexivity|]. cbn. fold (total_of rs) (log_size rs). rewrite IH. f_equal.
  apply swrap_id; [lia|]. pose proof (rec_size_pos r). lia.
Qed.

Lemma encs_msgset msgs total (f : message -> bytes) :
  (forall m, In m msgs -> encs tMessageV1 (message_val m) (f m)) ->
  encs (TPtr (TMsgSet tMessageV1)) (VPtr (Some (VMsgSet total (map message_val msgs))))
    (w_int32 total ++ concat (map f msgs)).
Proof.
  intros H. apply encs_ptr. intros n. 
  change (oapp (Some (enc_i32 total)) (enc_items (enc tMessageV1 false false) (map message_val msgs)) =
    Some (w_int32 total ++ concat (map f msgs))).
  rewrite (enc_items_w _ _ f) by assumption. cbn [oapp obind]. now rewrite enc_i32_w.
Qed.

Lemma msgset_small_encs off rs : Forall rec_bytes rs -> small rs ->
  encs (TPtr (TMsgSet tMessageV1)) (VPtr (Some (VMsgSet (total_of rs) (map message_val (msgs_of off rs)))))
    (w_int32 (zlen (w_records off rs)) ++ w_records off rs).
Proof.
  intros Hb Hs. rewrite zlen_w_records, <- total_small by assumption. apply encs_ptr. intros n.
  change (oapp (Some (enc_i32 (total_of rs))) (enc_items (enc tMessageV1 false false) (map message_val (msgs_of off rs))) =
    Some (w_int32 (total_of rs) ++ w_records off rs)).
  assert (E : enc_items (enc tMessageV1 false false) (map message_val (msgs_of off rs)) = Some (w_records off rs)).
  { revert off. induction rs as [|r rs IH]; intros off; [reflexivity|].
    inversion Hb as [|? ? Hb1 Hb2]; subst. inversion Hs as [|? ? Hs1 Hs2]; subst.
    cbn [msgs_of w_records].
    change (oapp (enc tMessageV1 false false (message_val (msg_of off r)))
      (enc_items (enc tMessageV1 false false) (map message_val (msgs_of (off + 1) rs))) =
      Some (w_record off r ++ w_records (off + 1) rs)).
    rewrite (msg_of_encs off r Hb1 Hs1 false), IH by assumption. reflexivity. }
  rewrite E. cbn [oapp obind]. now rewrite enc_i32_w.
Qed.
Lemma msgset_encs_some off rs : Forall rec_bytes rs ->
  exists b, encs (TPtr (TMsgSet tMessageV1)) (VPtr (Some (VMsgSet (total_of rs) (map message_val (msgs_of off rs))))) b.
Proof.
  intros Hb. eexists. apply (encs_msgset _ _ (fun m => 
    w_int64 (mOffset m) ++ w_int32 (mSize m) ++ w_int32 (mCrc m) ++ w_int8 (mMagic m) ++ w_int8 (mAttr m) ++
     w_int64 (mTs m) ++ w_bytes (mKey m) ++ w_bytes (mVal m))).
  intros m Hm. revert off Hm. induction Hb as [|r rs [Hk Hv] _ IH]; intros off; cbn [msgs_of]; [contradiction|].
  intros [<-|Hm]; [now apply message_encs|eauto].
Qed.

(** A reply: each topic with its result. *)
Section reply.
Context (body : fdata -> bytes) (fds0 : list fdata)
  (Hbody : forall fd, In fd fds0 -> encs (TPtr (TMsgSet tMessageV1))
     (VPtr (Some (VMsgSet (msTotal (fdMs fd)) (map message_val (msMsgs (fdMs fd)))))) (body fd)).
Definition fpart_bytes (fd : fdata) (p : fetch_part) : bytes :=
  w_int32 (fpIndex p) ++ w_int16 0 ++ w_int64 (fdOff fd) ++ body fd.
Fixpoint ftopics (ts : list (topic_req fetch_part)) (fds : list fdata) : list bytes :=
  match ts, fds with
  | (n, ps) :: ts', fd :: fds' => (w_string n ++ w_array (fpart_bytes fd) ps) :: ftopics ts' fds'
  | _, _ => []
  end.

Lemma fpart_encs fd p : In fd fds0 -> encs tFetchRespPart (fetchPartVal fd p) (fpart_bytes fd p).
Proof.
  intros Hin. unfold fetchPartVal. eapply encs_eq; [autounfold with wire; repeat encs_step; now apply Hbody|].
  unfold fpart_bytes. now rewrite app_nil_r.
Qed.
Lemma ftopics_length ts fds : (length ts <= length fds)%nat -> length (ftopics ts fds) = length ts.
Proof.
  revert fds. induction ts as [|[n ps] ts IH]; intros [|fd fds]; cbn; try lia. intros H. rewrite IH; lia.
Qed.
Lemma ftopics_encs ts fds : incl fds fds0 -> forall l, fetchTopicVals ts fds = Some l ->
  (length ts <= length fds)%nat /\ zlen l = zlen ts /\
  enc_items (enc tFetchRespTopic false false) l = Some (concat (ftopics ts fds)).
Proof.
  revert fds. induction ts as [|[n ps] ts IH]; intros fds Hin l; cbn [fetchTopicVals].
  - intros [= <-]. destruct fds; (split; [cbn; lia|split; reflexivity]).
  - destruct fds as [|fd fds]; [discriminate|].
    destruct (fetchTopicVals ts fds) as [l'|] eqn:E; [|discriminate]. intros [= <-].
    destruct (IH fds (fun x Hx => Hin x (or_intror Hx)) l' E) as (H1 & H2 & H3).
    split; [cbn; lia|]. split; [rewrite !zlen_cons; lia|]. cbn [ftopics concat].
    set (v := VStruct [VStr n; vslice (map (fetchPartVal fd) ps)]).
    change (oapp (enc tFetchRespTopic false false v) (enc_items (enc tFetchRespTopic false false) l') =
      Some ((w_string n ++ w_array (fpart_bytes fd) ps) ++ concat (ftopics ts fds))).
    assert (Hv : encs tFetchRespTopic v (w_string n ++ w_array (fpart_bytes fd) ps)).
    { unfold v. eapply encs_eq; [autounfold with wire; apply encs_cons; [apply encs_str|apply encs_cons; [|apply encs_nil]]|].
      - apply encs_slice; [discriminate|]. intros p _. apply (fpart_encs fd p). apply Hin. now left.
      - now rewrite app_nil_r. }
    rewrite (Hv false), H3. reflexivity.
Qed.
Lemma fetchReply_enc rq v : fetchReply rq fds0 = Some v ->
  encodeObject tFetchResp v = Some (w_int32 0 ++ w_int32 (zlen (fqTopics rq)) ++ concat (ftopics (fqTopics rq) fds0)).
Proof.
  unfold fetchReply. destruct (fetchTopicVals (fqTopics rq) fds0) as [l|] eqn:E; [|discriminate].
  intros [= <-]. destruct (ftopics_encs _ _ (fun x Hx => Hx) _ E) as (H1 & H2 & H3).
  apply encs_object. eapply encs_eq; [autounfold with wire; apply encs_cons; [apply encs_i32|apply encs_cons; [|apply encs_nil]]|].
  - intros n. transitivity (oapp (Some (enc_i32 (swrap 32 (zlen l)))) (enc_items (enc tFetchRespTopic false false) l)).
    { reflexivity. }
    rewrite H3. cbn [oapp obind]. rewrite enc_i32_w, w_int32_swrap, H2. reflexivity.
  - now rewrite app_nil_r.
Qed.
End reply.

Lemma fetchTopicVals_some ts fds : (length ts <= length fds)%nat -> exists l, fetchTopicVals ts fds = Some l.
Proof.
  revert fds. induction ts as [|[n ps] ts IH]; intros fds H; cbn; [eauto|].
  destruct fds as [|fd fds]; [cbn in H; lia|]. destruct (IH fds) as [l ->]; [cbn in H; lia|]. eauto.
Qed.
Lemma fetchTopicVals_none ts fds : (length fds < length ts)%nat -> fetchTopicVals ts fds = None.
Proof.
  revert fds. induction ts as [|[n ps] ts IH]; intros fds H; cbn in *; [lia|].
  destruct fds as [|fd fds]; [reflexivity|]. rewrite IH; [reflexivity|]. cbn in H. lia.
Qed.

