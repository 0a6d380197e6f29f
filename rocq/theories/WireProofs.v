(** * WireProofs: the codec model against the wire grammar. *)
From Verif Require Export WireSpec CodecProofs Api.
From stdpp Require Import gmap.
From Coq Require Import ZifyBool ZifyNat.
Open Scope Z_scope.
Open Scope list_scope.

(** ** Integers *)
Lemma be_put_w n v : be_put n v = w_be n v.
Proof.
  induction n as [|n IH]; [reflexivity|]. cbn [be_put w_be]. rewrite IH. f_equal.
  unfold uwrap. rewrite Z.shiftr_div_pow2 by lia. rewrite Z.pow_mul_r by lia. reflexivity.
Qed.

Lemma w_be_mod m n v : (n <= m)%nat -> w_be n (v mod 256 ^ Z.of_nat m) = w_be n v.
Proof.
  induction n as [|n IH]; intros Hm; [reflexivity|]. cbn [w_be]. rewrite IH by lia. f_equal.
  replace (Z.of_nat m) with (Z.of_nat n + (1 + Z.of_nat (m - S n))) by lia.
  rewrite Z.pow_add_r by lia. set (a := 256 ^ Z.of_nat n).
  assert (Ha : 0 < a) by (apply Z.pow_pos_nonneg; lia).
  rewrite Z.pow_add_r by lia. change (256 ^ 1) with 256. set (b := 256 ^ _).
  assert (Hb : 0 < b) by (apply Z.pow_pos_nonneg; lia).
  rewrite Z.rem_mul_r by nia.
  rewrite (Z.mul_comm a), Z.div_add by lia.
  rewrite (Z.div_small (v mod a)) by (apply Z.mod_pos_bound; lia). rewrite Z.add_0_l.
  rewrite Z.rem_mul_r by lia. rewrite (Z.mul_comm 256), Z.mod_add, Z.mod_mod by lia. reflexivity.
Qed.

Lemma enc_i8_w z : enc_i8 z = w_int8 z.
Proof.
  unfold enc_i8, w_int8. cbn. unfold uwrap. now rewrite Z.div_1_r.
Qed.
Lemma enc_i16_w z : enc_i16 z = w_int16 z.
Proof. unfold enc_i16. rewrite be_put_w. apply (w_be_mod 2 2). lia. Qed.
Lemma enc_i32_w z : enc_i32 z = w_int32 z.
Proof. unfold enc_i32. rewrite be_put_w. apply (w_be_mod 4 4). lia. Qed.
Lemma enc_i64_w z : enc_i64 z = w_int64 z.
Proof. unfold enc_i64. rewrite be_put_w. apply (w_be_mod 8 8). lia. Qed.

Lemma w_be_length n z : length (w_be n z) = n.
Proof. induction n; cbn; congruence. Qed.
Lemma zlen_w_be n z : zlen (w_be n z) = Z.of_nat n.
Proof. unfold zlen. now rewrite w_be_length. Qed.
Lemma w_be_bytes n z : all_bytes (w_be n z) = true.
Proof.
  unfold all_bytes. induction n as [|n IH]; [reflexivity|]. cbn [w_be forallb]. rewrite IH.
  unfold is_byte. pose proof (Z.mod_pos_bound (z / 256 ^ Z.of_nat n) 256). lia.
Qed.

Lemma w_int16_swrap z : w_int16 (swrap 16 z) = w_int16 z.
Proof. rewrite <- !enc_i16_w. unfold enc_i16. now rewrite uwrap_swrap by lia. Qed.
Lemma w_int32_swrap z : w_int32 (swrap 32 z) = w_int32 z.
Proof. rewrite <- !enc_i32_w. unfold enc_i32. now rewrite uwrap_swrap by lia. Qed.
Lemma w_int32_uwrap z : w_int32 (uwrap 32 z) = w_int32 z.
Proof. rewrite <- !enc_i32_w. unfold enc_i32, uwrap. now rewrite Z.mod_mod by lia. Qed.

Lemma enc_nstr_w o : enc_nstr o = w_nstring o.
Proof.
  destruct o as [s|]; unfold enc_nstr, w_nstring, w_string; rewrite enc_i16_w; [|reflexivity].
  now rewrite w_int16_swrap.
Qed.
Lemma enc_nbytes_w o : enc_nbytes o = w_bytes o.
Proof.
  destruct o as [s|]; unfold enc_nbytes, w_bytes; rewrite enc_i32_w; [|reflexivity].
  now rewrite w_int32_uwrap.
Qed.

(** ** Encoding composite values *)
Definition encs (t : ty) (v : val) (b : bytes) : Prop := forall n, enc t n false v = Some b.

Lemma encs_bool b : encs TBool (VBool b) (w_bool b).
Proof. now intros n. Qed.
Lemma encs_i8 z : encs TInt8 (VInt z) (w_int8 z).
Proof. intros n. cbn. now rewrite enc_i8_w. Qed.
Lemma encs_i16 z : encs TInt16 (VInt z) (w_int16 z).
Proof. intros n. cbn [enc]. now rewrite enc_i16_w. Qed.
Lemma encs_i32 z : encs TInt32 (VInt z) (w_int32 z).
Proof. intros n. cbn [enc]. now rewrite enc_i32_w. Qed.
Lemma encs_i64 z : encs TInt64 (VInt z) (w_int64 z).
Proof. intros n. cbn [enc]. now rewrite enc_i64_w. Qed.
Lemma encs_str s : encs TString (VStr s) (w_string s).
Proof. intros n. cbn [enc]. now rewrite enc_nstr_w. Qed.
Lemma encs_nstr o : encs TNullableString (VNStr o) (w_nstring o).
Proof. intros n. cbn [enc]. now rewrite enc_nstr_w. Qed.

Lemma encs_nil : encs (fields []) (VStruct []) [].
Proof. now intros n. Qed.
Lemma encs_cons t ts v vs b bs :
  encs t v b -> encs (fields ts) (VStruct vs) bs -> encs (fields (t :: ts)) (VStruct (v :: vs)) (b ++ bs).
Proof.
  intros H1 H2 n. specialize (H1 false). specialize (H2 n).
  change (oapp (enc t false false v) (enc (fields ts) n false (VStruct vs)) = Some (b ++ bs)).
  rewrite H1, H2. reflexivity.
Qed.
Lemma encs_ptr t v b : encs t v b -> encs (TPtr t) (VPtr (Some v)) b.
Proof. intros H n. cbn [enc]. apply H. Qed.
Lemma encs_eq t v b b' : encs t v b -> b = b' -> encs t v b'.
Proof. now intros ? <-. Qed.

Lemma enc_items_w {A} e (g : A -> val) (f : A -> bytes) l :
  (forall x, In x l -> encs e (g x) (f x)) ->
  enc_items (enc e false false) (map g l) = Some (concat (map f l)).
Proof.
  induction l as [|x l IH]; intros H; [reflexivity|].
  change (oapp (enc e false false (g x)) (enc_items (enc e false false) (map g l)) = Some (f x ++ concat (map f l))).
  rewrite (H x (or_introl eq_refl) false), IH; [reflexivity|]. intros y Hy. apply H. now right.
Qed.

Lemma encs_slice {A} e (g : A -> val) (f : A -> bytes) l :
  e <> TUint8 -> (forall x, In x l -> encs e (g x) (f x)) ->
  encs (TSlice e) (vslice (map g l)) (w_array f l).
Proof.
  intros He H n.
  transitivity (oapp (Some (enc_i32 (swrap 32 (zlen (map g l))))) (enc_items (enc e false false) (map g l))).
  { destruct e; try reflexivity. congruence. }
  rewrite (enc_items_w e g f l H), zlen_map. cbn [oapp obind].
  rewrite enc_i32_w, w_int32_swrap. reflexivity.
Qed.

Lemma val_bytes_map b : all_bytes b = true -> val_bytes (map VInt b) = Some b.
Proof.
  unfold all_bytes. induction b as [|x b IH]; intros H; [reflexivity|].
  cbn [forallb] in H. apply andb_true_iff in H as [Hx Hb].
  change (val_bytes (map VInt (x :: b))) with
    (match val_bytes (map VInt b) with Some r => Some (uwrap 8 x :: r) | None => None end).
  rewrite IH by assumption. f_equal. f_equal. apply uwrap_id; [lia|]. unfold is_byte in Hx. lia.
Qed.

Definition okb (o : option bytes) : bool := match o with Some b => all_bytes b | None => true end.

Lemma encs_vbytes o : okb o = true -> encs (TSlice TUint8) (vbytes o) (w_bytes o).
Proof.
  destruct o as [b|]; intros Hb n; cbn [vbytes option_map enc].
  - rewrite val_bytes_map by assumption. cbn [obind]. now rewrite enc_nbytes_w.
  - now rewrite enc_nbytes_w.
Qed.

Lemma str_text s : str s = w_text s.
Proof.
  unfold str, w_text. apply map_ext. intros c. unfold nat_of_ascii. lia.
Qed.

Create HintDb wire.
#[global] Hint Unfold tHeader0 tMetadataReq tBroker tPartitionV1 tTopicV1 tMetadataResp tFindReq tFindResp
  tHeartbeatReq tHeartbeatResp tLeaveReq tLeaveResp tJoinProtocol tJoinReq tJoinMember tJoinResp
  tSyncAssign tSyncReq tMemberPart tMemberAssignment tSyncResp tApiKey tApiVersionsResp
  tListReqPart tListReqTopic tListReq tListRespPart tListRespTopic tListResp
  tCommitReqPart tCommitReqTopic tCommitReq tCommitRespPart tCommitRespTopic tCommitResp
  tOffReqTopic tOffReq tOffRespPart tOffRespTopic tOffResp
  tMessageV1 tFetchReqPart tFetchReqTopic tFetchReq tFetchRespPart tFetchRespTopic tFetchResp : wire.

Ltac encs_step :=
  lazymatch goal with
  | |- encs TInt8 (VInt _) _ => apply encs_i8
  | |- encs TInt16 (VInt _) _ => apply encs_i16
  | |- encs TInt32 (VInt _) _ => apply encs_i32
  | |- encs TInt64 (VInt _) _ => apply encs_i64
  | |- encs TBool (VBool _) _ => apply encs_bool
  | |- encs TString (VStr _) _ => apply encs_str
  | |- encs TNullableString (VNStr _) _ => apply encs_nstr
  | |- encs (fields []) _ _ => apply encs_nil
  | |- encs (fields (_ :: _)) (VStruct (_ :: _)) _ => apply encs_cons
  | |- encs (TPtr _) (VPtr (Some _)) _ => apply encs_ptr
  | |- encs (TSlice TUint8) (vbytes _) _ => apply encs_vbytes; assumption
  end.
Ltac encs_tac := autounfold with wire; repeat encs_step.

(** ** Requests: decoding what the grammar produces *)

Lemma readable t v b : agrees t false false = true -> wt t v = true -> encs t v b -> good (dec t false) b v.
Proof.
  intros Ha Hw He. destruct (enc_dec_good t false false v Ha Hw) as (b' & Hb & Hg).
  rewrite (He false) in Hb. now inversion Hb; subst.
Qed.

Lemma peekObject_good t v b rest :
  good (dec t false) b v -> zlen b <= bufsize -> peekObject (b ++ rest) 0 t = DOk (zlen b) v.
Proof.
  intros Hg Hb. destruct (Hg []) as [H _]. specialize (H rest). cbn [app] in H.
  rewrite zlen_nil in H. unfold peekObject. rewrite H by lia. f_equal.
Qed.
Lemma peekObject_long t v b rest :
  good (dec t false) b v -> bufsize < zlen b -> peekObject (b ++ rest) 0 t = DFail.
Proof.
  intros Hg Hb. apply (good_beyond (dec t false) b v [] rest); auto.
  - intros. apply dec_window.
  - rewrite zlen_nil. unfold bufsize. lia.
Qed.

(** ** Legal values are well-typed *)
Lemma l_string_wt s : l_string s = true -> wt TString (VStr s) = true.
Proof. unfold l_string. cbn [wt]. change (2 ^ 15) with 32768. lia. Qed.
Lemma l_nstring_wt o : l_nstring o = true -> wt TNullableString (VNStr o) = true.
Proof. destruct o; [|reflexivity]. unfold l_nstring, l_string. cbn [wt]. change (2 ^ 15) with 32768. lia. Qed.
Lemma l_i16_wt z : l_i16 z = true -> wt TInt16 (VInt z) = true.
Proof. unfold l_i16. intros. cbn [wt]. apply in_s_iff. lia. Qed.
Lemma l_i32_wt z : l_i32 z = true -> wt TInt32 (VInt z) = true.
Proof. unfold l_i32. intros. cbn [wt]. apply in_s_iff. lia. Qed.
Lemma l_i64_wt z : l_i64 z = true -> wt TInt64 (VInt z) = true.
Proof. unfold l_i64. intros. cbn [wt]. apply in_s_iff. lia. Qed.
Lemma wt_slice {A} e (g : A -> val) (ok : A -> bool) l :
  (forall x, ok x = true -> wt e (g x) = true) ->
  l_count l && forallb ok l = true -> wt (TSlice e) (vslice (map g l)) = true.
Proof.
  intros H. unfold l_count. cbn [wt vslice]. rewrite zlen_map, !andb_true_iff.
  intros [H1 H2]. split; [change (2 ^ 31 - 1) with 2147483647; lia|].
  rewrite forallb_forall in *. intros v Hv. apply in_map_iff in Hv as (x & <- & Hx). auto.
Qed.
Lemma wt_cons t ts v vs : wt t v = true -> wt (fields ts) (VStruct vs) = true ->
  wt (fields (t :: ts)) (VStruct (v :: vs)) = true.
Proof. intros H1 H2. change (wt t v && wt (fields ts) (VStruct vs) = true). now rewrite H1, H2. Qed.
Lemma wt_bytes b : l_bytes b = true -> wt (TSlice TUint8) (vbytes (Some b)) = true.
Proof.
  unfold l_bytes, all_bytes. apply (wt_slice TUint8 VInt).
  intros x Hx. unfold is_byte in Hx. cbn [wt]. apply in_u_iff. lia.
Qed.

Ltac split_ands :=
  repeat match goal with
  | H : _ && _ = true |- _ => apply andb_true_iff in H; destruct H
  end.
Ltac wt_step :=
  lazymatch goal with
  | |- wt TInt16 (VInt _) = true => apply l_i16_wt; assumption
  | |- wt TInt32 (VInt _) = true => apply l_i32_wt; assumption
  | |- wt TInt64 (VInt _) = true => apply l_i64_wt; assumption
  | |- wt TString (VStr _) = true => apply l_string_wt; assumption
  | |- wt TNullableString (VNStr _) = true => apply l_nstring_wt; assumption
  | |- wt (TSlice TUint8) (vbytes _) = true => apply wt_bytes; assumption
  | |- wt (fields []) _ = true => reflexivity
  | |- wt (fields (_ :: _)) (VStruct (_ :: _)) = true => simple apply wt_cons
  end.
Ltac wt_tac := autounfold with wire; repeat wt_step.

(** A list of topics with per-partition entries. *)
Definition topicv {P} (g : P -> val) (t : bytes * list P) : val :=
  VStruct [VStr (fst t); vslice (map g (snd t))].

Lemma topics_encs {P} tp (g : P -> val) (f : P -> bytes) ts :
  tp <> TUint8 -> (forall x, encs tp (g x) (f x)) ->
  encs (TSlice (fields [TString; TSlice tp])) (vslice (map (topicv g) ts))
       (w_array (fun t => w_string (fst t) ++ w_array f (snd t)) ts).
Proof.
  intros Hu H. apply encs_slice; [discriminate|]. intros t _.
  eapply encs_eq; [apply encs_cons; [apply encs_str|]; apply encs_cons; [|apply encs_nil]|].
  - apply encs_slice; [assumption|]. intros x _. apply H.
  - now rewrite app_nil_r.
Qed.
Lemma topics_wt {P} tp (g : P -> val) (ok : P -> bool) ts :
  (forall x, ok x = true -> wt tp (g x) = true) -> l_topics ok ts = true ->
  wt (TSlice (fields [TString; TSlice tp])) (vslice (map (topicv g) ts)) = true.
Proof.
  intros H Hl. unfold l_topics in Hl. eapply wt_slice; [|exact Hl].
  intros t Ht. cbn beta in Ht. apply andb_true_iff in Ht as [Ht1 Ht2].
  apply wt_cons; [now apply l_string_wt|]. apply wt_cons; [|reflexivity].
  eapply wt_slice; [exact H|exact Ht2].
Qed.
Lemma mapM_map {A B} (f : B -> option A) (g : A -> B) l :
  (forall x, f (g x) = Some x) -> mapM f (map g l) = Some l.
Proof.
  intros H. induction l as [|x l IH]; [reflexivity|]. cbn. rewrite H. cbn.
  change (mapM f (map g l)) with (mapM f (map g l)) in IH. cbn in IH. now rewrite IH.
Qed.
Lemma topics_of {P} (h : val -> option P) (g : P -> val) ts :
  (forall x, h (g x) = Some x) -> list_of (topic_of h) (vslice (map (topicv g) ts)) = Some ts.
Proof.
  intros H. cbn [list_of vslice]. apply mapM_map. intros [n ps]. cbn [topic_of topicv fst snd].
  cbn [list_of vslice]. now rewrite mapM_map by exact H.
Qed.

(** *** The requests: value, encoding, decoding *)
Definition metadata_val (topics : list bytes) : val := VStruct [vslice (map VStr topics)].
#[global] Hint Unfold metadata_val : wire.
Lemma metadata_good topics : l_metadata topics = true ->
  good (dec tMetadataReq false) (w_metadata_req topics) (metadata_val topics).
Proof.
  intros H. apply readable; [reflexivity| |].
  - apply wt_cons; [|reflexivity]. eapply wt_slice; [|exact H]. apply l_string_wt.
  - eapply encs_eq; [apply encs_cons; [|apply encs_nil]; apply (encs_slice TString VStr w_string)|].
    + discriminate.
    + intros; apply encs_str.
    + now rewrite app_nil_r.
Qed.
Lemma metadata_of topics : metadata_req_of (metadata_val topics) = Some topics.
Proof. cbn [metadata_req_of metadata_val list_of vslice]. now apply mapM_map. Qed.

Definition find_val (key : bytes) : val := VStruct [VStr key].
#[global] Hint Unfold find_val : wire.
Lemma find_good key : l_string key = true -> good (dec tFindReq false) (w_find_req key) (find_val key).
Proof.
  intros H. apply readable; [reflexivity|wt_tac|].
  eapply encs_eq; [encs_tac|]. now rewrite app_nil_r.
Qed.

Definition heartbeat_val (g : bytes) (n : Z) (m : bytes) : val := VStruct [VStr g; VInt n; VStr m].
#[global] Hint Unfold heartbeat_val : wire.
Lemma heartbeat_good g n m : l_heartbeat g n m = true ->
  good (dec tHeartbeatReq false) (w_heartbeat_req g n m) (heartbeat_val g n m).
Proof.
  unfold l_heartbeat. intros H. split_ands. apply readable; [reflexivity|wt_tac|].
  eapply encs_eq; [encs_tac|]. now rewrite app_nil_r.
Qed.

Definition leave_val (g m : bytes) : val := VStruct [VStr g; VStr m].
#[global] Hint Unfold leave_val : wire.
Lemma leave_good g m : l_leave g m = true ->
  good (dec tLeaveReq false) (w_leave_req g m) (leave_val g m).
Proof.
  unfold l_leave. intros H. split_ands. apply readable; [reflexivity|wt_tac|].
  eapply encs_eq; [encs_tac|]. now rewrite app_nil_r.
Qed.

Definition namedv (p : bytes * bytes) : val := VStruct [VStr (fst p); vbytes (Some (snd p))].
#[global] Hint Unfold namedv : wire.
Lemma named_wt ps : l_named ps = true ->
  wt (TSlice (fields [TString; TSlice TUint8])) (vslice (map namedv ps)) = true.
Proof.
  intros H. eapply wt_slice; [|exact H]. intros [a b] Hab. cbn [fst snd] in *. split_ands.
  unfold namedv. cbn [fst snd]. wt_tac.
Qed.
Lemma named_encs ps : l_named ps = true ->
  encs (TSlice (fields [TString; TSlice TUint8])) (vslice (map namedv ps))
       (w_array (fun p => w_string (fst p) ++ w_bytes (Some (snd p))) ps).
Proof.
  unfold l_named. intros H. split_ands. apply encs_slice; [discriminate|]. intros [a b] Hin.
  rewrite forallb_forall in H0. specialize (H0 _ Hin). cbn [fst snd] in *. split_ands.
  unfold l_bytes in *. split_ands.
  eapply encs_eq; [apply encs_cons; [apply encs_str|]; apply encs_cons; [apply encs_vbytes; assumption|apply encs_nil]|].
  now rewrite app_nil_r.
Qed.

Definition join_val (g : bytes) (s r : Z) (m t : bytes) (ps : list (bytes * bytes)) : val :=
  VStruct [VStr g; VInt s; VInt r; VStr m; VStr t; vslice (map namedv ps)].
#[global] Hint Unfold join_val : wire.
Lemma join_good g s r m t ps : l_join g s r m t ps = true ->
  good (dec tJoinReq false) (w_join_req g s r m t ps) (join_val g s r m t ps).
Proof.
  unfold l_join. intros H. split_ands. apply readable; [reflexivity| |].
  - unfold join_val. wt_tac. now apply named_wt.
  - eapply encs_eq; [encs_tac; now apply named_encs|]. now rewrite app_nil_r.
Qed.

Definition sync_val (g : bytes) (n : Z) (m : bytes) (ps : list (bytes * bytes)) : val :=
  VStruct [VStr g; VInt n; VStr m; vslice (map namedv ps)].
#[global] Hint Unfold sync_val : wire.
Lemma sync_good g n m ps : l_sync g n m ps = true ->
  good (dec tSyncReq false) (w_sync_req g n m ps) (sync_val g n m ps).
Proof.
  unfold l_sync. intros H. split_ands. apply readable; [reflexivity| |].
  - unfold sync_val. wt_tac. now apply named_wt.
  - eapply encs_eq; [encs_tac; now apply named_encs|]. now rewrite app_nil_r.
Qed.
Lemma sync_of g n m ps : sync_req_of (sync_val g n m ps) = Some (zlen ps).
Proof. cbn. now rewrite zlen_map. Qed.

Definition list_partv (p : list_part) : val := VStruct [VInt (lpIndex p); VInt (lpTime p)].
#[global] Hint Unfold list_partv : wire.
Definition mk_list_part (p : Z * Z) : list_part := ListPart (fst p) (snd p).
Definition mk_topics {P Q} (f : P -> Q) (ts : list (bytes * list P)) : list (topic_req Q) :=
  map (fun t => (fst t, map f (snd t))) ts.

Lemma topicv_mk {P Q} (f : P -> Q) (g : Q -> val) ts :
  map (topicv g) (mk_topics f ts) = map (topicv (fun x => g (f x))) ts.
Proof.
  unfold mk_topics. rewrite map_map. apply map_ext. intros [n ps].
  unfold topicv. cbn [fst snd]. now rewrite map_map.
Qed.

Definition list_val (rq : list_req) : val :=
  VStruct [VInt (lqReplica rq); vslice (map (topicv list_partv) (lqTopics rq))].
#[global] Hint Unfold list_val : wire.
Definition mk_list_req (replica : Z) (ts : list (bytes * list (Z * Z))) : list_req :=
  ListReq replica (mk_topics mk_list_part ts).
Lemma list_good replica ts : l_list replica ts = true ->
  good (dec tListReq false) (w_list_req replica ts) (list_val (mk_list_req replica ts)).
Proof.
  unfold l_list. intros H. split_ands. unfold list_val, mk_list_req. cbn [lqReplica lqTopics].
  rewrite topicv_mk. apply readable; [reflexivity| |].
  - wt_tac. eapply topics_wt; [|eassumption]. intros [i t] Hp. cbn [fst snd] in Hp. split_ands.
    unfold list_partv, mk_list_part. cbn [lpIndex lpTime fst snd]. wt_tac.
  - eapply encs_eq; [encs_tac; apply (topics_encs _ _ (fun p => w_int32 (fst p) ++ w_int64 (snd p)))|].
    + discriminate.
    + intros [i t]. eapply encs_eq; [encs_tac|]. now rewrite app_nil_r.
    + now rewrite app_nil_r.
Qed.
Lemma list_req_of_val rq : list_req_of (list_val rq) = Some rq.
Proof.
  destruct rq as [r ts]. cbn [list_req_of list_val lqReplica lqTopics].
  rewrite topics_of; [reflexivity|]. now intros [].
Qed.

Definition commit_partv (p : commit_part) : val :=
  VStruct [VInt (cpIndex p); VInt (cpOffset p); VNStr (cpMeta p)].
#[global] Hint Unfold commit_partv : wire.
Definition mk_commit_part (p : Z * Z * option bytes) : commit_part :=
  let '(i, o, m) := p in CommitPart i o m.
Definition commit_val (rq : commit_req) : val :=
  VStruct [VStr (cqGroup rq); VInt (cqGen rq); VStr (cqMember rq); VInt (cqRetention rq);
           vslice (map (topicv commit_partv) (cqTopics rq))].
#[global] Hint Unfold commit_val : wire.
Definition mk_commit_req g gen m ret (ts : list (bytes * list (Z * Z * option bytes))) : commit_req :=
  CommitReq g gen m ret (mk_topics mk_commit_part ts).
Lemma commit_good g gen m ret ts : l_commit g gen m ret ts = true ->
  good (dec tCommitReq false) (w_commit_req g gen m ret ts) (commit_val (mk_commit_req g gen m ret ts)).
Proof.
  unfold l_commit. intros H. split_ands. unfold commit_val, mk_commit_req.
  cbn [cqGroup cqGen cqMember cqRetention cqTopics].
  rewrite topicv_mk. apply readable; [reflexivity| |].
  - wt_tac. eapply topics_wt; [|eassumption]. intros [[i o] me] Hp. split_ands.
    unfold commit_partv, mk_commit_part. cbn [cpIndex cpOffset cpMeta]. wt_tac.
  - eapply encs_eq; [encs_tac; apply (topics_encs _ _ (fun p : Z * Z * option bytes =>
      let '(i, o, m) := p in w_int32 i ++ w_int64 o ++ w_nstring m))|].
    + discriminate.
    + intros [[i o] me]. eapply encs_eq; [encs_tac|]. now rewrite app_nil_r.
    + now rewrite app_nil_r.
Qed.
Lemma commit_req_of_val rq : commit_req_of (commit_val rq) = Some rq.
Proof.
  destruct rq as [g gen m ret ts]. cbn [commit_req_of commit_val cqGroup cqGen cqMember cqRetention cqTopics].
  rewrite topics_of; [reflexivity|]. now intros [].
Qed.

Definition off_val (rq : off_req) : val :=
  VStruct [VStr (oqGroup rq); vslice (map (topicv VInt) (oqTopics rq))].
#[global] Hint Unfold off_val : wire.
Lemma off_good g ts : l_off g ts = true ->
  good (dec tOffReq false) (w_off_req g ts) (off_val (OffReq g ts)).
Proof.
  unfold l_off. intros H. split_ands. unfold off_val. cbn [oqGroup oqTopics]. apply readable; [reflexivity| |].
  - wt_tac. eapply topics_wt; [|eassumption]. intros z Hz. wt_tac.
  - eapply encs_eq; [encs_tac; apply (topics_encs _ _ w_int32)|].
    + discriminate.
    + intros z. apply encs_i32.
    + now rewrite app_nil_r.
Qed.
Lemma off_req_of_val rq : off_req_of (off_val rq) = Some rq.
Proof.
  destruct rq as [g ts]. cbn [off_req_of off_val oqGroup oqTopics].
  rewrite topics_of; [reflexivity|]. reflexivity.
Qed.

Definition fetch_partv (p : fetch_part) : val :=
  VStruct [VInt (fpIndex p); VInt (fpOffset p); VInt (fpMax p)].
#[global] Hint Unfold fetch_partv : wire.
Definition mk_fetch_part (p : Z * Z * Z) : fetch_part := let '(i, o, m) := p in FetchPart i o m.
Definition fetch_val (rq : fetch_req) : val :=
  VStruct [VInt (fqReplica rq); VInt (fqWait rq); VInt (fqMin rq);
           vslice (map (topicv fetch_partv) (fqTopics rq))].
#[global] Hint Unfold fetch_val : wire.
Definition mk_fetch_req r w m (ts : list (bytes * list (Z * Z * Z))) : fetch_req :=
  FetchReq r w m (mk_topics mk_fetch_part ts).
Lemma fetch_good r w mb ts : l_fetch r w mb ts = true ->
  good (dec tFetchReq false) (w_fetch_req r w mb ts) (fetch_val (mk_fetch_req r w mb ts)).
Proof.
  unfold l_fetch. intros H. split_ands. unfold fetch_val, mk_fetch_req.
  cbn [fqReplica fqWait fqMin fqTopics].
  rewrite topicv_mk. apply readable; [reflexivity| |].
  - wt_tac. eapply topics_wt; [|eassumption]. intros [[i o] me] Hp. split_ands.
    unfold fetch_partv, mk_fetch_part. cbn [fpIndex fpOffset fpMax]. wt_tac.
  - eapply encs_eq; [encs_tac; apply (topics_encs _ _ (fun p : Z * Z * Z =>
      let '(i, o, m) := p in w_int32 i ++ w_int64 o ++ w_int32 m))|].
    + discriminate.
    + intros [[i o] me]. eapply encs_eq; [encs_tac|]. now rewrite app_nil_r.
    + now rewrite app_nil_r.
Qed.
Lemma fetch_req_of_val rq : fetch_req_of (fetch_val rq) = Some rq.
Proof.
  destruct rq as [r w m ts]. cbn [fetch_req_of fetch_val fqReplica fqWait fqMin fqTopics].
  rewrite topics_of; [reflexivity|]. now intros [].
Qed.
