(** * CodecMore: the shape of varints, over-long varints, string lengths *)
From Verif Require Export CodecProofs CodecSpec WireProofs FetchEnc.
From Coq Require Import ZifyBool ZifyNat Permutation Sorted.
Ltac Zify.zify_post_hook ::= Z.div_mod_to_equations.
Open Scope Z_scope.

Lemma mk_loop_leb fuel : forall v, (0 < fuel)%nat -> 0 <= v < 2 ^ (7 * Z.of_nat fuel) ->
  leb128 v (mk_varuint_loop fuel v).
Proof.
  induction fuel as [|fuel IH]; intros v Hf Hv; [lia|].
  cbn [mk_varuint_loop]. rewrite land127, shiftr7.
  destruct (127 <? v) eqn:E.
  - destruct fuel as [|f].
    { exfalso. change (2 ^ (7 * Z.of_nat 1)) with 128 in Hv. lia. }
    rewrite lor128 by (apply Z.mod_pos_bound; lia).
    destruct (IH (v / 128)) as (H1 & H2 & H3); [lia| |].
    { replace (7 * Z.of_nat (S (S f))) with (7 + 7 * Z.of_nat (S f)) in Hv by lia.
      rewrite Z.pow_add_r in Hv by lia. change (2 ^ 7) with 128 in Hv. split; [apply Z.div_pos; lia|].
      apply Z.div_lt_upper_bound; lia. }
    set (l := mk_varuint_loop (S f) (v / 128)) in *.
    assert (Hne : l <> []) by (intros El; rewrite El in H1; exact H1).
    pose proof (Z.mod_pos_bound v 128 ltac:(lia)) as Hm.
    split; [|split].
    + destruct l as [|b l']; [congruence|]. split; [lia|exact H1].
    + cbn [leb_value]. rewrite H2. replace ((v mod 128 + 128) mod 128) with (v mod 128).
      * pose proof (Z.div_mod v 128 ltac:(lia)). lia.
      * rewrite <- Zplus_mod_idemp_r. change (128 mod 128) with 0. rewrite Z.add_0_r. now rewrite Z.mod_mod by lia.
    + right. rewrite zlen_cons. replace (zlen l + 1 - 1) with (zlen l) by lia.
      pose proof (Z.div_mod v 128 ltac:(lia)) as Hd.
      destruct H3 as [H3|H3].
      * rewrite H3. change (128 ^ 1) with 128. lia.
      * assert (0 < zlen l) by (destruct l; [congruence|rewrite zlen_cons; pose proof (zlen_nonneg l); lia]).
        replace (zlen l) with (Z.succ (zlen l - 1)) by lia. rewrite Z.pow_succ_r by lia. lia.
  - split; [cbn; lia|]. split.
    + cbn [leb_value]. rewrite Z.mod_mod by lia. rewrite Z.mod_small by lia. lia.
    + left. reflexivity.
Qed.

Lemma mk_varuint_leb v : 0 <= v < 2 ^ 64 -> leb128 v (mk_varuint v).
Proof. intros H. apply mk_loop_leb; [lia|]. change (2 ^ (7 * Z.of_nat 10)) with (2 ^ 70). lia. Qed.

Lemma zz_spec n : zz n = zigzag_spec n.
Proof. reflexivity. Qed.

Theorem varuint_shape v : 0 <= v < 2 ^ 32 ->
  exists l, encodeObject TVarUint (VInt v) = Some l /\ leb128 v l /\ 1 <= zlen l <= 5.
Proof.
  intros H. exists (mk_varuint v). unfold encodeObject; cbn [enc]. unfold enc_varuint. rewrite uwrap_id by lia. split; [reflexivity|].
  split; [apply mk_varuint_leb; lia|]. pose proof (mk_varuint_len32 v H). unfold zlen. lia.
Qed.
Theorem varuint64_shape v : 0 <= v < 2 ^ 64 ->
  exists l, encodeObject TVarUint64 (VInt v) = Some l /\ leb128 v l /\ 1 <= zlen l <= 10.
Proof.
  intros H. exists (mk_varuint v). unfold encodeObject; cbn [enc]. unfold enc_varuint64. rewrite uwrap_id by lia. split; [reflexivity|].
  split; [apply mk_varuint_leb; lia|]. pose proof (mk_varuint_len64 v H). unfold zlen. lia.
Qed.
Theorem varint_shape n : - 2 ^ 31 <= n < 2 ^ 31 ->
  exists l, encodeObject TVarInt (VInt n) = Some l /\ leb128 (zigzag_spec n) l /\ 1 <= zlen l <= 5.
Proof.
  intros H. exists (mk_varuint (zz n)). unfold encodeObject; cbn [enc]. unfold enc_varint. rewrite zigzag_zz by (auto; lia).
  pose proof (zz_range 32 n ltac:(lia) ltac:(lia)) as Hz. split; [reflexivity|].
  split; [apply mk_varuint_leb; change (2 ^ 64) with (2 ^ 32 * 2 ^ 32); lia|].
  pose proof (mk_varuint_len32 (zz n) Hz). unfold zlen. lia.
Qed.
Theorem varint64_shape n : - 2 ^ 63 <= n < 2 ^ 63 ->
  exists l, encodeObject TVarInt64 (VInt n) = Some l /\ leb128 (zigzag_spec n) l /\ 1 <= zlen l <= 10.
Proof.
  intros H. exists (mk_varuint (zz n)). unfold encodeObject; cbn [enc]. unfold enc_varint64. rewrite zigzag_zz by (auto; lia).
  pose proof (zz_range 64 n ltac:(lia) ltac:(lia)) as Hz. split; [reflexivity|].
  split; [now apply mk_varuint_leb|]. pose proof (mk_varuint_len64 (zz n) Hz). unfold zlen. lia.
Qed.

(** Small values take one byte. *)
Lemma leb128_one v l : leb128 v l -> v < 128 -> zlen l = 1.
Proof.
  intros (H1 & H2 & [H3|H3]) Hv; [assumption|].
  destruct (Z.le_gt_cases (zlen l) 1) as [Hl|Hl].
  - destruct l; [contradiction|]. rewrite zlen_cons in *. pose proof (zlen_nonneg l). lia.
  - exfalso. assert (128 ^ 1 <= 128 ^ (zlen l - 1)) by (apply Z.pow_le_mono_r; lia). lia.
Qed.

(** ** Over-long and cut varints *)
Definition continues (b : Z) : bool := 128 <=? b.
Lemma land128_byte b : 128 <= b < 256 -> Z.land b 128 = 128.
Proof. intros H. replace b with (b - 128 + 128) by lia. apply land128_big. lia. Qed.
Lemma varuint_loop_cont w l : forall next shift acc,
  Forall (fun b => 128 <= b < 256) l -> varuint_loop w l next shift acc = DFail.
Proof.
  induction l as [|b l IH]; intros next shift acc H; [reflexivity|]. inversion H; subst.
  cbn [varuint_loop]. rewrite land128_byte by assumption. cbn. auto.
Qed.
Lemma varuint_w_cont w maxb pre l : 0 <= maxb -> Forall (fun b => 128 <= b < 256) (firstn (Z.to_nat maxb) l) ->
  peek_varuint_w w maxb (pre ++ l) (zlen pre) = DFail.
Proof.
  intros Hm H. unfold peek_varuint_w, peek_avail. pose proof (zlen_nonneg pre).
  destruct (Z.le_gt_cases (zlen pre) (Z.min (zlen pre + maxb) bufsize)) as [Hle|Hgt].
  - rewrite skipn_firstn_avail by assumption. apply varuint_loop_cont.
    assert (E : firstn (Z.to_nat (Z.min (zlen pre + maxb) bufsize - zlen pre)) l =
      firstn (Z.to_nat (Z.min (zlen pre + maxb) bufsize - zlen pre)) (firstn (Z.to_nat maxb) l)).
    { rewrite firstn_firstn. f_equal. lia. }
    rewrite E. rewrite Forall_forall in *. intros x Hx. apply H.
    rewrite <- (firstn_skipn (Z.to_nat (Z.min (zlen pre + maxb) bufsize - zlen pre))). apply in_or_app. now left.
  - rewrite skipn_all2; [reflexivity|]. rewrite firstn_length. unfold zlen in *. lia.
Qed.
Theorem varint_overlong pre l :
  (Forall (fun b => 128 <= b < 256) (firstn 5 l) ->
     peekObject (pre ++ l) (zlen pre) TVarUint = DFail /\ peekObject (pre ++ l) (zlen pre) TVarInt = DFail) /\
  (Forall (fun b => 128 <= b < 256) (firstn 10 l) ->
     peekObject (pre ++ l) (zlen pre) TVarUint64 = DFail /\ peekObject (pre ++ l) (zlen pre) TVarInt64 = DFail).
Proof.
  split; intros H; cbn; unfold peek_varint, peek_varint64, peek_varuint, peek_varuint64;
    rewrite varuint_w_cont by (assumption || lia); auto.
Qed.

(** ** Lengths of strings *)
(** A string of 32768 to 65535 bytes is announced with a negative length, read
    as an empty string that ends after the length field. *)
Theorem string_long s pre rest : 32768 <= zlen s < 65536 -> zlen pre + 2 <= 4096 ->
  exists h, encodeObject TString (VStr s) = Some (h ++ s) /\ zlen h = 2 /\
    peekObject (pre ++ (h ++ s) ++ rest) (zlen pre) TString = DOk (zlen pre + 2) (VStr []) /\
    peekObject (pre ++ (h ++ s) ++ rest) (zlen pre) TNullableString = DOk (zlen pre + 2) (VNStr None).
Proof.
  intros Hs Hp. exists (enc_i16 (swrap 16 (zlen s))). unfold encodeObject, peekObject; cbn [enc dec]. split; [reflexivity|].
  split; [reflexivity|].
  assert (E : peek_data16 (pre ++ (enc_i16 (swrap 16 (zlen s)) ++ s) ++ rest) (zlen pre) = DOk (zlen pre + 2) None).
  { unfold peek_data16. rewrite <- app_assoc. rewrite (peek_ok pre (enc_i16 (swrap 16 (zlen s)))).
    - rewrite skipn_pre. unfold enc_i16. rewrite uwrap_swrap by lia. rewrite be_get_put.
      change (256 ^ Z.of_nat 2) with (2 ^ 16). unfold uwrap. rewrite Z.mod_mod by lia.
      rewrite Z.mod_small by (change (2 ^ 16) with 65536; lia).
      replace (swrap 16 (zlen s) <? 0) with true; [reflexivity|].
      unfold swrap. change (2 ^ (16 - 1)) with 32768. change (2 ^ 16) with 65536. lia.
    - reflexivity.
    - unfold bufsize. lia. }
  rewrite E. auto.
Qed.

(** ** Cut input *)
Lemma good_cut {A} (d : bytes -> Z -> dres A) bs a pre k :
  (forall r o, d (window r) o = d r o) -> good d bs a ->
  zlen pre <= bufsize -> (k < length bs)%nat -> d (pre ++ firstn k bs) (zlen pre) = DFail.
Proof.
  intros Hw Hg Hp Hk. destruct (Z.le_gt_cases (zlen pre + Z.of_nat k) bufsize) as [H|H].
  - destruct (Hg pre) as [_ G]. auto.
  - rewrite <- Hw. unfold window. rewrite firstn_app_ge by (unfold zlen, bufsize in *; lia).
    rewrite firstn_firstn. destruct (Hg pre) as [_ G]. apply G; unfold zlen, bufsize in *; lia.
Qed.

Theorem cut_rejected t v bs pre : agrees t false false = true -> wt t v = true -> encodeObject t v = Some bs ->
  zlen pre <= 4096 ->
  (forall k, (k < length bs)%nat -> peekObject (pre ++ firstn k bs) (zlen pre) t = DFail) /\
  (forall rest, 4096 < zlen pre + zlen bs -> peekObject (pre ++ bs ++ rest) (zlen pre) t = DFail).
Proof.
  intros Ha Hw He Hp. destruct (enc_dec_good t false false v Ha Hw) as (bs' & He' & Hg).
  unfold encodeObject in He. rewrite He in He'. injection He' as <-.
  unfold peekObject. split.
  - intros k Hk. eapply good_cut; eauto. intros. apply dec_window.
  - intros rest Hb. eapply good_beyond; eauto. intros. apply dec_window.
Qed.

Theorem round_trip t v : agrees t false false = true -> wt t v = true -> round_trips t v.
Proof.
  intros Ha Hw. destruct (enc_dec_good t false false v Ha Hw) as (bs & He & Hg).
  exists bs. split; [exact He|]. intros pre rest H. destruct (Hg pre) as [G _]. now apply G.
Qed.

(** ** Tags on the wire *)
Definition raw_tag (e : Z * (ty * val)) : Z * bytes :=
  (fst e, match encodeObject (fst (snd e)) (snd (snd e)) with Some d => d | None => [] end).
Lemma enc_varuint_leb v : 0 <= v < 2 ^ 32 -> leb128 v (enc_varuint v).
Proof.
  intros H. unfold enc_varuint. rewrite uwrap_id by lia. apply mk_varuint_leb.
  change (2 ^ 64) with (2 ^ 32 * 2 ^ 32). lia.
Qed.
Lemma enc_tag_list_layout fields tags bs : Forall (tag_ok fields) tags -> enc_tag_list tags = Some bs ->
  tags_layout (map raw_tag tags) bs.
Proof.
  intros HF. revert bs. induction HF as [|[id [t v]] tags (Hid & Ha & Hw & Hlen & Hf) HF IH]; intros bs H.
  - injection H as <-. constructor.
  - cbn [fst snd] in *. cbn [enc_tag_list] in H. destruct (encodeObject t v) as [d|] eqn:Ed; [|discriminate].
    cbn [obind oapp] in H. destruct (enc_tag_list tags) as [b|]; [|discriminate]. cbn [oapp obind] in H.
    injection H as <-. cbn [map]. unfold raw_tag at 1. cbn [fst snd]. rewrite Ed, <- !app_assoc.
    constructor; auto.
    + apply enc_varuint_leb. now apply in_u_iff in Hid.
    + apply enc_varuint_leb. pose proof (zlen_nonneg d). specialize (Hlen d eq_refl). lia.
Qed.
Theorem tags_round_trip fields m : zlen m < 2 ^ 32 -> NoDup (map fst m) -> Forall (tag_ok fields) m ->
  exists order bs count,
    Permutation order m /\ StronglySorted Z.lt (map fst order) /\
    encodeTags m = Some (count ++ bs) /\
    leb128 (zlen m) count /\ tags_layout (map raw_tag order) bs /\
    forall pre, zlen pre <= 4096 ->
      (forall rest, zlen pre + zlen (count ++ bs) <= 4096 ->
         peekTags fields (pre ++ (count ++ bs) ++ rest) (zlen pre) =
         DOk (zlen pre + zlen (count ++ bs)) (tags_of fields order)) /\
      (forall k, (k < length (count ++ bs))%nat -> zlen pre + Z.of_nat k <= 4096 ->
         peekTags fields (pre ++ firstn k (count ++ bs)) (zlen pre) = DFail).
Proof.
  intros Hl Hn HF. destruct (tags_good fields m Hl HF) as (bs & Hb & Hg).
  unfold encodeTags in Hb. destruct (enc_tag_list (sort_tags m)) as [b|] eqn:E; [|discriminate].
  cbn [oapp obind] in Hb. injection Hb as <-.
  exists (sort_tags m), b, (enc_varuint (zlen m)). split; [apply sort_tags_perm|].
  split; [now apply sort_tags_lt|]. split; [unfold encodeTags; now rewrite E|].
  split; [apply enc_varuint_leb; pose proof (zlen_nonneg m); lia|].
  split; [eapply enc_tag_list_layout; [|exact E]; rewrite sort_tags_perm; exact HF|].
  intros pre _. exact (Hg pre).
Qed.

(** ** Null arrays *)
Definition badset (t : ty) (bs : bytes) : Prop :=
  forall pre n a, zlen pre <= bufsize -> dec t false (pre ++ bs) (zlen pre) = DOk n a -> settable t a = false.

Lemma legal_good t v bs : legal_bytes t v bs -> good (dec t false) bs v /\ settable t v = true.
Proof.
  intros (Ha & Hw & He). destruct (enc_dec_good t false false v Ha Hw) as (bs' & He' & Hg).
  unfold encodeObject in He. rewrite He in He'. injection He' as <-. split; [assumption|].
  eapply wt_settable; eauto.
Qed.

(** A good item is passed over (or fails already). *)
Lemma pass_good t v bs more pre : legal_bytes t v bs -> zlen pre <= bufsize ->
  (dec t false (pre ++ bs ++ more) (zlen pre) = DOk (zlen (pre ++ bs)) v /\ zlen (pre ++ bs) <= bufsize) \/
  dec t false (pre ++ bs ++ more) (zlen pre) = DFail.
Proof.
  intros Hl Hp. apply legal_good in Hl as [Hg _].
  destruct (Z.le_gt_cases (zlen pre + zlen bs) bufsize) as [H|H].
  - left. rewrite zlen_app. destruct (Hg pre) as [G _]. auto.
  - right. eapply good_beyond; eauto. intros. apply dec_window.
Qed.

Lemma bad_fields t ts2 nbs : badset t nbs -> forall ts1 vs bs, legal_list ts1 vs bs ->
  forall pre, zlen pre <= bufsize ->
  forall n a, dec_fields dec (pre ++ concat bs ++ nbs) (map (fun t => (plain, t)) (ts1 ++ t :: ts2)) (zlen pre) <> DOk n a.
Proof.
  intros Hb ts1 vs bs H. induction H as [|t1 v1 b1 ts1 vs bs H1 _ IH]; intros pre Hp n a E.
  - cbn [app map dec_fields concat plain tCompact] in E.
    destruct (dec t false (pre ++ nbs) (zlen pre)) as [n' a'| |] eqn:Ed; try discriminate.
    rewrite (Hb pre n' a' Hp Ed) in E. discriminate.
  - cbn [app map dec_fields concat plain tCompact] in E. rewrite <- app_assoc in E.
    destruct (pass_good t1 v1 b1 (concat bs ++ nbs) pre H1 Hp) as [[Ed Hp']|Ed]; rewrite Ed in E; [|discriminate].
    apply legal_good in H1 as [_ Hset]. rewrite Hset in E.
    rewrite app_assoc in E.
    destruct (dec_fields dec ((pre ++ b1) ++ concat bs ++ nbs) (map (fun t => (plain, t)) (ts1 ++ t :: ts2)) (zlen (pre ++ b1))) as [n' a'| |] eqn:Ef;
      try discriminate.
    eapply IH; eauto.
Qed.

Lemma bad_items t nbs : badset t nbs -> forall vs bs, Forall2 (legal_bytes t) vs bs ->
  forall k pre, (length vs < k)%nat -> zlen pre <= bufsize ->
  forall n a, dec_items (dec t false) (settable t) (pre ++ concat bs ++ nbs) k (zlen pre) <> DOk n a.
Proof.
  intros Hb vs bs H. induction H as [|v1 b1 vs bs H1 _ IH]; intros k pre Hk Hp n a E.
  - destruct k as [|k]; [cbn in Hk; lia|]. cbn [dec_items concat app] in E.
    destruct (dec t false (pre ++ nbs) (zlen pre)) as [n' a'| |] eqn:Ed; try discriminate.
    rewrite (Hb pre n' a' Hp Ed) in E. discriminate.
  - destruct k as [|k]; [cbn in Hk; lia|]. cbn [dec_items concat] in E. rewrite <- app_assoc in E.
    destruct (pass_good t v1 b1 (concat bs ++ nbs) pre H1 Hp) as [[Ed Hp']|Ed]; rewrite Ed in E; [|discriminate].
    apply legal_good in H1 as [_ Hset]. rewrite Hset in E. rewrite app_assoc in E. fold (dec_items (dec t false) (settable t) ((pre ++ b1) ++ concat bs ++ nbs)) in E.
    destruct (dec_items (dec t false) (settable t) ((pre ++ b1) ++ concat bs ++ nbs) k (zlen (pre ++ b1))) as [n' a'| |] eqn:Ef;
      try discriminate.
    eapply IH; [| |exact Ef]; [cbn in Hk; lia|assumption].
Qed.

Lemma peek_count n more pre : - 2 ^ 31 <= n < 2 ^ 31 -> zlen pre <= bufsize ->
  (peek_sint 4 (pre ++ enc_i32 n ++ more) (zlen pre) = DOk (zlen (pre ++ enc_i32 n)) n /\ zlen (pre ++ enc_i32 n) <= bufsize) \/
  peek_sint 4 (pre ++ enc_i32 n ++ more) (zlen pre) = DFail.
Proof.
  intros Hn Hp. assert (Hg : good (peek_sint 4) (enc_i32 n) n) by (apply good_sint; [lia|exact Hn|reflexivity]).
  rewrite zlen_app. destruct (Z.le_gt_cases (zlen pre + zlen (enc_i32 n)) bufsize) as [H|H].
  - left. destruct (Hg pre) as [G _]. auto.
  - right. apply (good_beyond (peek_sint 4) (enc_i32 n) n); auto. intros. apply peek_sint_window.
Qed.

Lemma null_badset t bs : null_in t bs -> badset t bs.
Proof.
  induction 1 as [e n rest Hn|ts1 vs bs t ts2 nbs Hl _ IH|t n vs bs nbs Hn Hl _ IH]; intros pre m a Hp E.
  - cbn [dec] in E. unfold dec_var_array in E.
    destruct (peek_count n rest pre ltac:(lia) Hp) as [[Ep _]|Ep]; rewrite Ep in E; [|discriminate].
    unfold dec_fixed_array in E. replace (n <? 0) with true in E by lia. now injection E as <- <-.
  - exfalso. unfold pfields in E. cbn [dec] in E.
    destruct (dec_fields dec (pre ++ concat bs ++ nbs) (map (fun t => (plain, t)) (ts1 ++ t :: ts2)) (zlen pre)) as [n' a'| |] eqn:Ef;
      try discriminate.
    eapply bad_fields; eauto.
  - exfalso. cbn [dec] in E. unfold dec_var_array in E.
    pose proof (zlen_nonneg vs).
    destruct (peek_count n (concat bs ++ nbs) pre ltac:(lia) Hp) as [[Ep Hp']|Ep]; rewrite Ep in E; [|discriminate].
    unfold dec_fixed_array in E. replace (n <? 0) with false in E by lia. rewrite app_assoc in E.
    destruct (dec_items (dec t false) (settable t) ((pre ++ enc_i32 n) ++ concat bs ++ nbs) (Z.to_nat n) (zlen (pre ++ enc_i32 n))) as [n' a'| |] eqn:Ef;
      try discriminate.
    eapply bad_items; [exact IH|exact Hl| |exact Hp'|exact Ef]. unfold zlen in *. lia.
Qed.

(** A struct with a null array in it is not read. *)
Theorem null_rejected ts bs : null_in (pfields ts) bs ->
  forall pre n a, zlen pre <= 4096 -> peekObject (pre ++ bs) (zlen pre) (pfields ts) <> DOk n a.
Proof.
  intros H pre n a Hp E. pose proof (null_badset _ _ H pre n a Hp E) as Hs.
  unfold peekObject, pfields in E. cbn [dec] in E. destruct (dec_fields _ _ _ _); try discriminate.
  injection E as <- <-. discriminate.
Qed.

(** ** Primitive values *)
Theorem primitives_round_trip :
  (forall b, round_trips TBool (VBool b)) /\
  (forall z, - 2 ^ 7 <= z < 2 ^ 7 -> round_trips TInt8 (VInt z)) /\
  (forall z, - 2 ^ 15 <= z < 2 ^ 15 -> round_trips TInt16 (VInt z)) /\
  (forall z, - 2 ^ 31 <= z < 2 ^ 31 -> round_trips TInt32 (VInt z) /\ round_trips TInt (VInt z)) /\
  (forall z, - 2 ^ 63 <= z < 2 ^ 63 -> round_trips TInt64 (VInt z)) /\
  (forall z, 0 <= z < 2 ^ 8 -> round_trips TUint8 (VInt z)) /\
  (forall z, 0 <= z < 2 ^ 16 -> round_trips TUint16 (VInt z)) /\
  (forall z, 0 <= z < 2 ^ 32 -> round_trips TUint32 (VInt z) /\ round_trips TUint (VInt z)) /\
  (forall z, 0 <= z < 2 ^ 64 -> round_trips TUint64 (VInt z) /\ round_trips TFloat64 (VInt z)) /\
  (forall u, zlen u = 16 -> round_trips TUuid (VUuid u)) /\
  (forall z, - 2 ^ 31 <= z < 2 ^ 31 -> round_trips TVarInt (VInt z)) /\
  (forall z, - 2 ^ 63 <= z < 2 ^ 63 -> round_trips TVarInt64 (VInt z)) /\
  (forall z, 0 <= z < 2 ^ 32 -> round_trips TVarUint (VInt z)) /\
  (forall z, 0 <= z < 2 ^ 64 -> round_trips TVarUint64 (VInt z)).
Proof.
  assert (S : forall t z w, agrees t false false = true -> (wt t (VInt z) = in_s w z) ->
    - 2 ^ (w - 1) <= z < 2 ^ (w - 1) -> round_trips t (VInt z)).
  { intros t z w Ha Hw Hz. apply round_trip; [assumption|]. rewrite Hw. now apply in_s_iff. }
  assert (U : forall t z w, agrees t false false = true -> (wt t (VInt z) = in_u w z) ->
    0 <= z < 2 ^ w -> round_trips t (VInt z)).
  { intros t z w Ha Hw Hz. apply round_trip; [assumption|]. rewrite Hw. now apply in_u_iff. }
  repeat match goal with |- _ /\ _ => split end; intros.
  all: repeat match goal with |- _ /\ _ => split end.
  all: try (eapply (S _ _ 8); [reflexivity|reflexivity|assumption]).
  all: try (eapply (S _ _ 16); [reflexivity|reflexivity|assumption]).
  all: try (eapply (S _ _ 32); [reflexivity|reflexivity|assumption]).
  all: try (eapply (S _ _ 64); [reflexivity|reflexivity|assumption]).
  all: try (eapply (U _ _ 8); [reflexivity|reflexivity|assumption]).
  all: try (eapply (U _ _ 16); [reflexivity|reflexivity|assumption]).
  all: try (eapply (U _ _ 32); [reflexivity|reflexivity|assumption]).
  all: try (eapply (U _ _ 64); [reflexivity|reflexivity|assumption]).
  - now apply round_trip.
  - apply round_trip; [reflexivity|]. cbn. lia.
Qed.

(** Big-endian two's complement, of the width of the type. *)
Theorem primitives_format :
  (forall b, encodeObject TBool (VBool b) = Some (w_bool b)) /\
  (forall z, encodeObject TInt8 (VInt z) = Some (w_int8 z) /\ encodeObject TUint8 (VInt z) = Some (w_int8 z)) /\
  (forall z, encodeObject TInt16 (VInt z) = Some (w_int16 z) /\ encodeObject TUint16 (VInt z) = Some (w_int16 z)) /\
  (forall z, encodeObject TInt32 (VInt z) = Some (w_int32 z) /\ encodeObject TUint32 (VInt z) = Some (w_int32 z)) /\
  (forall z, encodeObject TInt (VInt z) = Some (w_int32 z) /\ encodeObject TUint (VInt z) = Some (w_int32 z)) /\
  (forall z, encodeObject TInt64 (VInt z) = Some (w_int64 z) /\ encodeObject TUint64 (VInt z) = Some (w_int64 z)) /\
  (forall z, encodeObject TFloat64 (VInt z) = Some (w_int64 z)) /\
  (forall u, encodeObject TUuid (VUuid u) = Some u).
Proof.
  unfold encodeObject. cbn [enc].
  repeat match goal with |- _ /\ _ => split end; intros;
    rewrite ?enc_i8_w, ?enc_i16_w, ?enc_i32_w, ?enc_i64_w; auto.
Qed.

(** Strings that fit. *)
Theorem string_format s : zlen s <= 32767 ->
  encodeObject TString (VStr s) = Some (w_int16 (zlen s) ++ s) /\
  encodeObject TNullableString (VNStr (Some s)) = Some (w_int16 (zlen s) ++ s) /\
  round_trips TString (VStr s) /\ round_trips TNullableString (VNStr (Some s)).
Proof.
  intros H. unfold encodeObject. cbn [enc]. rewrite !enc_nstr_w. split; [reflexivity|]. split; [reflexivity|].
  split; apply round_trip; try reflexivity; cbn [wt]; change (2 ^ 15) with 32768; lia.
Qed.

(** Arrays: the length, -1 for nil, then the elements; in a field tagged compact
    the length plus one as a varint, 0 for nil.  (Slices of bytes: [enc_nbytes].) *)
Lemma items_format e vs bss : Forall2 (fun v bs => encodeObject e v = Some bs) vs bss ->
  enc_items (enc e false false) vs = Some (concat bss).
Proof.
  intros F. induction F as [|v bs vs bss Hv _ IH]; [reflexivity|]. cbn [enc_items concat].
  unfold encodeObject in Hv. rewrite Hv, IH. reflexivity.
Qed.
Theorem array_format e : e <> TUint8 ->
  encodeObject (TSlice e) (VSlice None) = Some (w_int32 (-1)) /\
  encodeObject (TStruct [(FT false true, TSlice e)]) (VStruct [VSlice None]) = Some [0] /\
  forall vs bss, Forall2 (fun v bs => encodeObject e v = Some bs) vs bss -> zlen vs < 2 ^ 31 - 1 ->
    encodeObject (TSlice e) (VSlice (Some vs)) = Some (w_int32 (zlen vs) ++ concat bss) /\
    exists l, encodeObject (TStruct [(FT false true, TSlice e)]) (VStruct [VSlice (Some vs)]) = Some (l ++ concat bss) /\
      leb128 (zigzag_spec (zlen vs + 1)) l.
Proof.
  intros He.
  assert (E : forall b v, enc (TSlice e) false b v =
      match v with
      | VSlice None => Some (if b then enc_varint 0 else enc_i32 (-1))
      | VSlice (Some l) =>
          oapp (Some (if b then enc_varint (swrap 32 (swrap 32 (zlen l) + 1)) else enc_i32 (swrap 32 (zlen l))))
               (enc_items (enc e false false) l)
      | _ => None
      end) by (intros; destruct e; try reflexivity; contradiction).
  assert (S : forall v, encodeObject (TStruct [(FT false true, TSlice e)]) (VStruct [v]) = oapp (enc (TSlice e) false true v) (Some []))
    by reflexivity.
  assert (P : forall v, encodeObject (TSlice e) v = enc (TSlice e) false false v) by reflexivity.
  rewrite S, P, !E.
  split; [now rewrite enc_i32_w|]. split; [reflexivity|]. intros vs bss F Hl.
  rewrite S, P, !E, (items_format e vs bss F). pose proof (zlen_nonneg vs).
  rewrite !(swrap_id 32) by (rewrite ?(swrap_id 32); lia). cbn [oapp obind]. rewrite enc_i32_w. split; [reflexivity|].
  destruct (proj1 (proj2 (proj2 (conj varuint_shape (conj varuint64_shape (conj varint_shape varint64_shape))))) (zlen vs + 1)) as (l & E1 & E2 & _); [lia|].
  exists l. split; [|assumption]. unfold encodeObject in E1. cbn [enc] in E1. injection E1 as E1. now rewrite E1, app_nil_r.
Qed.

Theorem data_format :
  encodeObject TNullableString (VNStr None) = Some (w_int16 (-1)) /\
  encodeObject TNullableBytes (VBytes None) = Some (w_int32 (-1)) /\
  encodeObject TCompactNullableString (VNStr None) = Some [0] /\
  encodeObject TCompactBytes (VBytes None) = Some [0] /\
  encodeObject TCompactNullableBytes (VBytes None) = Some [0] /\
  forall s, zlen s < 2 ^ 31 - 1 ->
    encodeObject TNullableBytes (VBytes (Some s)) = Some (w_int32 (zlen s) ++ s) /\
    exists l, leb128 (zigzag_spec (zlen s + 1)) l /\
      encodeObject TCompactString (VStr s) = Some (l ++ s) /\
      encodeObject TCompactNullableString (VNStr (Some s)) = Some (l ++ s) /\
      encodeObject TCompactBytes (VBytes (Some s)) = Some (l ++ s) /\
      encodeObject TCompactNullableBytes (VBytes (Some s)) = Some (l ++ s).
Proof.
  do 5 (split; [reflexivity|]). intros s Hs. pose proof (zlen_nonneg s). split.
  - unfold encodeObject. cbn [enc orb]. now rewrite enc_nbytes_w.
  - destruct (varint_shape (zlen s + 1)) as (l & E1 & E2 & _); [lia|]. exists l. split; [assumption|].
    unfold encodeObject in *. cbn [enc orb] in *. injection E1 as E1. unfold enc_cnstr.
    rewrite !(swrap_id 32) by lia. rewrite E1. auto.
Qed.

Lemma val_bytes_map s : all_bytes s = true -> val_bytes (map VInt s) = Some s.
Proof.
  unfold all_bytes. induction s as [|b s IH]; intros H; [reflexivity|]. cbn in H. apply andb_true_iff in H as [Hb H].
  change (val_bytes (map VInt (b :: s))) with (match val_bytes (map VInt s) with Some r => Some (uwrap 8 b :: r) | None => None end).
  rewrite IH by assumption. f_equal. f_equal. unfold is_byte in Hb. apply uwrap_id; lia.
Qed.
Theorem byte_slice_format :
  encodeObject (TSlice TUint8) (VSlice None) = Some (w_int32 (-1)) /\
  encodeObject (TStruct [(FT false true, TSlice TUint8)]) (VStruct [VSlice None]) = Some [0] /\
  forall s, all_bytes s = true -> zlen s < 2 ^ 31 - 1 ->
    encodeObject (TSlice TUint8) (VSlice (Some (map VInt s))) = Some (w_int32 (zlen s) ++ s) /\
    exists l, leb128 (zigzag_spec (zlen s + 1)) l /\
      encodeObject (TStruct [(FT false true, TSlice TUint8)]) (VStruct [VSlice (Some (map VInt s))]) = Some (l ++ s).
Proof.
  do 2 (split; [reflexivity|]). intros s Hb Hs. pose proof (zlen_nonneg s). split.
  - unfold encodeObject. cbn [enc orb]. rewrite (val_bytes_map _ Hb). cbn [obind]. now rewrite enc_nbytes_w.
  - destruct (varint_shape (zlen s + 1)) as (l & E1 & E2 & _); [lia|]. exists l. split; [assumption|].
    unfold encodeObject in *. cbn [enc orb enc_fields tNullable tCompact] in *. injection E1 as E1. rewrite (val_bytes_map _ Hb). cbn [obind oapp]. unfold oapp, obind, enc_cnstr.
    rewrite !(swrap_id 32) by lia. rewrite E1. now rewrite app_nil_r.
Qed.

(** ** Messages *)

(** The bytes of one message as encoded in a Fetch reply, for a record built by
    appendMessage (the size field is computed in int32). *)
Theorem message_layout ms r max ms' : obytes (rKey r) = true -> obytes (rVal r) = true ->
  appendMessage ms r max = Some ms' ->
  exists m b, msMsgs ms' = msMsgs ms ++ [m] /\
    encodeObject tMessageV1 (message_val m) = Some b /\
    b = w_message (msOffset ms) (rec_size r) (crc32c_spec (w_msg_tail (rTs r) (rKey r) (rVal r)))
          (rTs r) (rKey r) (rVal r) /\
    zlen b = rec_size r /\ zlen b - 12 = 22 + blen (rKey r) + blen (rVal r).
Proof.
  intros Hk Hv H. unfold appendMessage in H. destruct (_ <? _); [discriminate|]. injection H as <-.
  cbn [msMsgs]. eexists _, _. split; [reflexivity|].
  assert (E : forall off, encs tMessageV1 (message_val (Msg off (swrap 32 (34 + olen (rKey r) + olen (rVal r)))
     (swrap 32 (message_crc (Msg off (swrap 32 (34 + olen (rKey r) + olen (rVal r))) 0 1 0 (rTs r) (rKey r) (rVal r)))) 1 0 (rTs r) (rKey r) (rVal r)))
     (w_message off (rec_size r) (crc32c_spec (w_msg_tail (rTs r) (rKey r) (rVal r))) (rTs r) (rKey r) (rVal r))).
  { intros off. eapply encs_eq; [apply message_encs; assumption|]. cbn [mOffset mSize mCrc mMagic mAttr mTs mKey mVal].
    rewrite message_crc_eq by (split; assumption). rewrite !w_int32_swrap. reflexivity. }
  split; [apply (E (msOffset ms) false)|]. split; [reflexivity|].
  assert (L : zlen (w_message (msOffset ms) (rec_size r) (crc32c_spec (w_msg_tail (rTs r) (rKey r) (rVal r)))
          (rTs r) (rKey r) (rVal r)) = rec_size r) by apply (zlen_w_record (msOffset ms) r).
  split; [exact L|]. rewrite L. unfold rec_size. lia.
Qed.

Lemma app_inj_len {A} (a b c d : list A) : length a = length c -> a ++ b = c ++ d -> a = c /\ b = d.
Proof.
  revert c. induction a as [|x a IH]; intros [|y c] Hl H; cbn in *; try discriminate; [auto|].
  injection H as -> H. injection Hl as Hl. destruct (IH c Hl H) as [-> ->]. auto.
Qed.

(** A message altered in at most four consecutive checksummed bytes has a wrong checksum. *)
Theorem tail_corruption a w c w' ts k v : obytes k = true -> obytes v = true ->
  w_msg_tail ts k v = a ++ w ++ c -> all_bytes w' = true -> length w = length w' -> (length w <= 4)%nat -> w <> w' ->
  crc32c_spec (a ++ w' ++ c) <> crc32c_spec (w_msg_tail ts k v).
Proof.
  intros Hk Hv E Hw' Hl H4 Hne. assert (Hb : all_bytes (a ++ w ++ c) = true) by (rewrite <- E; now apply tail_bytes).
  assert (Hb' : all_bytes (a ++ w' ++ c) = true).
  { unfold all_bytes in *. rewrite !forallb_app in *. rewrite !andb_true_iff in *. tauto. }
  rewrite E, <- !crc32c_correct by assumption. intros H. symmetry in H. revert H. now apply crc32c_detects.
Qed.
