(** * LegacyProofs: the old writer against the live encoder *)
From Verif Require Import WireProofs CodecMore Legacy LegacySpec.
From Coq Require Import Permutation Sorting.Sorted.
Open Scope Z_scope.
Open Scope list_scope.

Section LvalInd.
  Variable P : lval -> Prop.
  Hypothesis Hleaf : forall v, (forall l, v <> LArray (Some l)) -> P v.
  Hypothesis Harr : forall l, Forall P l -> P (LArray (Some l)).
  Fixpoint lval_ind' (v : lval) : P v.
  Proof.
    destruct v as [| | | | | | | | | | | | | | | | | |[l|]|]; try (apply Hleaf; congruence).
    apply Harr. induction l as [|x l IH]; constructor; [apply lval_ind'|exact IH].
  Defined.
End LvalInd.

Definition wvs := fix go (l : list lval) : option bytes :=
  match l with [] => Some [] | x :: l' => oapp (writeValue x) (go l') end.
Definition lvs := fix go (l : list lval) : option bytes :=
  match l with [] => Some [] | x :: l' => oapp (liveValue x) (go l') end.

Lemma wv_arr l : writeValue (LArray (Some l)) = oapp (Some (writeInt32 (swrap 32 (zlen l) + 1))) (wvs l).
Proof. reflexivity. Qed.
Lemma lv_arr l : liveValue (LArray (Some l)) = oapp (Some (enc_i32 (swrap 32 (zlen l)))) (lvs l).
Proof. reflexivity. Qed.
Lemma oapp_some a b c : oapp a b = Some c -> exists x y, a = Some x /\ b = Some y /\ c = x ++ y.
Proof. destruct a as [x|]; [|discriminate]. destruct b as [y|]; [|discriminate]. intros [= <-]. exists x, y. auto. Qed.

Lemma val_bytes_vint b : Forall (fun x => 0 <= x < 256) b -> val_bytes (map VInt b) = Some b.
Proof.
  induction b as [|x b IH]; intros H; [reflexivity|]. inversion H as [|? ? Hx Hb]; subst. cbn. fold (val_bytes (map VInt b)).
  rewrite IH by exact Hb. rewrite uwrap_id by lia. reflexivity.
Qed.

(** *** The encodings are prefix codes *)
Lemma mk_varuint_prefix a b x y : 0 <= a < 2 ^ 32 -> 0 <= b < 2 ^ 32 -> mk_varuint a ++ x = mk_varuint b ++ y -> a = b.
Proof.
  intros Ha Hb E. pose proof (good_varuint a Ha []) as [Ga _]. pose proof (good_varuint b Hb []) as [Gb _].
  pose proof (mk_varuint_len32 a Ha). pose proof (mk_varuint_len32 b Hb).
  unfold enc_varuint in Ga, Gb. rewrite uwrap_id in Ga, Gb by lia.
  specialize (Ga x ltac:(unfold zlen, bufsize; cbn [length]; lia)). specialize (Gb y ltac:(unfold zlen, bufsize; cbn [length]; lia)).
  cbn [app] in Ga, Gb. rewrite E in Ga. rewrite Ga in Gb. congruence.
Qed.
Lemma zigzag32_inj a b : - 2 ^ 31 <= a < 2 ^ 31 -> - 2 ^ 31 <= b < 2 ^ 31 -> zigzag 32 a = zigzag 32 b -> a = b.
Proof.
  intros Ha Hb E. rewrite !zigzag_zz in E by (auto; lia). rewrite <- (unzigzag_zz 32 a), <- (unzigzag_zz 32 b) by (auto; lia).
  congruence.
Qed.
Lemma writeVarInt_prefix a b x y : - 2 ^ 31 <= a < 2 ^ 31 -> - 2 ^ 31 <= b < 2 ^ 31 ->
  writeVarInt a ++ x = writeVarInt b ++ y -> a = b.
Proof.
  intros Ha Hb E. unfold writeVarInt in E. apply mk_varuint_prefix in E; [apply zigzag32_inj; assumption| |];
    rewrite zigzag_zz by (auto; lia); [pose proof (zz_range 32 a)|pose proof (zz_range 32 b)]; lia.
Qed.
Lemma swrap32_range z : - 2 ^ 31 <= swrap 32 z < 2 ^ 31.
Proof.
  unfold swrap. change (2 ^ (32 - 1)) with 2147483648. change (2 ^ 32) with 4294967296. change (2 ^ 31) with 2147483648.
  pose proof (Z.mod_pos_bound (z + 2147483648) 4294967296). lia.
Qed.
Lemma swrap32_succ z : swrap 32 z <> swrap 32 (z + 1).
Proof.
  unfold swrap. change (2 ^ (32 - 1)) with 2147483648. change (2 ^ 32) with 4294967296. intros E.
  assert (E1 : (z + 2147483648) mod 4294967296 = (z + 1 + 2147483648) mod 4294967296) by lia.
  pose proof (Z.div_mod (z + 2147483648) 4294967296 ltac:(lia)). pose proof (Z.div_mod (z + 1 + 2147483648) 4294967296 ltac:(lia)). lia.
Qed.
Lemma be_put_inj4 a b x y : 0 <= a < 2 ^ 32 -> 0 <= b < 2 ^ 32 -> be_put 4 a ++ x = be_put 4 b ++ y -> a = b.
Proof.
  intros Ha Hb E. apply app_inj_len in E; [|reflexivity]. destruct E as [E _].
  assert (be_get (be_put 4 a) = be_get (be_put 4 b)) as E' by congruence.
  rewrite !be_get_put in E'. change (256 ^ Z.of_nat 4) with (2 ^ 32) in E'. rewrite !Z.mod_small in E' by lia. exact E'.
Qed.

(** *** Agreement *)
Opaque mk_varuint zigzag.
Lemma live_total v b : byte_data v -> writeValue v = Some b -> exists c, liveValue v = Some c.
Proof.
  revert b. induction v as [v Hv|l IH] using lval_ind'; intros b Hd Hw.
  - destruct v as [| | | | | | | | | |[?|]| | | |o| | | |[l|]|]; try (eexists; reflexivity);
      [|destruct (Hv l eq_refl)|discriminate Hw].
    destruct o as [d|]; [|eexists; reflexivity]. unfold liveValue, encodeObject, vbytes. cbn [option_map enc].
    rewrite val_bytes_vint by exact Hd. eexists. reflexivity.
  - rewrite wv_arr in Hw. rewrite lv_arr. apply oapp_some in Hw as (x & y & _ & Hy & _). clear x b.
    assert (exists c, lvs l = Some c) as [c ->]; [|eexists; reflexivity].
    revert y Hy Hd. induction IH as [|v l Hv Hl IHl]; intros y Hy Hd; [eexists; reflexivity|].
    cbn in Hy. apply oapp_some in Hy as (x & z & Hx & Hz & ->). destruct Hd as [Hd1 Hd2].
    destruct (Hv _ Hd1 Hx) as [c1 E1]. destruct (IHl _ Hz Hd2) as [c2 E2]. cbn. rewrite E1, E2. eexists. reflexivity.
Qed.

Lemma enc_cs_differ s : writeVarInt (swrap 32 (zlen s)) ++ s <> enc_varint (swrap 32 (zlen s + 1)) ++ s.
Proof.
  intros E. apply (writeVarInt_prefix (swrap 32 (zlen s)) (swrap 32 (zlen s + 1))) in E; try apply swrap32_range.
  exact (swrap32_succ _ E).
Qed.
Lemma uwrap32_succ z : uwrap 32 (z + 1) <> uwrap 32 z.
Proof.
  unfold uwrap. change (2 ^ 32) with 4294967296. intros E.
  pose proof (Z.div_mod z 4294967296 ltac:(lia)). pose proof (Z.div_mod (z + 1) 4294967296 ltac:(lia)). lia.
Qed.
Lemma uwrap32_range z : 0 <= uwrap 32 z < 2 ^ 32.
Proof. unfold uwrap. apply Z.mod_pos_bound. lia. Qed.

Lemma bytes_live o : (match o with Some b => Forall (fun x => 0 <= x < 256) b | None => True end) ->
  liveValue (LBytes o) = Some (enc_nbytes o).
Proof.
  intros H. unfold liveValue, encodeObject, vbytes. destruct o as [b|]; [|reflexivity]. cbn [option_map enc].
  rewrite val_bytes_vint by exact H. reflexivity.
Qed.
Lemma nbytes_same o : writeNullableBytes o = enc_nbytes o <-> o <> None.
Proof. destruct o as [b|]; split; intros H; try congruence; try reflexivity. discriminate H. Qed.
Lemma nstr_same o : writeNullableString o = enc_nstr o <-> o <> None.
Proof. destruct o as [b|]; split; intros H; try congruence; try reflexivity. discriminate H. Qed.

Theorem legacy_agrees v b : byte_data v -> writeValue v = Some b -> exists c, liveValue v = Some c /\ (b = c <-> same_on v).
Proof.
  intros Hd Hw. destruct (live_total v b Hd Hw) as [c Hc]. exists c. split; [exact Hc|].
  assert (Hsome : forall x y : bytes, Some x = Some b -> Some y = Some c -> x = y -> (b = c <-> True))
    by (intros x y [= ->] [= ->] ->; tauto).
  destruct v; cbn [same_on].
  1-10: exact (Hsome _ _ Hw Hc eq_refl).
  - assert (liveValue (LStrPtr o) = Some (enc_nstr o)) as E by (destruct o; reflexivity). rewrite E in Hc.
    injection Hw as <-. injection Hc as <-. apply nstr_same.
  - injection Hw as <-. injection Hc as <-. apply nstr_same.
  - injection Hw as <-. injection Hc as <-. split; [|tauto]. apply enc_cs_differ.
  - injection Hw as <-. injection Hc as <-. destruct o as [s|]; split; intros H; try congruence; try reflexivity.
    destruct (enc_cs_differ s H).
  - rewrite bytes_live in Hc by (destruct o; [exact Hd|exact I]). injection Hw as <-. injection Hc as <-. apply nbytes_same.
  - exact (Hsome _ _ Hw Hc eq_refl).
  - injection Hw as <-. injection Hc as <-. apply nbytes_same.
  - exact (Hsome _ _ Hw Hc eq_refl).
  - destruct o as [l|].
    + rewrite wv_arr in Hw. rewrite lv_arr in Hc. apply oapp_some in Hw as (x & y & [= <-] & Hy & ->).
      apply oapp_some in Hc as (z & w & [= <-] & Hw & ->). split; [|tauto]. unfold writeInt32, enc_i32. intros E.
      apply be_put_inj4 in E; try apply uwrap32_range. exact (uwrap32_succ _ E).
    + injection Hw as <-. injection Hc as <-. split; [discriminate|tauto].
  - discriminate Hw.
Qed.

(** *** Panics *)
Theorem legacy_panics v : writeValue v = None <-> foreign v.
Proof.
  induction v as [v Hv|l IH] using lval_ind'.
  - destruct v as [| | | | | | | | | | | | | | | | | |[l|]|o]; try (split; [discriminate|intros H; inversion H]).
    + destruct (Hv l eq_refl).
    + split; [intros _; constructor|reflexivity].
  - rewrite wv_arr.
    assert (wvs l = None <-> exists x, In x l /\ foreign x) as H.
    { induction IH as [|x l Hx Hl IHl]; [split; [discriminate|intros (x & [] & _)]|]. cbn.
      destruct (writeValue x) as [b|] eqn:Ex.
      - cbn. destruct (wvs l) as [c|].
        + split; [discriminate|]. intros (y & [<-|Hy] & Hf); [apply Hx in Hf; discriminate|].
          enough (Some c = None) by discriminate. apply IHl. exists y. auto.
        + split; [|reflexivity]. intros _. destruct IHl as [IHl _]. destruct (IHl eq_refl) as (y & Hy & Hf). exists y. cbn. auto.
      - split; [|reflexivity]. intros _. exists x. cbn. split; [auto|]. apply Hx. reflexivity. }
    destruct (wvs l) as [c|]; cbn.
    + split; [discriminate|]. intros Hf. inversion Hf as [|l' x Hx Hf']; subst. enough (Some c = None) by discriminate.
      apply H. exists x. auto.
    + split; [|reflexivity]. intros _. destruct H as [H _]. destruct (H eq_refl) as (x & Hx & Hf). econstructor; eassumption.
Qed.

(** *** Tags *)
Lemma zigzag32_pos n : 0 <= n < 2 ^ 31 -> zigzag 32 n = 2 * n.
Proof. intros H. rewrite zigzag_zz by (auto; lia). unfold zz. destruct (Z.leb_spec 0 n); lia. Qed.
Theorem legacy_tags m a c : zlen m < 2 ^ 31 -> writeTags m = Some a -> liveTags m = Some c -> (a = c <-> m = []).
Proof.
  intros Hm Ha Hc. unfold writeTags in Ha. unfold liveTags in Hc.
  destruct m as [|e m]; [split; [reflexivity|]; intros _; injection Ha as <-; injection Hc as <-; reflexivity|].
  apply oapp_some in Hc as (x & y & [= <-] & _ & ->).
  assert (0 < zlen (e :: m)) as Hp by (unfold zlen; cbn [length]; lia).
  destruct (Z.eqb_spec (zlen (e :: m)) 0); [lia|]. apply oapp_some in Ha as (z & w & [= <-] & _ & ->).
  split; [|discriminate]. intros E. exfalso. unfold writeVarInt, enc_varuint in E.
  rewrite swrap_id in E by lia. rewrite uwrap_id in E by lia.
  rewrite zigzag32_pos in E by lia. apply mk_varuint_prefix in E; lia.
Qed.

(** *** What a reader gets *)
Theorem legacy_null_read :
  (forall rest, peekObject (writeNullableString None ++ rest) 0 TNullableString = DOk 2 (VNStr (Some []))) /\
  (forall rest, peekObject (writeNullableBytes None ++ rest) 0 TNullableBytes = DOk 4 (VBytes (Some []))).
Proof.
  split; intros rest.
  - destruct (good_data16 (Some []) ltac:(reflexivity) []) as [G _]. specialize (G rest ltac:(vm_compute; discriminate)).
    unfold peekObject. cbn [dec]. change (writeNullableString None) with (enc_nstr (Some [])).
    change ([] ++ enc_nstr (Some []) ++ rest) with (enc_nstr (Some []) ++ rest) in G. change (zlen []) with 0 in G. rewrite G. reflexivity.
  - destruct (good_nbytes (Some []) ltac:(reflexivity) []) as [G _]. specialize (G rest ltac:(vm_compute; discriminate)).
    unfold peekObject. cbn [dec]. change (writeNullableBytes None) with (enc_nbytes (Some [])).
    change ([] ++ enc_nbytes (Some []) ++ rest) with (enc_nbytes (Some []) ++ rest) in G. change (zlen []) with 0 in G. rewrite G. reflexivity.
Qed.
(** A compact string comes out without its last byte, which is left over. *)
Theorem legacy_compact_read s x rest : zlen s <= bufsize - 5 ->
  exists n, peekObject (writeCompactString (s ++ [x]) ++ rest) 0 TCompactString = DOk n (VStr s) /\
            zlen (writeCompactString (s ++ [x])) = n + 1.
Proof.
  intros Hs. pose proof (zlen_nonneg s) as H0. unfold bufsize in Hs.
  destruct (good_cnbytes (Some s) ltac:(cbv beta iota; lia) []) as [G _].
  assert (writeCompactString (s ++ [x]) = enc_cnstr (Some s) ++ [x]) as E.
  { unfold writeCompactString, writeCompactNullableString, enc_cnstr. rewrite zlen_app. change (zlen [x]) with 1.
    rewrite <- app_assoc. reflexivity. }
  assert (zlen (enc_cnstr (Some s)) <= bufsize) as Hl.
  { unfold enc_cnstr, enc_varint. rewrite zlen_app. rewrite swrap_id by lia. rewrite zigzag32_pos by lia.
    pose proof (mk_varuint_len32 (2 * (zlen s + 1)) ltac:(lia)). unfold zlen at 1, bufsize. lia. }
  specialize (G ([x] ++ rest) ltac:(change (zlen []) with 0; lia)).
  exists (zlen (enc_cnstr (Some s))). split.
  - unfold peekObject. cbn [dec]. rewrite E, <- app_assoc. cbn [app] in G |- *. change (zlen []) with 0 in G. rewrite G. reflexivity.
  - rewrite E, zlen_app. reflexivity.
Qed.

(** *** Tagged fields *)
Lemma old_tag_list l : forall b, writeTagList l = Some b ->
  (forall id v, In (id, v) l -> 0 <= id < 2 ^ 30) ->
  (forall id v d, In (id, v) l -> writeValue v = Some d -> zlen d < 2 ^ 30) ->
  exists es, old_tags es b /\ Forall2 (fun e f => fst e = fst f /\ writeValue (snd e) = Some (snd f)) l es.
Proof.
  induction l as [|[id v] l IH]; intros b H Hid Hd; cbn [writeTagList] in H.
  { injection H as <-. exists []. split; constructor. }
  destruct (writeValue v) as [d|] eqn:Ev; [|discriminate]. cbn [obind] in H.
  apply oapp_some in H as (x & y & [= <-] & Hy & ->).
  destruct (IH y Hy) as (es & H1 & H2); [intros; eapply Hid; right; eauto|intros; eapply Hd; [right; eauto|eauto]|].
  specialize (Hid id v (or_introl eq_refl)). specialize (Hd id v d (or_introl eq_refl) Ev).
  exists ((id, d) :: es). split; [|constructor; [split; [reflexivity|exact Ev]|exact H2]].
  unfold writeVarInt. rewrite !swrap_id by (unfold zlen in *; lia). rewrite !zigzag32_pos by (unfold zlen in *; lia).
  rewrite <- !app_assoc.
  assert (E : writeBytes (Some d) = w_int32 (zlen d) ++ d).
  { unfold writeBytes, writeNullableBytes, writeUint32. rewrite be_put_w. fold (w_int32 (uwrap 32 (uwrap 32 (zlen d)))).
    rewrite !w_int32_uwrap. reflexivity. }
  rewrite E, <- app_assoc. constructor; [apply mk_varuint_leb; lia|apply mk_varuint_leb; unfold zlen in *; lia|exact H1].
Qed.
Theorem legacy_tags_wire m a : m <> [] -> zlen m < 2 ^ 30 -> writeTags m = Some a ->
  (forall id v, In (id, v) m -> 0 <= id < 2 ^ 30) ->
  (forall id v d, In (id, v) m -> writeValue v = Some d -> zlen d < 2 ^ 30) ->
  exists n m' es b, a = n ++ b /\ leb128 (2 * zlen m) n /\ Permutation m' m /\ StronglySorted Z.le (map fst m') /\
    Forall2 (fun e f => fst e = fst f /\ writeValue (snd e) = Some (snd f)) m' es /\ old_tags es b.
Proof.
  intros Hn Hz H Hid Hd. unfold writeTags in H. destruct (Z.eqb_spec (zlen m) 0) as [E0|E0].
  { destruct m; [congruence|]. unfold zlen in E0. cbn in E0. lia. }
  apply oapp_some in H as (x & y & [= <-] & Hy & ->). pose proof (sort_tags_perm m) as P.
  destruct (old_tag_list (sort_tags m) y Hy) as (es & H1 & H2).
  - intros id v Hin. apply (Hid id v). eapply Permutation_in; eauto.
  - intros id v d Hin. apply (Hd id v d). eapply Permutation_in; eauto.
  - exists (writeVarInt (swrap 32 (zlen m))), (sort_tags m), es, y. split; [reflexivity|].
    split; [|split; [exact P|split; [apply sort_tags_sorted|auto]]].
    unfold writeVarInt. rewrite swrap_id by (unfold zlen in *; lia). rewrite zigzag32_pos by (unfold zlen in *; lia).
    apply mk_varuint_leb. unfold zlen in *; lia.
Qed.
