(** * ShapeProofs: the decoder accepts exactly what follows the layout *)
From Verif Require Export ShapeSpec RequestProofs CodecMore StreamProofs.
From stdpp Require Import gmap list.
From Coq Require Import ZifyBool ZifyNat.
Open Scope Z_scope.
Open Scope list_scope.

Fixpoint shape_of (t : ty) : shape :=
  match t with
  | TUint8 => SInt 1
  | TInt16 => SInt 2
  | TInt32 => SInt 4
  | TInt64 => SInt 8
  | TString | TNullableString => SStr
  | TSlice e => SArr (shape_of e)
  | TStruct fs => SRec (map (fun f => match f with (_, t') => shape_of t' end) fs)
  | _ => SInt 0
  end.
Fixpoint simple (t : ty) : bool :=
  match t with
  | TUint8 | TInt16 | TInt32 | TInt64 | TString | TNullableString => true
  | TSlice e => simple e
  | TStruct fs => forallb (fun f => match f with (tg, t') => negb (tCompact tg) && simple t' end) fs
  | _ => false
  end.

(** ** Parts of a byte string *)
Definition slice (r : bytes) (a b : Z) : bytes := skipn (Z.to_nat a) (firstn (Z.to_nat b) r).
Lemma slice_app r a b c : a <= b -> b <= c -> slice r a b ++ slice r b c = slice r a c.
Proof.
  intros Hab Hbc. unfold slice.
  assert (E : firstn (Z.to_nat c) r = firstn (Z.to_nat b) r ++ skipn (Z.to_nat b) (firstn (Z.to_nat c) r)).
  { transitivity (firstn (Z.to_nat b) (firstn (Z.to_nat c) r) ++ skipn (Z.to_nat b) (firstn (Z.to_nat c) r));
      [symmetry; apply firstn_skipn|]. rewrite firstn_firstn. f_equal. f_equal. lia. }
  rewrite E at 2. rewrite skipn_app.
  destruct (le_lt_dec (Z.to_nat a) (length (firstn (Z.to_nat b) r))) as [H|H].
  - f_equal. replace (Z.to_nat a - length (firstn (Z.to_nat b) r))%nat with 0%nat by lia. reflexivity.
  - rewrite firstn_length in H. assert (L : (length r < Z.to_nat a)%nat) by lia. f_equal.
    rewrite skipn_all2 by (rewrite firstn_length; lia).
    rewrite skipn_nil. reflexivity.
Qed.
Lemma slice_nil r a : slice r a a = [].
Proof. unfold slice. apply skipn_all2. rewrite firstn_length. lia. Qed.
Lemma slice_len r a b : 0 <= a -> a <= b -> b <= zlen r -> zlen (slice r a b) = b - a.
Proof. intros. unfold slice, zlen in *. rewrite skipn_length, firstn_length. lia. Qed.
Lemma all_bytes_firstn n r : all_bytes r = true -> all_bytes (firstn n r) = true.
Proof. intros H. rewrite <- (firstn_skipn n r), all_bytes_app in H. now apply andb_true_iff in H as [? _]. Qed.
Lemma all_bytes_skipn n r : all_bytes r = true -> all_bytes (skipn n r) = true.
Proof. intros H. rewrite <- (firstn_skipn n r), all_bytes_app in H. now apply andb_true_iff in H as [_ ?]. Qed.
Lemma slice_bytes r a b : all_bytes r = true -> all_bytes (slice r a b) = true.
Proof. intros H. unfold slice. now apply all_bytes_skipn, all_bytes_firstn. Qed.

(** ** What is read follows the layout *)
Definition fits (r : bytes) (off n : Z) : Prop := off <= n /\ n <= zlen r /\ n <= 4096.

Lemma peek_ok_inv r n d : peek r n = Some d -> 0 <= n <= 4096 /\ n <= zlen r /\ d = firstn (Z.to_nat n) r.
Proof. unfold peek. destruct (_ || _ || _) eqn:E; [discriminate|]. intros [= <-]. unfold bufsize in E. split; [lia|]. split; [lia|reflexivity]. Qed.

Lemma fixed_sound len r off n b : 0 <= len -> peek_fixed r off len = DOk n b ->
  n = off + len /\ fits r off n /\ b = slice r off n.
Proof.
  intros Hl. unfold peek_fixed. destruct (peek r (off + len)) as [d|] eqn:E; [|discriminate]. intros [= <- <-].
  apply peek_ok_inv in E as (H1 & H2 & ->). unfold fits. repeat split; lia.
Qed.
Lemma sint_sound len r off n z : 0 < len -> all_bytes r = true -> 0 <= off -> peek_sint len r off = DOk n z ->
  n = off + len /\ fits r off n /\ slice r off n = w_be (Z.to_nat len) z /\ - 2 ^ (8 * len - 1) <= z < 2 ^ (8 * len - 1).
Proof.
  intros Hl Hb Ho. unfold peek_sint. destruct (peek_fixed r off len) as [n' b| |] eqn:E; cbn [dmap]; try discriminate.
  intros [= <- <-]. apply fixed_sound in E as (-> & Hf & ->); [|lia]. split; [reflexivity|]. split; [assumption|].
  set (w := slice r off (off + len)).
  assert (Lw : zlen w = len) by (unfold w; destruct Hf as (? & ? & ?); rewrite slice_len; lia).
  split; [|apply swrap_range; lia].
  replace (8 * len) with (8 * Z.of_nat (Z.to_nat len)) by lia. rewrite w_be_swrap. symmetry. apply w_be_get.
  - now apply slice_bytes.
  - unfold zlen in Lw. lia.
Qed.
Lemma data16_sound r off n o : all_bytes r = true -> 0 <= off -> peek_data16 r off = DOk n o ->
  fits r off n /\ parses SStr (slice r off n).
Proof.
  intros Hb Ho. rewrite peek_data16_eq. destruct (peek_sint 2 r off) as [n1 z| |] eqn:E; cbn [dbind]; try discriminate.
  apply sint_sound in E as (-> & Hf & Es & Hz); try assumption; [|lia].
  change (Z.to_nat 2) with 2%nat in Es. change (8 * 2 - 1) with 15 in Hz.
  destruct (z <? 0) eqn:E0.
  - intros [= <- <-]. split; [assumption|]. rewrite Es. apply p_null; [unfold l_i16; lia|lia].
  - unfold tail_read. destruct (peek_fixed r (off + 2) z) as [n' b| |] eqn:E2; cbn [dmap]; try discriminate.
    intros [= <- <-]. apply fixed_sound in E2 as (-> & Hf2 & Eb); [|lia].
    unfold fits in *. split; [lia|]. rewrite <- (slice_app r off (off + 2)) by lia.
    rewrite Es, <- Eb. assert (Lb : zlen b = z) by (rewrite Eb, slice_len; lia).
    rewrite <- Lb. apply p_str. unfold l_string. lia.
Qed.

Definition sound (t : ty) : Prop := simple t = true ->
  forall r off n v, all_bytes r = true -> 0 <= off -> off <= zlen r -> off <= 4096 ->
    dec t false r off = DOk n v -> settable t v = true ->
    fits r off n /\ parses (shape_of t) (slice r off n).

Lemma items_sound e r : sound e -> simple e = true -> all_bytes r = true ->
  forall k off n vs, 0 <= off -> off <= zlen r -> off <= 4096 ->
    dec_items (dec e false) (settable e) r k off = DOk n vs ->
    fits r off n /\ exists bs, length bs = k /\ Forall (parses (shape_of e)) bs /\ slice r off n = concat bs.
Proof.
  intros Hs He Hb. induction k as [|k IH]; intros off n vs Ho Hl Hw H.
  - injection H as <- <-. unfold fits. split; [lia|]. exists []. rewrite slice_nil. auto.
  - cbn [dec_items] in H. destruct (dec e false r off) as [n1 x| |] eqn:E1; try discriminate.
    destruct (settable e x) eqn:Ex; [|discriminate].
    fold (dec_items (dec e false) (settable e) r) in H.
    destruct (dec_items (dec e false) (settable e) r k n1) as [n2 xs| |] eqn:E2; try discriminate.
    injection H as <- <-. destruct (Hs He r off n1 x Hb Ho Hl Hw E1 Ex) as [(F1 & F2 & F3) P1].
    destruct (IH n1 n2 xs ltac:(lia) F2 F3 E2) as [(G1 & G2 & G3) (bs & L & P2 & S2)].
    unfold fits. split; [lia|]. exists (slice r off n1 :: bs). split; [cbn; lia|]. split; [now constructor|].
    cbn [concat]. rewrite <- S2. symmetry. apply slice_app; lia.
Qed.

Lemma fields_sound r fs : all_bytes r = true -> Forall (fun f => sound (snd f)) fs ->
  forallb (fun f => match f with (tg, t') => negb (tCompact tg) && simple t' end) fs = true ->
  forall off n vs, 0 <= off -> off <= zlen r -> off <= 4096 -> dec_fields dec r fs off = DOk n vs ->
  fits r off n /\ exists bs, Forall2 parses (map (fun f => match f with (_, t') => shape_of t' end) fs) bs /\
    slice r off n = concat bs.
Proof.
  intros Hb. induction 1 as [|[tg t] fs Ht _ IH]; intros Hs off n vs Ho Hl Hw H.
  - injection H as <- <-. unfold fits. split; [lia|]. exists []. rewrite slice_nil. split; [constructor|reflexivity].
  - cbn [forallb] in Hs. apply andb_true_iff in Hs as [Hs1 Hs2]. apply andb_true_iff in Hs1 as [Hc Hst].
    apply negb_true_iff in Hc. cbn [dec_fields] in H. rewrite Hc in H.
    destruct (dec t false r off) as [n1 x| |] eqn:E1; try discriminate.
    destruct (settable t x) eqn:Ex; [|discriminate]. fold (dec_fields dec r) in H.
    destruct (dec_fields dec r fs n1) as [n2 xs| |] eqn:E2; try discriminate. injection H as <- <-.
    cbn [snd] in Ht. destruct (Ht Hst r off n1 x Hb Ho Hl Hw E1 Ex) as [(F1 & F2 & F3) P1].
    destruct (IH Hs2 n1 n2 xs ltac:(lia) F2 F3 E2) as [(G1 & G2 & G3) (bs & P2 & S2)].
    unfold fits. split; [lia|]. exists (slice r off n1 :: bs). split; [cbn [map]; now constructor|].
    cbn [concat]. rewrite <- S2. symmetry. apply slice_app; lia.
Qed.

Lemma dec_sound t : sound t.
Proof.
  induction t as [t Hbase|e IH|e IH|e IH|fs IH|e IH] using ty_ind'; unfold sound; intros Hs r off n v Hb Ho Hl Hw H Hset;
    try discriminate.
  - destruct t; try discriminate; try contradiction; cbn [dec shape_of] in *.
    + destruct (peek_sint 2 r off) as [n' z| |] eqn:E; try discriminate. injection H as <- <-.
      apply sint_sound in E as (-> & Hf & _); try assumption; [|lia]. split; [assumption|]. constructor.
      destruct Hf as (? & ? & ?). rewrite slice_len; lia.
    + destruct (peek_sint 4 r off) as [n' z| |] eqn:E; try discriminate. injection H as <- <-.
      apply sint_sound in E as (-> & Hf & _); try assumption; [|lia]. split; [assumption|]. constructor.
      destruct Hf as (? & ? & ?). rewrite slice_len; lia.
    + destruct (peek_sint 8 r off) as [n' z| |] eqn:E; try discriminate. injection H as <- <-.
      apply sint_sound in E as (-> & Hf & _); try assumption; [|lia]. split; [assumption|]. constructor.
      destruct Hf as (? & ? & ?). rewrite slice_len; lia.
    + unfold peek_uint in H. destruct (peek_fixed r off 1) as [n' z| |] eqn:E; try discriminate. injection H as <- <-.
      apply fixed_sound in E as (-> & Hf & _); [|lia]. split; [assumption|]. constructor.
      destruct Hf as (? & ? & ?). rewrite slice_len; lia.
    + destruct (peek_data16 r off) as [n' z| |] eqn:E; try discriminate. injection H as <- <-.
      now apply data16_sound in E.
    + destruct (peek_data16 r off) as [n' z| |] eqn:E; try discriminate. injection H as <- <-.
      now apply data16_sound in E.
  - cbn [dec shape_of simple] in *. unfold dec_var_array in H.
    destruct (peek_sint 4 r off) as [n1 z| |] eqn:E; try discriminate.
    apply sint_sound in E as (-> & (F1 & F2 & F3) & Es & Hz); try assumption; [|lia].
    change (Z.to_nat 4) with 4%nat in Es. change (8 * 4 - 1) with 31 in Hz.
    unfold dec_fixed_array in H. destruct (z <? 0) eqn:E0; [injection H as <- <-; discriminate|].
    destruct (dec_items (dec e false) (settable e) r (Z.to_nat z) (off + 4)) as [n2 vs| |] eqn:Ei; try discriminate.
    injection H as <- <-.
    destruct (items_sound e r IH Hs Hb _ (off + 4) _ _ ltac:(lia) F2 F3 Ei) as [(G1 & G2 & G3) (bs & L & P & S)].
    unfold fits. split; [lia|]. rewrite <- (slice_app r off (off + 4)) by lia. rewrite Es, S.
    replace z with (zlen bs) by (unfold zlen; lia). constructor; [unfold zlen; lia|assumption].
  - cbn [dec shape_of simple] in *. destruct (dec_fields dec r fs off) as [n' vs| |] eqn:E; try discriminate.
    injection H as <- <-. destruct (fields_sound r fs Hb IH Hs off n' vs Ho Hl Hw E) as [Hf (bs & P & S)].
    split; [assumption|]. rewrite S. now constructor.
Qed.

(** ** What follows the layout is read *)
Definition readable_as (t : ty) (b : bytes) : Prop := exists v, good (dec t false) b v /\ settable t v = true.

Lemma items_complete e : forall bs, Forall (readable_as e) bs ->
  exists vs, length vs = length bs /\ good (fun r o => dec_items (dec e false) (settable e) r (length bs) o) (concat bs) vs.
Proof.
  induction 1 as [|b bs (x & Hg & Hset) _ (vs & L & IH)].
  - exists []. split; [reflexivity|]. cbn. apply good_ret.
  - exists (x :: vs). split; [cbn; lia|]. cbn [concat length]. eapply good_ext.
    2:{ apply (good_bind (dec e false) (fun x' r n => if settable e x' then dmap (cons x') (dec_items (dec e false) (settable e) r (length bs) n) else DPanic) b (concat bs) x (x :: vs)).
        - exact Hg.
        - rewrite Hset. apply (good_map (cons x)). exact IH. }
    intros r o. unfold dec_items at 1. fold (dec_items (dec e false) (settable e) r).
    destruct (dec e false r o) as [n y| |]; cbn; [|reflexivity|reflexivity].
    destruct (settable e y); [|reflexivity]. now destruct (dec_items (dec e false) (settable e) r (length bs) n).
Qed.
Lemma fields_complete : forall fs bs,
  Forall2 (fun f b => tCompact (fst f) = false /\ readable_as (snd f) b) fs bs ->
  exists vs, good (fun r o => dec_fields dec r fs o) (concat bs) vs.
Proof.
  induction 1 as [|[tg t] b fs bs [Hc (x & Hg & Hset)] _ (vs & IH)].
  - exists []. cbn. apply good_ret.
  - exists (x :: vs). cbn [concat fst snd] in *. eapply good_ext.
    2:{ apply (good_bind (dec t false) (fun x' r n => if settable t x' then dmap (cons x') (dec_fields dec r fs n) else DPanic) b (concat bs) x (x :: vs)).
        - exact Hg.
        - rewrite Hset. apply (good_map (cons x)). exact IH. }
    intros r o. cbn [dec_fields]. rewrite Hc. fold (dec_fields dec r).
    destruct (dec t false r o) as [n y| |]; cbn; [|reflexivity|reflexivity].
    destruct (settable t y); [|reflexivity]. now destruct (dec_fields dec r fs n).
Qed.

Lemma sint_complete n b : zlen b = n -> exists z, good (peek_sint n) b z.
Proof. intros H. exists (swrap (8 * n) (be_get b)). unfold peek_sint. apply (good_map (fun d => swrap (8 * n) (be_get d))). now apply good_fixed. Qed.
Lemma data16_complete b : parses SStr b -> exists o, good peek_data16 b o.
Proof.
  intros H. inversion H as [|n Hn Hneg|s Hs| |]; subst.
  - exists None. eapply good_ext; [apply peek_data16_eq|]. rewrite <- (app_nil_r (w_int16 n)).
    apply (good_bind (peek_sint 2) (fun c r n => if c <? 0 then DOk n None else tail_read c r n) _ _ n).
    + apply good_sint; [lia|unfold l_i16 in Hn; cbn; lia|]. rewrite <- enc_i16_w. reflexivity.
    + replace (n <? 0) with true by lia. apply good_ret.
  - exists (Some s). change (w_string s) with (w_nstring (Some s)). rewrite <- enc_nstr_w. apply good_data16. unfold l_string in Hs. lia.
Qed.

Lemma complete t : simple t = true -> forall b, parses (shape_of t) b -> readable_as t b.
Proof.
  induction t as [t Hbase|e IH|e IH|e IH|fs IH|e IH] using ty_ind'; intros Hs b Hp; try discriminate.
  - unfold readable_as. destruct t; try discriminate; try contradiction; cbn [shape_of dec] in *.
    + inversion Hp; subst. destruct (sint_complete (zlen b) b eq_refl) as [z Hz]. exists (VInt z). split; [|reflexivity].
      rewrite H0 in Hz. now apply (good_map VInt).
    + inversion Hp; subst. destruct (sint_complete (zlen b) b eq_refl) as [z Hz]. exists (VInt z). split; [|reflexivity].
      rewrite H0 in Hz. now apply (good_map VInt).
    + inversion Hp; subst. destruct (sint_complete (zlen b) b eq_refl) as [z Hz]. exists (VInt z). split; [|reflexivity].
      rewrite H0 in Hz. now apply (good_map VInt).
    + inversion Hp; subst. exists (VInt (be_get b)). split; [|reflexivity]. apply (good_map VInt). unfold peek_uint.
      apply (good_map be_get). now apply good_fixed.
    + apply data16_complete in Hp as [o Ho]. eexists. split; [apply (good_map (fun o => VStr match o with Some s => s | None => [] end)), Ho|reflexivity].
    + apply data16_complete in Hp as [o Ho]. eexists. split; [apply (good_map VNStr), Ho|reflexivity].
  - cbn [shape_of simple] in *. inversion Hp as [| | |e' bs Hl HF|]; subst.
    assert (HF' : Forall (readable_as e) bs) by (eapply Forall_impl; [exact HF|]; intros; now apply IH).
    destruct (items_complete e bs HF') as (vs & L & Hg). exists (VSlice (Some vs)). split; [|reflexivity].
    eapply good_ext; [intros; cbn [dec]; reflexivity|].
    apply (good_bind (peek_sint 4) (fun len r n => dec_fixed_array (dec e false) (settable e) r n len) _ _ (zlen bs)).
    + apply good_sint; [lia|cbn; pose proof (zlen_nonneg bs); lia|]. rewrite <- enc_i32_w. reflexivity.
    + unfold dec_fixed_array. pose proof (zlen_nonneg bs). replace (zlen bs <? 0) with false by lia.
      apply (good_map (fun xs => VSlice (Some xs))). replace (Z.to_nat (zlen bs)) with (length bs) by (unfold zlen; lia). exact Hg.
  - cbn [shape_of simple] in *. inversion Hp as [| | | |fs' bs HF]; subst.
    assert (HF' : Forall2 (fun f b => tCompact (fst f) = false /\ readable_as (snd f) b) fs bs).
    { clear Hp. revert bs HF Hs. induction IH as [|[tg t] fs Ht _ IHfs]; intros bs HF Hs; inversion HF; subst; constructor.
      - cbn [forallb] in Hs. apply andb_true_iff in Hs as [Hs1 _]. apply andb_true_iff in Hs1 as [Hc Hst].
        apply negb_true_iff in Hc. cbn [fst snd] in *. auto.
      - apply IHfs; [assumption|]. cbn [forallb] in Hs. now apply andb_true_iff in Hs as [_ ?]. }
    destruct (fields_complete fs bs HF') as (vs & Hg). exists (VStruct vs). split; [|reflexivity].
    eapply good_ext; [intros; cbn [dec]; reflexivity|]. now apply (good_map VStruct).
Qed.

(** ** Null arrays are never read *)
Lemma pass_readable t bs more pre : readable_as t bs -> zlen pre <= bufsize ->
  (exists v, dec t false (pre ++ bs ++ more) (zlen pre) = DOk (zlen (pre ++ bs)) v /\ settable t v = true /\
    zlen (pre ++ bs) <= bufsize) \/
  dec t false (pre ++ bs ++ more) (zlen pre) = DFail.
Proof.
  intros (v & Hg & Hset) Hp. destruct (Z.le_gt_cases (zlen pre + zlen bs) bufsize) as [H|H].
  - left. exists v. rewrite zlen_app. destruct (Hg pre) as [G _]. auto.
  - right. eapply good_beyond; eauto. intros. apply dec_window.
Qed.

Lemma null_bad sh b : null_at sh b -> forall t, simple t = true -> shape_of t = sh -> badset t b.
Proof.
  induction 1 as [e n rest Hn Hneg|e n bs b Hlt Hn HF _ IH|fs1 bs f fs2 b HF _ IH]; intros t Hs Ht pre m a Hp E.
  - destruct t; try discriminate. cbn [shape_of dec] in *. unfold dec_var_array in E.
    rewrite <- enc_i32_w in E. unfold l_i32 in Hn.
    destruct (peek_count n rest pre ltac:(lia) Hp) as [[Ep _]|Ep]; rewrite Ep in E; [|discriminate].
    unfold dec_fixed_array in E. replace (n <? 0) with true in E by lia. now injection E as <- <-.
  - exfalso. destruct t as [| | | | | | | | | | | | | | | | | | | | | | | |t|t|t|fs|t]; try discriminate.
    cbn [shape_of dec simple] in *. injection Ht as Ht. unfold dec_var_array in E.
    rewrite <- enc_i32_w in E. unfold l_i32 in Hn. pose proof (zlen_nonneg bs).
    destruct (peek_count n (concat bs ++ b) pre ltac:(lia) Hp) as [[Ep Hp']|Ep]; rewrite Ep in E; [|discriminate].
    unfold dec_fixed_array in E. replace (n <? 0) with false in E by lia. rewrite app_assoc in E.
    destruct (dec_items (dec t false) (settable t) ((pre ++ enc_i32 n) ++ concat bs ++ b) (Z.to_nat n) (zlen (pre ++ enc_i32 n))) as [n' a'| |] eqn:Ef;
      try discriminate. clear E Ep. specialize (IH t Hs Ht).
    assert (Hk : (length bs < Z.to_nat n)%nat) by (unfold zlen in *; lia).
    revert Hk Hp' Ef. generalize (Z.to_nat n) as k, (pre ++ enc_i32 n) as pre'. clear pre Hp Hlt H.
    revert n' a'. subst e. induction HF as [|b1 bs H1 _ IHF]; intros n' a' k pre' Hk Hp' Ef.
    + destruct k as [|k]; [cbn in Hk; lia|]. cbn [dec_items concat app] in Ef.
      destruct (dec t false (pre' ++ b) (zlen pre')) as [n2 a2| |] eqn:Ed; try discriminate.
      rewrite (IH pre' n2 a2 Hp' Ed) in Ef. discriminate.
    + destruct k as [|k]; [cbn in Hk; lia|]. cbn [dec_items concat] in Ef. rewrite <- app_assoc in Ef.
      apply complete in H1; [|assumption].
      destruct (pass_readable t b1 (concat bs ++ b) pre' H1 Hp') as [(v & Ed & Hset & Hp2)|Ed]; rewrite Ed in Ef; [|discriminate].
      rewrite Hset in Ef. rewrite app_assoc in Ef. fold (dec_items (dec t false) (settable t) ((pre' ++ b1) ++ concat bs ++ b)) in Ef.
      destruct (dec_items (dec t false) (settable t) ((pre' ++ b1) ++ concat bs ++ b) k (zlen (pre' ++ b1))) as [n2 a2| |] eqn:E2;
        try discriminate.
      eapply IHF; [|exact Hp2|exact E2]. cbn in Hk; lia.
  - exfalso. destruct t as [| | | | | | | | | | | | | | | | | | | | | | | |t|t|t|fs|t]; try discriminate.
    cbn [shape_of dec simple] in *. injection Ht as Ht.
    destruct (dec_fields dec (pre ++ concat bs ++ b) fs (zlen pre)) as [n' a'| |] eqn:Ef; try discriminate. clear E.
    revert fs Hs Ht pre Hp n' a' Ef. induction HF as [|f1 b1 fs1 bs H1 _ IHF]; intros fs Hs Ht pre Hp n' a' Ef.
    + destruct fs as [|[tg t] fs]; [discriminate|]. cbn [map app] in Ht. injection Ht as Ht _.
      cbn [forallb] in Hs. apply andb_true_iff in Hs as [Hs1 _]. apply andb_true_iff in Hs1 as [Hc Hst]. apply negb_true_iff in Hc.
      cbn [dec_fields concat app] in Ef. rewrite Hc in Ef.
      destruct (dec t false (pre ++ b) (zlen pre)) as [n2 a2| |] eqn:Ed; try discriminate.
      rewrite (IH t Hst Ht pre n2 a2 Hp Ed) in Ef. discriminate.
    + destruct fs as [|[tg t] fs]; [discriminate|]. cbn [map app] in Ht. injection Ht as Ht Htl.
      cbn [forallb] in Hs. apply andb_true_iff in Hs as [Hs1 Hs2]. apply andb_true_iff in Hs1 as [Hc Hst]. apply negb_true_iff in Hc.
      cbn [dec_fields concat] in Ef. rewrite Hc, <- app_assoc in Ef. subst f1. apply complete in H1; [|assumption].
      destruct (pass_readable t b1 (concat bs ++ b) pre H1 Hp) as [(v & Ed & Hset & Hp2)|Ed]; rewrite Ed in Ef; [|discriminate].
      rewrite Hset in Ef. rewrite app_assoc in Ef. fold (dec_fields dec ((pre ++ b1) ++ concat bs ++ b)) in Ef.
      destruct (dec_fields dec ((pre ++ b1) ++ concat bs ++ b) fs (zlen (pre ++ b1))) as [n2 a2| |] eqn:E2; try discriminate.
      eapply (IHF fs); eauto.
Qed.
