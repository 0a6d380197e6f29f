(** * CodecProofs: lemmas about the codec model. *)
From Verif Require Export CodecSpec.
From Coq Require Import ZifyBool ZifyNat.

(* Induction principle for [ty] that goes through struct fields. *)
Section TyInd.
  Variable P : ty -> Prop.
  Hypothesis HBase : forall t,
    match t with TSlice _ | TArray _ | TPtr _ | TStruct _ | TMsgSet _ => False | _ => True end -> P t.
  Hypothesis HSlice : forall e, P e -> P (TSlice e).
  Hypothesis HArray : forall e, P e -> P (TArray e).
  Hypothesis HPtr : forall e, P e -> P (TPtr e).
  Hypothesis HStruct : forall fs, Forall (fun f => P (snd f)) fs -> P (TStruct fs).
  Hypothesis HMsg : forall e, P e -> P (TMsgSet e).
  Fixpoint ty_ind' (t : ty) : P t.
  Proof.
    destruct t; try (apply HBase; exact I).
    - apply HSlice, ty_ind'.
    - apply HArray, ty_ind'.
    - apply HPtr, ty_ind'.
    - apply HStruct. induction fs as [|[tg t'] fs IH]; constructor; [apply ty_ind'|exact IH].
    - apply HMsg, ty_ind'.
  Defined.
End TyInd.

(** ** Lists and lengths *)
Lemma zlen_app {A} (a b : list A) : zlen (a ++ b) = zlen a + zlen b.
Proof. unfold zlen. rewrite app_length. lia. Qed.
Lemma zlen_nil {A} : zlen (@nil A) = 0.
Proof. reflexivity. Qed.
Lemma zlen_cons {A} (x : A) l : zlen (x :: l) = zlen l + 1.
Proof. unfold zlen. cbn [length]. lia. Qed.
Lemma zlen_nonneg {A} (l : list A) : 0 <= zlen l.
Proof. unfold zlen. lia. Qed.
Lemma zlen_firstn {A} k (l : list A) : (k <= length l)%nat -> zlen (firstn k l) = Z.of_nat k.
Proof. intros. unfold zlen. rewrite firstn_length. lia. Qed.
Lemma zlen_map {A B} (f : A -> B) l : zlen (map f l) = zlen l.
Proof. unfold zlen. now rewrite map_length. Qed.

Lemma firstn_app_exact {A} (a b : list A) n : n = length a -> firstn n (a ++ b) = a.
Proof. intros ->. rewrite firstn_app, Nat.sub_diag, firstn_all. cbn. apply app_nil_r. Qed.
Lemma skipn_app_exact {A} (a b : list A) n : n = length a -> skipn n (a ++ b) = b.
Proof. intros ->. rewrite skipn_app, Nat.sub_diag, skipn_all. reflexivity. Qed.

(** ** Wrapping *)
Lemma uwrap_id w z : 0 <= w -> 0 <= z < 2 ^ w -> uwrap w z = z.
Proof. intros. unfold uwrap. apply Z.mod_small. lia. Qed.
Lemma swrap_id w z : 0 < w -> - 2 ^ (w - 1) <= z < 2 ^ (w - 1) -> swrap w z = z.
Proof.
  intros Hw Hz. unfold swrap.
  assert (2 ^ w = 2 * 2 ^ (w - 1)) by (rewrite <- Z.pow_succ_r by lia; f_equal; lia).
  rewrite Z.mod_small by lia. lia.
Qed.
Lemma uwrap_range w z : 0 <= w -> 0 <= uwrap w z < 2 ^ w.
Proof. intros. unfold uwrap. apply Z.mod_pos_bound. apply Z.pow_pos_nonneg; lia. Qed.
Lemma swrap_uwrap w z : 0 < w -> - 2 ^ (w - 1) <= z < 2 ^ (w - 1) -> swrap w (uwrap w z) = z.
Proof.
  intros Hw Hz.
  assert (2 ^ w = 2 * 2 ^ (w - 1)) by (rewrite <- Z.pow_succ_r by lia; f_equal; lia).
  unfold swrap, uwrap.
  rewrite Zplus_mod_idemp_l, Z.mod_small by lia. lia.
Qed.
Lemma uwrap_swrap w z : 0 < w -> uwrap w (swrap w z) = uwrap w z.
Proof.
  intros Hw. unfold uwrap, swrap.
  replace (((z + 2 ^ (w - 1)) mod 2 ^ w) - 2 ^ (w - 1))
    with ((z + 2 ^ (w - 1)) mod 2 ^ w + - 2 ^ (w - 1)) by lia.
  rewrite Zplus_mod_idemp_l. f_equal. lia.
Qed.
Lemma swrap_range w z : 0 < w -> - 2 ^ (w - 1) <= swrap w z < 2 ^ (w - 1).
Proof.
  intros Hw.
  assert (2 ^ w = 2 * 2 ^ (w - 1)) by (rewrite <- Z.pow_succ_r by lia; f_equal; lia).
  assert (0 < 2 ^ (w - 1)) by (apply Z.pow_pos_nonneg; lia).
  unfold swrap. pose proof (Z.mod_pos_bound (z + 2 ^ (w - 1)) (2 ^ w)). lia.
Qed.
Lemma in_s_iff w z : in_s w z = true <-> - 2 ^ (w - 1) <= z < 2 ^ (w - 1).
Proof. unfold in_s. lia. Qed.
Lemma in_u_iff w z : in_u w z = true <-> 0 <= z < 2 ^ w.
Proof. unfold in_u. lia. Qed.

(** ** Big endian *)
Lemma be_put_length n v : length (be_put n v) = n.
Proof. induction n; cbn; congruence. Qed.
Lemma zlen_be_put n v : zlen (be_put n v) = Z.of_nat n.
Proof. unfold zlen. now rewrite be_put_length. Qed.

Lemma be_get_put_acc n : forall v a,
  fold_left (fun a b => a * 256 + b) (be_put n v) a = a * 256 ^ Z.of_nat n + v mod 256 ^ Z.of_nat n.
Proof.
  induction n as [|n IH]; intros v a.
  - cbn. rewrite Z.mod_1_r. lia.
  - cbn [be_put fold_left]. rewrite IH.
    rewrite Nat2Z.inj_succ, Z.pow_succ_r by lia.
    unfold uwrap. rewrite Z.shiftr_div_pow2 by lia.
    rewrite Z.pow_mul_r by lia. change (2 ^ 8) with 256.
    set (m := 256 ^ Z.of_nat n).
    assert (0 < m) by (apply Z.pow_pos_nonneg; lia).
    rewrite (Z.mul_comm 256 m), Z.rem_mul_r by lia. lia.
Qed.
Lemma be_get_put n v : be_get (be_put n v) = v mod 256 ^ Z.of_nat n.
Proof. unfold be_get. rewrite be_get_put_acc. lia. Qed.

Lemma be_put_bytes n v : Forall (fun b => 0 <= b < 256) (be_put n v).
Proof. induction n; constructor; auto. apply (uwrap_range 8). lia. Qed.

(** ** Zig-zag *)
Definition zz (n : Z) : Z := if 0 <=? n then 2 * n else - 2 * n - 1.

Lemma zigzag_zz w n : w = 32 \/ w = 64 -> - 2 ^ (w - 1) <= n < 2 ^ (w - 1) -> zigzag w n = zz n.
Proof.
  intros Hw Hn. unfold zigzag, zz.
  rewrite Z.shiftl_mul_pow2 by lia. change (2 ^ 1) with 2.
  rewrite Z.shiftr_div_pow2 by lia.
  assert (Hp : 0 < 2 ^ (w - 1)) by (apply Z.pow_pos_nonneg; lia).
  assert (Hww : 2 ^ w = 2 * 2 ^ (w - 1)) by (rewrite <- Z.pow_succ_r by lia; f_equal; lia).
  destruct (0 <=? n) eqn:E.
  - rewrite Z.div_small by lia. rewrite Z.lxor_0_r.
    rewrite uwrap_swrap by lia. rewrite uwrap_id; lia.
  - replace (n / 2 ^ (w - 1)) with (-1).
    2:{ apply Z.div_unique with (n + 2 ^ (w - 1)); lia. }
    rewrite Z.lxor_m1_r. unfold Z.lnot.
    replace (Z.pred (- swrap w (n * 2))) with (- swrap w (n*2) - 1) by lia.
    unfold swrap. rewrite Hww. set (h := 2 ^ (w - 1)) in *.
    unfold uwrap. rewrite Hww. fold h.
    pose proof (Z.mod_pos_bound (n * 2 + h) (2 * h)).
    pose proof (Z.div_mod (n * 2 + h) (2 * h)).
    set (q := (n*2+h) / (2*h)) in *. set (m := (n*2+h) mod (2*h)) in *.
    symmetry. apply Z.mod_unique with (q). lia.
    replace (- (m - h) - 1) with (2 * h * q - n * 2 - 1) by lia. lia.
Qed.

Lemma zz_range w n : 0 < w -> - 2 ^ (w - 1) <= n < 2 ^ (w - 1) -> 0 <= zz n < 2 ^ w.
Proof.
  intros Hw Hn.
  assert (2 ^ w = 2 * 2 ^ (w - 1)) by (rewrite <- Z.pow_succ_r by lia; f_equal; lia).
  unfold zz. destruct (0 <=? n) eqn:E; lia.
Qed.

Lemma lxor_ones a w : 0 <= w -> 0 <= a < 2 ^ w -> Z.lxor a (2 ^ w - 1) = 2 ^ w - 1 - a.
Proof.
  intros Hw Ha.
  assert (E : 2 ^ w - 1 = Z.ones w) by (rewrite Z.ones_equiv; lia).
  rewrite E.
  assert (Hd : Z.ldiff a (Z.ones w) = 0).
  { rewrite Z.ldiff_ones_r by lia. rewrite Z.shiftr_div_pow2, Z.div_small by lia. apply Z.shiftl_0_l. }
  rewrite Z.sub_nocarry_ldiff by exact Hd.
  apply Z.bits_inj'. intros i Hi.
  rewrite Z.lxor_spec, Z.ldiff_spec.
  assert (Hb := f_equal (fun z => Z.testbit z i) Hd). cbv beta in Hb.
  rewrite Z.ldiff_spec, Z.bits_0 in Hb.
  destruct (Z.testbit a i), (Z.testbit (Z.ones w) i); cbn in *; congruence.
Qed.

Lemma unzigzag_zz w n : w = 32 \/ w = 64 -> - 2 ^ (w - 1) <= n < 2 ^ (w - 1) ->
  unzigzag w (zz n) = n.
Proof.
  intros Hw Hn. pose proof (zz_range w n ltac:(lia) Hn) as Hz.
  assert (Hp : 0 < 2 ^ (w - 1)) by (apply Z.pow_pos_nonneg; lia).
  assert (Hww : 2 ^ w = 2 * 2 ^ (w - 1)) by (rewrite <- Z.pow_succ_r by lia; f_equal; lia).
  unfold unzigzag. rewrite Z.shiftr_div_pow2 by lia. change (2 ^ 1) with 2.
  replace (Z.land (zz n) 1) with (zz n mod 2).
  2:{ change 1 with (Z.ones 1) at 1. rewrite Z.land_ones by lia. reflexivity. }
  unfold zz in *. destruct (0 <=? n) eqn:E.
  - replace (2 * n) with (n * 2) by lia. rewrite Z.mod_mul, Z.div_mul by lia.
    rewrite Z.opp_0. unfold uwrap. rewrite Z.mod_0_l, Z.lxor_0_r by lia.
    apply swrap_id; lia.
  - replace ((-2 * n - 1) mod 2) with 1.
    2:{ apply Z.mod_unique with (- n - 1); lia. }
    replace ((-2 * n - 1) / 2) with (- n - 1).
    2:{ apply Z.div_unique with 1; lia. }
    replace (uwrap w (Z.opp 1)) with (2 ^ w - 1).
    2:{ unfold uwrap. apply Z.mod_unique with (-1); lia. }
    rewrite lxor_ones by lia.
    replace (2 ^ w - 1 - (- n - 1)) with (n + 1 * 2 ^ w) by lia.
    replace (swrap w (n + 1 * 2 ^ w)) with (swrap w n).
    2:{ unfold swrap. replace (n + 1 * 2 ^ w + 2 ^ (w - 1)) with ((n + 2 ^ (w - 1)) + 1 * 2 ^ w) by lia.
        rewrite Z.mod_add by lia. reflexivity. }
    apply swrap_id; lia.
Qed.

(** ** Unsigned varints *)
Lemma land127 v : Z.land v 127 = v mod 128.
Proof. change 127 with (Z.ones 7). rewrite Z.land_ones by lia. reflexivity. Qed.
Lemma testbit_small x i : 0 <= i -> 0 <= x < 2 ^ i -> Z.testbit x i = false.
Proof.
  intros Hi Hx. destruct (Z.eq_dec x 0) as [->|]; [apply Z.bits_0|].
  apply Z.bits_above_log2; [lia|]. apply Z.log2_lt_pow2; lia.
Qed.
(* a number below 2^s and a multiple of 2^s: or is plus *)
Lemma lor_disjoint a b s : 0 <= s -> 0 <= a < 2 ^ s -> 0 <= b ->
  Z.lor a (b * 2 ^ s) = a + b * 2 ^ s.
Proof.
  intros Hs Ha Hb.
  assert (Hl : Z.land a (b * 2 ^ s) = 0).
  { apply Z.bits_inj'. intros i Hi. rewrite Z.land_spec, Z.bits_0.
    destruct (Z.lt_ge_cases i s).
    - rewrite Z.mul_pow2_bits_low by lia. apply andb_false_r.
    - rewrite testbit_small; [reflexivity|lia|]. split; [lia|].
      apply Z.lt_le_trans with (2 ^ s); [lia|]. apply Z.pow_le_mono_r; lia. }
  rewrite Z.add_nocarry_lxor by exact Hl.
  apply Z.bits_inj'. intros i Hi. rewrite Z.lor_spec, Z.lxor_spec.
  assert (Hb' := f_equal (fun z => Z.testbit z i) Hl). cbv beta in Hb'.
  rewrite Z.land_spec, Z.bits_0 in Hb'.
  destruct (Z.testbit a i), (Z.testbit (b * 2 ^ s) i); cbn in *; congruence.
Qed.
Lemma lor128 x : 0 <= x < 128 -> Z.lor x 128 = x + 128.
Proof. intros. apply (lor_disjoint x 1 7); lia. Qed.

Lemma land128_small x : 0 <= x < 128 -> Z.land x 128 = 0.
Proof.
  intros. apply Z.bits_inj'. intros i Hi. rewrite Z.land_spec, Z.bits_0.
  change 128 with (2 ^ 7). rewrite Z.pow2_bits_eqb by lia.
  destruct (Z.eqb_spec 7 i) as [<-|]; [|apply andb_false_r].
  rewrite testbit_small; [reflexivity|lia|lia].
Qed.
Lemma land128_big x : 0 <= x < 128 -> Z.land (x + 128) 128 = 128.
Proof.
  intros Hx. rewrite <- lor128 by lia. rewrite Z.land_comm.
  rewrite Z.land_lor_distr_r. rewrite (Z.land_comm 128 x), land128_small by lia.
  reflexivity.
Qed.

Lemma shiftr7 v : Z.shiftr v 7 = v / 128.
Proof. rewrite Z.shiftr_div_pow2 by lia. reflexivity. Qed.

Lemma mk_loop_dec w fuel : forall v next shift acc rest,
  (0 < fuel)%nat -> 0 <= v < 2 ^ (7 * Z.of_nat fuel) -> 0 <= shift -> 0 <= acc < 2 ^ shift ->
  0 <= w -> v * 2 ^ shift < 2 ^ w ->
  varuint_loop w (mk_varuint_loop fuel v ++ rest) next shift acc
  = DOk (next + zlen (mk_varuint_loop fuel v)) (acc + v * 2 ^ shift).
Proof.
  induction fuel as [|fuel IH]; intros v next shift acc rest Hf Hv Hs Ha Hw Hvw; [lia|].
  cbn [mk_varuint_loop]. rewrite land127, shiftr7.
  pose proof (Z.mod_pos_bound v 128 ltac:(lia)) as Hm.
  pose proof (Z.div_mod v 128 ltac:(lia)) as Hdm.
  assert (Hp : 0 < 2 ^ shift) by (apply Z.pow_pos_nonneg; lia).
  destruct (127 <? v) eqn:E.
  - rewrite lor128 by lia. cbn [app varuint_loop].
    rewrite land128_big by lia. change (128 =? 0) with false. cbv iota.
    rewrite land127.
    replace ((v mod 128 + 128) mod 128) with (v mod 128).
    2:{ replace (v mod 128 + 128) with (v mod 128 + 1 * 128) by lia.
        rewrite Z.mod_add, Z.mod_mod by lia. reflexivity. }
    rewrite Z.shiftl_mul_pow2 by lia.
    rewrite uwrap_id by nia.
    rewrite lor_disjoint by lia.
    destruct fuel as [|fuel'].
    { exfalso. change (2 ^ (7 * Z.of_nat 1)) with 128 in Hv. lia. }
    rewrite IH.
    + rewrite zlen_cons. f_equal; [lia|].
      rewrite Z.pow_add_r by lia. change (2 ^ 7) with 128. nia.
    + lia.
    + split; [apply Z.div_pos; lia|]. apply Z.div_lt_upper_bound; [lia|].
      replace (128 * 2 ^ (7 * Z.of_nat (S fuel'))) with (2 ^ (7 * Z.of_nat (S (S fuel')))); [lia|].
      change 128 with (2 ^ 7). rewrite <- Z.pow_add_r by lia. f_equal. lia.
    + lia.
    + split; [nia|]. rewrite Z.pow_add_r by lia. change (2 ^ 7) with 128. nia.
    + lia.
    + rewrite Z.pow_add_r by lia. change (2 ^ 7) with 128. nia.
  - cbn [app varuint_loop].
    rewrite Z.mod_small by lia. rewrite land128_small by lia.
    change (0 =? 0) with true. cbv iota.
    rewrite land127, Z.mod_small by lia.
    rewrite Z.shiftl_mul_pow2 by lia. rewrite uwrap_id by nia.
    rewrite lor_disjoint by lia. rewrite zlen_cons, zlen_nil. f_equal; lia.
Qed.

Lemma mk_loop_prefix w fuel : forall v next shift acc k,
  0 <= v -> (k < length (mk_varuint_loop fuel v))%nat ->
  varuint_loop w (firstn k (mk_varuint_loop fuel v)) next shift acc = DFail.
Proof.
  induction fuel as [|fuel IH]; intros v next shift acc k Hv Hk; [cbn in Hk; lia|].
  cbn [mk_varuint_loop] in *. rewrite land127, shiftr7 in *.
  pose proof (Z.mod_pos_bound v 128 ltac:(lia)) as Hm.
  destruct (127 <? v) eqn:E.
  - rewrite lor128 in * by lia. destruct k as [|k]; [reflexivity|].
    cbn [firstn varuint_loop]. rewrite land128_big by lia. change (128 =? 0) with false. cbv iota.
    cbn [length] in Hk. apply IH; [apply Z.div_pos; lia|lia].
  - cbn [length] in Hk. assert (k = 0)%nat by lia. subst. reflexivity.
Qed.

Lemma mk_loop_length fuel n : forall v,
  (0 < n <= fuel)%nat -> 0 <= v < 2 ^ (7 * Z.of_nat n) ->
  (1 <= length (mk_varuint_loop fuel v) <= n)%nat.
Proof.
  revert fuel. induction n as [|n IH]; intros fuel v Hn Hv; [lia|].
  destruct fuel as [|fuel]; [lia|]. cbn [mk_varuint_loop]. rewrite shiftr7.
  destruct (127 <? v) eqn:E; [|cbn; lia].
  destruct n as [|n'].
  { exfalso. change (2 ^ (7 * Z.of_nat 1)) with 128 in Hv. lia. }
  cbn [length]. specialize (IH fuel (v / 128)). 
  assert (1 <= length (mk_varuint_loop fuel (v / 128)) <= S n')%nat; [|lia].
  apply IH; [lia|]. split; [apply Z.div_pos; lia|]. apply Z.div_lt_upper_bound; [lia|].
  replace (128 * 2 ^ (7 * Z.of_nat (S n'))) with (2 ^ (7 * Z.of_nat (S (S n')))); [lia|].
  change 128 with (2 ^ 7). rewrite <- Z.pow_add_r by lia. f_equal. lia.
Qed.

Lemma mk_varuint_len32 v : 0 <= v < 2 ^ 32 -> (1 <= length (mk_varuint v) <= 5)%nat.
Proof. intros. apply mk_loop_length; [lia|]. change (2 ^ (7 * Z.of_nat 5)) with (2 ^ 35). lia. Qed.
Lemma mk_varuint_len64 v : 0 <= v < 2 ^ 64 -> (1 <= length (mk_varuint v) <= 10)%nat.
Proof. intros. apply mk_loop_length; [lia|]. change (2 ^ (7 * Z.of_nat 10)) with (2 ^ 70). lia. Qed.

(** ** In-place decoding: exact on the full encoding, failing on every cut *)

Definition dbind {A B} (d : dres A) (f : Z -> A -> dres B) : dres B :=
  match d with DOk n a => f n a | DFail => DFail | DPanic => DPanic end.

(** [good d bs a]: wherever the bytes [bs] sit in the buffer, [d] reads [a] from
    them and stops at their end; if they are cut, [d] fails. *)
Definition good {A} (d : bytes -> Z -> dres A) (bs : bytes) (a : A) : Prop :=
  forall pre,
    (forall rest, zlen pre + zlen bs <= bufsize ->
       d (pre ++ bs ++ rest) (zlen pre) = DOk (zlen pre + zlen bs) a) /\
    (forall k, (k < length bs)%nat -> zlen pre + Z.of_nat k <= bufsize ->
       d (pre ++ firstn k bs) (zlen pre) = DFail).

Lemma good_ext {A} (d d' : bytes -> Z -> dres A) bs a :
  (forall r o, d r o = d' r o) -> good d' bs a -> good d bs a.
Proof.
  intros He Hg pre. destruct (Hg pre) as [H1 H2].
  split; intros; rewrite He; auto.
Qed.

Lemma good_map {A B} (f : A -> B) d bs a :
  good d bs a -> good (fun r o => dmap f (d r o)) bs (f a).
Proof.
  intros Hg pre. destruct (Hg pre) as [H1 H2].
  split; intros.
  - rewrite H1 by assumption. reflexivity.
  - rewrite H2 by assumption. reflexivity.
Qed.

Lemma good_bind {A B} (d1 : bytes -> Z -> dres A) (d2 : A -> bytes -> Z -> dres B) b1 b2 a b :
  good d1 b1 a -> good (d2 a) b2 b ->
  good (fun r o => dbind (d1 r o) (fun n x => d2 x r n)) (b1 ++ b2) b.
Proof.
  intros G1 G2 pre. destruct (G1 pre) as [H1 H2]. destruct (G2 (pre ++ b1)) as [K1 K2].
  rewrite zlen_app in K1, K2. split.
  - intros rest Hl. rewrite zlen_app in *. pose proof (zlen_nonneg b2).
    rewrite <- app_assoc, H1 by lia. cbn [dbind].
    specialize (K1 rest). rewrite <- app_assoc in K1. rewrite K1 by lia. f_equal. lia.
  - intros k Hk Hw. rewrite app_length in Hk.
    destruct (Nat.lt_ge_cases k (length b1)) as [Hlt|Hge].
    + rewrite firstn_app. replace (k - length b1)%nat with 0%nat by lia.
      cbn [firstn]. rewrite app_nil_r, H2 by assumption. reflexivity.
    + rewrite firstn_app, (firstn_all2 b1) by lia.
      unfold zlen in *.
      rewrite H1 by lia. cbn [dbind].
      specialize (K2 (k - length b1)%nat). rewrite <- app_assoc in K2.
      apply K2; lia.
Qed.

Lemma good_ret {A} (a : A) : good (fun _ o => DOk o a) [] a.
Proof.
  intros pre. split.
  - intros. rewrite zlen_nil. f_equal. lia.
  - intros k Hk. cbn in Hk. lia.
Qed.

Lemma peek_ok (pre bs rest : bytes) n :
  n = zlen pre + zlen bs -> n <= bufsize -> peek (pre ++ bs ++ rest) n = Some (pre ++ bs).
Proof.
  intros -> Hb. unfold peek.
  pose proof (zlen_nonneg pre); pose proof (zlen_nonneg bs); pose proof (zlen_nonneg rest).
  rewrite !zlen_app.
  replace (_ || _ || _) with false by lia.
  rewrite app_assoc, firstn_app_exact; [reflexivity|].
  rewrite app_length. unfold zlen. lia.
Qed.
Lemma peek_short r n : zlen r < n -> peek r n = None.
Proof.
  intros. unfold peek. replace (zlen r <? n) with true by lia. now rewrite orb_true_r.
Qed.

Lemma skipn_pre (pre bs : bytes) : skipn (Z.to_nat (zlen pre)) (pre ++ bs) = bs.
Proof. apply skipn_app_exact. unfold zlen. lia. Qed.

Lemma good_fixed n bs : zlen bs = n -> good (fun r o => peek_fixed r o n) bs bs.
Proof.
  intros Hn pre. split.
  - intros rest Hl. unfold peek_fixed.
    rewrite peek_ok by lia. rewrite skipn_pre, Hn. reflexivity.
  - intros k Hk Hw. unfold peek_fixed. rewrite peek_short; [reflexivity|].
    rewrite zlen_app, zlen_firstn by lia. unfold zlen in *. lia.
Qed.

Lemma good_uint n v bs : 0 < n -> 0 <= v < 2 ^ (8 * n) -> bs = be_put (Z.to_nat n) (uwrap (8 * n) v) ->
  good (peek_uint n) bs v.
Proof.
  intros Hn Hv ->. unfold peek_uint.
  replace v with (be_get (be_put (Z.to_nat n) (uwrap (8 * n) v))) at 2.
  - apply good_map. apply good_fixed. rewrite zlen_be_put. lia.
  - rewrite be_get_put, Z2Nat.id, uwrap_id by lia.
    change 256 with (2 ^ 8). rewrite <- Z.pow_mul_r by lia. apply Z.mod_small. lia.
Qed.
Lemma good_sint n v bs : 0 < n -> - 2 ^ (8 * n - 1) <= v < 2 ^ (8 * n - 1) ->
  bs = be_put (Z.to_nat n) (uwrap (8 * n) v) ->
  good (peek_sint n) bs v.
Proof.
  intros Hn Hv ->. unfold peek_sint.
  replace v with (swrap (8 * n) (be_get (be_put (Z.to_nat n) (uwrap (8 * n) v)))) at 2.
  - apply (good_map (fun d => swrap (8 * n) (be_get d))). apply good_fixed. rewrite zlen_be_put. lia.
  - rewrite be_get_put, Z2Nat.id by lia.
    change 256 with (2 ^ 8). rewrite <- Z.pow_mul_r by lia.
    rewrite Z.mod_small by (apply uwrap_range; lia).
    apply swrap_uwrap; lia.
Qed.

Lemma good_bool b : good peek_bool (enc_bool b) b.
Proof.
  unfold peek_bool. replace b with (negb (be_get (enc_bool b) =? 0)) at 2 by (destruct b; reflexivity).
  apply (good_map (fun d => negb (be_get d =? 0))). apply good_fixed. reflexivity.
Qed.

(** Unsigned varints in place. *)
Lemma skipn_firstn_avail (pre l : bytes) n :
  zlen pre <= n ->
  skipn (Z.to_nat (zlen pre)) (firstn (Z.to_nat n) (pre ++ l)) = firstn (Z.to_nat (n - zlen pre)) l.
Proof.
  intros Hn. pose proof (zlen_nonneg pre).
  rewrite firstn_app. rewrite (firstn_all2 pre) by (unfold zlen in *; lia).
  rewrite skipn_pre. f_equal. unfold zlen in *. lia.
Qed.

Lemma firstn_app_ge {A} (a b : list A) n : (length a <= n)%nat -> firstn n (a ++ b) = a ++ firstn (n - length a) b.
Proof. intros. rewrite firstn_app, firstn_all2 by lia. reflexivity. Qed.

Lemma good_varuint_w w maxb v :
  0 <= w <= 64 -> 0 <= maxb -> 0 <= v < 2 ^ w -> zlen (mk_varuint v) <= maxb ->
  good (peek_varuint_w w maxb) (mk_varuint v) v.
Proof.
  intros Hw Hm Hv Hl pre. unfold peek_varuint_w, peek_avail. pose proof (zlen_nonneg pre) as Hpre.
  assert (Hv70 : 0 <= v < 2 ^ (7 * Z.of_nat 10)).
  { split; [lia|]. apply Z.lt_le_trans with (2 ^ w); [lia|]. apply Z.pow_le_mono_r; lia. }
  split.
  - intros rest Hfit. rewrite skipn_firstn_avail by (pose proof (zlen_nonneg (mk_varuint v)); lia).
    rewrite firstn_app_ge by (unfold zlen in *; lia).
    unfold mk_varuint at 1. rewrite mk_loop_dec by (cbn; lia).
    f_equal; unfold mk_varuint; lia.
  - intros k Hk Hfit.
    destruct (Z.le_gt_cases (zlen pre) (Z.min (zlen pre + maxb) bufsize)) as [Hle|Hgt]; [|lia].
    rewrite skipn_firstn_avail by lia. rewrite firstn_firstn.
    apply mk_loop_prefix; [lia|]. unfold mk_varuint in *. lia.
Qed.

Lemma good_varuint v : 0 <= v < 2 ^ 32 -> good peek_varuint (enc_varuint v) v.
Proof.
  intros Hv. unfold peek_varuint, enc_varuint. rewrite uwrap_id by lia.
  apply good_varuint_w; try lia. pose proof (mk_varuint_len32 v Hv). unfold zlen. lia.
Qed.
Lemma good_varuint64 v : 0 <= v < 2 ^ 64 -> good peek_varuint64 (enc_varuint64 v) v.
Proof.
  intros Hv. unfold peek_varuint64, enc_varuint64. rewrite uwrap_id by lia.
  apply good_varuint_w; try lia. pose proof (mk_varuint_len64 v Hv). unfold zlen. lia.
Qed.
Lemma good_varint v : - 2 ^ 31 <= v < 2 ^ 31 -> good peek_varint (enc_varint v) v.
Proof.
  intros Hv. unfold peek_varint, enc_varint. rewrite zigzag_zz by (auto; lia).
  rewrite <- (unzigzag_zz 32 v) at 2 by (auto; lia).
  apply good_map. pose proof (zz_range 32 v ltac:(lia) ltac:(lia)).
  apply good_varuint_w; try lia. pose proof (mk_varuint_len32 (zz v)). unfold zlen. lia.
Qed.
Lemma good_varint64 v : - 2 ^ 63 <= v < 2 ^ 63 -> good peek_varint64 (enc_varint64 v) v.
Proof.
  intros Hv. unfold peek_varint64, enc_varint64. rewrite zigzag_zz by (auto; lia).
  rewrite <- (unzigzag_zz 64 v) at 2 by (auto; lia).
  apply good_map. pose proof (zz_range 64 v ltac:(lia) ltac:(lia)).
  apply good_varuint_w; try lia. pose proof (mk_varuint_len64 (zz v)). unfold zlen. lia.
Qed.

(** Length-prefixed data. *)
Definition tail_read (len : Z) (r : bytes) (o : Z) : dres (option bytes) :=
  dmap Some (peek_fixed r o len).

Lemma good_tail s : good (tail_read (zlen s)) s (Some s).
Proof. unfold tail_read. apply (good_map Some). now apply good_fixed. Qed.

Lemma peek_data16_eq r o : peek_data16 r o =
  dbind (peek_sint 2 r o) (fun n c => if c <? 0 then DOk n None else tail_read c r n).
Proof.
  unfold peek_data16, peek_sint, tail_read, peek_fixed.
  destruct (peek r (o + 2)); cbn; [|reflexivity].
  destruct (_ <? 0); [reflexivity|]. destruct (peek r _); reflexivity.
Qed.

Lemma good_data16 o : (match o with Some s => zlen s < 2 ^ 15 | None => True end) ->
  good peek_data16 (enc_nstr o) o.
Proof.
  intros Ho. eapply good_ext; [apply peek_data16_eq|].
  destruct o as [s|].
  - unfold enc_nstr. pose proof (zlen_nonneg s).
    apply (good_bind (peek_sint 2) (fun c r n => if c <? 0 then DOk n None else tail_read c r n) _ _ (zlen s)).
    + apply good_sint; [lia|cbn; lia|]. rewrite swrap_id by lia. reflexivity.
    + replace (zlen s <? 0) with false by lia. apply good_tail.
  - unfold enc_nstr. rewrite <- (app_nil_r (enc_i16 (-1))).
    apply (good_bind (peek_sint 2) (fun c r n => if c <? 0 then DOk n None else tail_read c r n) _ _ (-1)).
    + apply good_sint; [lia|cbn; lia|reflexivity].
    + cbn. apply good_ret.
Qed.

Lemma peek_cnbytes_eq r o : peek_cnbytes r o =
  dbind (peek_varint r o) (fun n c => if c <=? 0 then DOk n None else tail_read (c - 1) r n).
Proof.
  unfold peek_cnbytes, tail_read, peek_fixed.
  destruct (peek_varint r o); cbn; [|reflexivity|reflexivity].
  destruct (_ <=? 0); [reflexivity|]. destruct (peek r _); reflexivity.
Qed.

Lemma good_cnbytes o : (match o with Some s => zlen s < 2 ^ 31 - 1 | None => True end) ->
  good peek_cnbytes (enc_cnstr o) o.
Proof.
  intros Ho. eapply good_ext; [apply peek_cnbytes_eq|].
  destruct o as [s|].
  - unfold enc_cnstr. pose proof (zlen_nonneg s).
    apply (good_bind peek_varint (fun c r n => if c <=? 0 then DOk n None else tail_read (c - 1) r n) _ _ (zlen s + 1)).
    + rewrite swrap_id by lia. apply good_varint. lia.
    + replace (zlen s + 1 <=? 0) with false by lia.
      replace (zlen s + 1 - 1) with (zlen s) by lia. apply good_tail.
  - unfold enc_cnstr. rewrite <- (app_nil_r (enc_varint 0)).
    apply (good_bind peek_varint (fun c r n => if c <=? 0 then DOk n None else tail_read (c - 1) r n) _ _ 0).
    + apply good_varint. lia.
    + cbn. apply good_ret.
Qed.

Lemma peek_nbytes_eq r o : peek_nbytes r o =
  dbind (peek_sint 4 r o) (fun n c => if c <? 0 then DOk n None else tail_read c r n).
Proof.
  unfold peek_nbytes, tail_read, peek_fixed.
  destruct (peek_sint 4 r o); cbn; [|reflexivity|reflexivity].
  destruct (_ <? 0); [reflexivity|]. destruct (peek r _); reflexivity.
Qed.

Lemma good_nbytes o : (match o with Some s => zlen s < 2 ^ 31 | None => True end) ->
  good peek_nbytes (enc_nbytes o) o.
Proof.
  intros Ho. eapply good_ext; [apply peek_nbytes_eq|].
  destruct o as [s|].
  - unfold enc_nbytes. pose proof (zlen_nonneg s).
    apply (good_bind (peek_sint 4) (fun c r n => if c <? 0 then DOk n None else tail_read c r n) _ _ (zlen s)).
    + apply good_sint; [lia|cbn; lia|]. rewrite (uwrap_id 32 (zlen s)) by lia. reflexivity.
    + replace (zlen s <? 0) with false by lia. apply good_tail.
  - unfold enc_nbytes. rewrite <- (app_nil_r (enc_i32 (-1))).
    apply (good_bind (peek_sint 4) (fun c r n => if c <? 0 then DOk n None else tail_read c r n) _ _ (-1)).
    + apply good_sint; [lia|cbn; lia|reflexivity].
    + cbn. apply good_ret.
Qed.

(** ** Arrays and structs *)
Lemma oapp_some a b c : oapp a b = Some c -> exists x y, a = Some x /\ b = Some y /\ c = x ++ y.
Proof. destruct a as [x|], b as [y|]; cbn; intros H; inversion H; eauto. Qed.

Lemma good_items (d : bytes -> Z -> dres val) (ok : val -> bool) (f : val -> option bytes) :
  forall l, Forall (fun x => ok x = true /\ exists b, f x = Some b /\ good d b x) l ->
  exists bs, enc_items f l = Some bs /\
    good (fun r o => dec_items d ok r (length l) o) bs l.
Proof.
  induction l as [|x l IH]; intros HF.
  - exists []. split; [reflexivity|]. cbn. apply good_ret.
  - inversion HF as [|? ? [Hok (b & Hb & Hg)] HF']; subst.
    destruct (IH HF') as (bs & Hbs & Hgs).
    exists (b ++ bs). split; [cbn; rewrite Hb; fold (enc_items f); rewrite Hbs; reflexivity|].
    eapply good_ext.
    2:{ apply (good_bind d (fun x' r n => if ok x' then dmap (cons x') (dec_items d ok r (length l) n) else DPanic) b bs x (x :: l)).
        - exact Hg.
        - rewrite Hok. apply (good_map (cons x)). exact Hgs. }
    intros r o. cbn [length]. unfold dec_items at 1. fold (dec_items d ok r).
    destruct (d r o) as [n y| |]; cbn; [|reflexivity|reflexivity].
    destruct (ok y); [|reflexivity]. now destruct (dec_items d ok r (length l) n).
Qed.

Lemma good_var_array d ok f l :
  zlen l < 2 ^ 31 - 1 ->
  Forall (fun x => ok x = true /\ exists b, f x = Some b /\ good d b x) l ->
  exists bs, oapp (Some (enc_i32 (swrap 32 (zlen l)))) (enc_items f l) = Some bs /\
    good (fun r o => dec_var_array d ok r o) bs (VSlice (Some l)).
Proof.
  intros Hl HF. destruct (good_items d ok f l HF) as (bs & Hbs & Hg).
  pose proof (zlen_nonneg l).
  exists (enc_i32 (swrap 32 (zlen l)) ++ bs). split; [rewrite Hbs; reflexivity|].
  apply (good_bind (peek_sint 4) (fun len r n => dec_fixed_array d ok r n len) _ _ (zlen l)).
  - apply good_sint; [lia|cbn; lia|]. rewrite swrap_id by lia. reflexivity.
  - unfold dec_fixed_array. replace (zlen l <? 0) with false by lia.
    apply (good_map (fun xs => VSlice (Some xs))).
    replace (Z.to_nat (zlen l)) with (length l) by (unfold zlen; lia). exact Hg.
Qed.

Lemma good_compact_array d ok f l :
  zlen l < 2 ^ 31 - 1 ->
  Forall (fun x => ok x = true /\ exists b, f x = Some b /\ good d b x) l ->
  exists bs, oapp (Some (enc_varint (swrap 32 (swrap 32 (zlen l) + 1)))) (enc_items f l) = Some bs /\
    good (fun r o => dec_compact_array d ok r o) bs (VSlice (Some l)).
Proof.
  intros Hl HF. destruct (good_items d ok f l HF) as (bs & Hbs & Hg).
  pose proof (zlen_nonneg l).
  rewrite (swrap_id 32 (zlen l)) by lia. rewrite swrap_id by lia.
  exists (enc_varint (zlen l + 1) ++ bs). split; [rewrite Hbs; reflexivity|].
  apply (good_bind peek_varint (fun len r n => if len =? 0 then DOk n VNil else dec_fixed_array d ok r n (swrap 32 (len - 1))) _ _ (zlen l + 1)).
  - apply good_varint. lia.
  - replace (zlen l + 1 =? 0) with false by lia.
    replace (zlen l + 1 - 1) with (zlen l) by lia. rewrite swrap_id by lia.
    unfold dec_fixed_array. replace (zlen l <? 0) with false by lia.
    apply (good_map (fun xs => VSlice (Some xs))).
    replace (Z.to_nat (zlen l)) with (length l) by (unfold zlen; lia). exact Hg.
Qed.

Lemma wt_settable t n c v : agrees t n c = true -> wt t v = true -> settable t v = true.
Proof. destruct t, v; cbn; intros; congruence. Qed.

(** A byte slice is written like an array of uint8. *)
Lemma byte_items l : forallb (wt TUint8) l = true ->
  exists b, val_bytes l = Some b /\ zlen b = zlen l /\ enc_items (enc TUint8 false false) l = Some b.
Proof.
  induction l as [|x l IH]; intros H.
  - exists []. auto.
  - cbn [forallb] in H. apply andb_true_iff in H as [Hx Hl].
    destruct (IH Hl) as (b & Hb & Hz & He).
    destruct x; try discriminate. 
    exists (uwrap 8 z :: b). split; [cbn [val_bytes fold_right]; fold (val_bytes l); rewrite Hb; reflexivity|].
    split; [rewrite !zlen_cons; lia|].
    change (oapp (Some (enc_i8 z)) (enc_items (enc TUint8 false false) l) = Some (uwrap 8 z :: b)).
    rewrite He. reflexivity.
Qed.

Lemma enc_slice e n c l : 
  (forallb (wt TUint8) l = true \/ e <> TUint8) -> zlen l < 2 ^ 31 - 1 ->
  enc (TSlice e) n c (VSlice (Some l)) =
  oapp (Some (if c then enc_varint (swrap 32 (swrap 32 (zlen l) + 1)) else enc_i32 (swrap 32 (zlen l))))
       (enc_items (enc e false false) l).
Proof.
  intros He Hl. pose proof (zlen_nonneg l).
  destruct e; try reflexivity.
  destruct He as [He|He]; [|congruence].
  destruct (byte_items l He) as (b & Hb & Hz & Hi).
  rewrite Hi. cbn [enc]. rewrite Hb. cbn [obind oapp].
  rewrite (swrap_id 32 (zlen l)) by lia.
  destruct c; unfold enc_cnstr, enc_nbytes; rewrite Hz; [reflexivity|].
  rewrite (uwrap_id 32 (zlen l)) by lia. reflexivity.
Qed.

Lemma enc_i8_be z : enc_i8 z = be_put (Z.to_nat 1) (uwrap (8 * 1) z).
Proof.
  change (be_put (Z.to_nat 1) (uwrap (8 * 1) z)) with [uwrap 8 (Z.shiftr (uwrap 8 z) 0)].
  rewrite Z.shiftr_0_r. unfold enc_i8, uwrap. now rewrite Z.mod_mod by lia.
Qed.

Theorem enc_dec_good : forall t n c v,
  agrees t n c = true -> wt t v = true ->
  exists bs, enc t n c v = Some bs /\ good (dec t c) bs v.
Proof.
  induction t as [t Hbase|e IH|e IH|e IH|fs IH|e IH] using ty_ind'; intros n c v Ha Hw.
  - destruct t; try contradiction; cbn in Ha, Hw; destruct v; try discriminate;
      repeat match goal with
        | H : in_s _ _ = true |- _ => apply in_s_iff in H; cbn in H
        | H : in_u _ _ = true |- _ => apply in_u_iff in H; cbn in H
        end;
      try (destruct c; [discriminate|]);
      try (destruct n; [discriminate|]);
      cbn [enc dec orb];
      (eexists; split; [reflexivity|]).
    + apply (good_map VBool), good_bool.
    + apply (good_map VInt). apply good_sint; [lia|cbn; lia|]. apply enc_i8_be.
    + apply (good_map VInt). apply good_sint; [lia|cbn; lia|reflexivity].
    + apply (good_map VInt). apply good_sint; [lia|cbn; lia|reflexivity].
    + apply (good_map VInt). apply good_sint; [lia|cbn; lia|reflexivity].
    + apply (good_map VInt). apply good_sint; [lia|cbn; lia|reflexivity].
    + apply (good_map VInt). apply good_uint; [lia|cbn; lia|]. apply enc_i8_be.
    + apply (good_map VInt). apply good_uint; [lia|cbn; lia|reflexivity].
    + apply (good_map VInt). apply good_uint; [lia|cbn; lia|reflexivity].
    + apply (good_map VInt). apply good_uint; [lia|cbn; lia|reflexivity].
    + apply (good_map VInt). apply good_uint; [lia|cbn; lia|reflexivity].
    + apply (good_map VInt). apply good_uint; [lia|cbn; lia|reflexivity].
    + apply (good_map VInt), good_varint. lia.
    + apply (good_map VInt), good_varint64. lia.
    + apply (good_map VInt), good_varuint. lia.
    + apply (good_map VInt), good_varuint64. lia.
    + apply (good_map (fun o => VStr (match o with Some s => s | None => [] end)) _ _ (Some s)).
      apply good_data16. lia.
    + apply (good_map (fun o => VStr (match o with Some s => s | None => [] end)) _ _ (Some s)).
      apply good_cnbytes. lia.
    + apply (good_map VNStr), good_data16. destruct o; lia.
    + apply (good_map VNStr), good_cnbytes. destruct o; lia.
    + apply (good_map VBytes), good_nbytes. destruct o; lia.
    + apply (good_map VBytes), good_cnbytes. destruct o; lia.
    + apply (good_map VUuid). apply good_fixed. lia.
  - cbn [agrees] in Ha. cbn [wt] in Hw.
    destruct v as [| | | | | |[l|]| | | |]; try discriminate.
    apply andb_true_iff in Hw as [Hl Hf].
    assert (HF : Forall (fun x => settable e x = true /\ exists b, enc e false false x = Some b /\ good (dec e false) b x) l).
    { rewrite forallb_forall in Hf. apply Forall_forall. intros x Hx. split.
      - eapply wt_settable; eauto.
      - apply IH; auto. }
    assert (Hu : forallb (wt TUint8) l = true \/ e <> TUint8).
    { destruct e; try (right; discriminate). left. exact Hf. }
    rewrite enc_slice by (auto; lia).
    destruct c; cbn [dec].
    + apply good_compact_array; [lia|assumption].
    + apply good_var_array; [lia|assumption].
  - discriminate.
  - cbn [agrees] in Ha. destruct e; try discriminate.
    cbn [wt] in Hw. destruct v as [| | | | | | |[x|]| | |]; try discriminate.
    destruct (IH true c x) as (bs & Hb & Hg); [assumption|assumption|].
    exists bs. split; [exact Hb|].
    apply (good_map (fun v => VPtr (Some v))). exact Hg.
  - destruct v; try discriminate.
    revert fs0 Ha Hw. induction IH as [|[tg t'] fs Ht IHfs IH2]; intros vs Ha Hw.
    + destruct vs; [|discriminate]. exists []. split; [reflexivity|].
      apply (good_map VStruct), good_ret.
    + destruct vs as [|x vs]; [discriminate|].
      cbn [agrees] in Ha. apply andb_true_iff in Ha as [Ha1 Ha2].
      cbn [wt] in Hw. apply andb_true_iff in Hw as [Hw1 Hw2].
      destruct (IH2 vs Ha2 Hw2) as (bs & Hb & Hg).
      destruct (Ht (tNullable tg) (tCompact tg) x Ha1 Hw1) as (b & Hb1 & Hg1).
      cbn [snd] in *.
      exists (b ++ bs). split.
      { cbn [enc enc_fields] in *. fold (enc_fields enc) in *. rewrite Hb1, Hb. reflexivity. }
      eapply good_ext.
      2:{ apply (good_bind (dec t' (tCompact tg))
            (fun x r n => if settable t' x then dmap (fun v => match v with VStruct l => VStruct (x :: l) | v => v end) (dec (TStruct fs) c r n) else DPanic) b bs x (VStruct (x :: vs))).
          - exact Hg1.
          - rewrite (wt_settable _ _ _ _ Ha1 Hw1).
            apply (good_map (fun v => match v with VStruct l => VStruct (x :: l) | v => v end) _ _ (VStruct vs)).
            exact Hg. }
      intros r o. cbn [dec dec_fields]. fold (dec_fields dec r).
      destruct (dec t' (tCompact tg) r o); cbn; [|reflexivity|reflexivity].
      destruct (settable t' a); [|reflexivity].
      destruct (dec_fields dec r fs next); reflexivity.
  - discriminate.
Qed.

(** ** The 4096-byte window *)
Definition window (r : bytes) : bytes := firstn (Z.to_nat bufsize) r.

Lemma zlen_window r : zlen (window r) = Z.min bufsize (zlen r).
Proof. unfold window, zlen. rewrite firstn_length. unfold bufsize. lia. Qed.

Lemma peek_window r n : peek (window r) n = peek r n.
Proof.
  unfold peek. rewrite zlen_window.
  destruct (n <? 0) eqn:E1; [reflexivity|]. destruct (bufsize <? n) eqn:E2; [reflexivity|].
  cbn [orb].
  replace (Z.min bufsize (zlen r) <? n) with (zlen r <? n) by lia.
  destruct (zlen r <? n) eqn:E3; [reflexivity|].
  f_equal. unfold window. rewrite firstn_firstn. f_equal. unfold bufsize in *. lia.
Qed.
Lemma peek_avail_window r n : peek_avail (window r) n = peek_avail r n.
Proof.
  unfold peek_avail, window. rewrite firstn_firstn. f_equal. unfold bufsize. lia.
Qed.

Lemma peek_fixed_window r o n : peek_fixed (window r) o n = peek_fixed r o n.
Proof. unfold peek_fixed. now rewrite peek_window. Qed.
Lemma peek_sint_window n r o : peek_sint n (window r) o = peek_sint n r o.
Proof. unfold peek_sint. now rewrite peek_fixed_window. Qed.
Lemma peek_uint_window n r o : peek_uint n (window r) o = peek_uint n r o.
Proof. unfold peek_uint. now rewrite peek_fixed_window. Qed.
Lemma peek_bool_window r o : peek_bool (window r) o = peek_bool r o.
Proof. unfold peek_bool. now rewrite peek_fixed_window. Qed.
Lemma peek_varuint_w_window w m r o : peek_varuint_w w m (window r) o = peek_varuint_w w m r o.
Proof. unfold peek_varuint_w. now rewrite peek_avail_window. Qed.
Lemma peek_varint_window r o : peek_varint (window r) o = peek_varint r o.
Proof. unfold peek_varint, peek_varuint. now rewrite peek_varuint_w_window. Qed.
Lemma peek_varint64_window r o : peek_varint64 (window r) o = peek_varint64 r o.
Proof. unfold peek_varint64, peek_varuint64. now rewrite peek_varuint_w_window. Qed.
Lemma peek_data16_window r o : peek_data16 (window r) o = peek_data16 r o.
Proof.
  unfold peek_data16. rewrite peek_window. destruct (peek r (o + 2)); [|reflexivity].
  destruct (_ <? 0); [reflexivity|]. now rewrite peek_window.
Qed.
Lemma peek_cnbytes_window r o : peek_cnbytes (window r) o = peek_cnbytes r o.
Proof.
  unfold peek_cnbytes. rewrite peek_varint_window. destruct (peek_varint r o); try reflexivity.
  destruct (_ <=? 0); [reflexivity|]. now rewrite peek_window.
Qed.
Lemma peek_nbytes_window r o : peek_nbytes (window r) o = peek_nbytes r o.
Proof.
  unfold peek_nbytes. rewrite peek_sint_window. destruct (peek_sint 4 r o); try reflexivity.
  destruct (_ <? 0); [reflexivity|]. now rewrite peek_window.
Qed.
Lemma dec_items_window d ok r :
  (forall o, d (window r) o = d r o) ->
  forall n o, dec_items d ok (window r) n o = dec_items d ok r n o.
Proof.
  intros Hd. induction n as [|n IH]; intros o; [reflexivity|].
  change (match d (window r) o with
          | DOk next x => if ok x then match dec_items d ok (window r) n next with
              | DOk e xs => DOk e (x :: xs) | DFail => DFail | DPanic => DPanic end else DPanic
          | DFail => DFail | DPanic => DPanic end = dec_items d ok r (S n) o).
  rewrite Hd. cbn. destruct (d r o); try reflexivity. destruct (ok a); [|reflexivity].
  rewrite IH. reflexivity.
Qed.
Lemma dec_fixed_array_window d ok r o n :
  (forall o, d (window r) o = d r o) -> dec_fixed_array d ok (window r) o n = dec_fixed_array d ok r o n.
Proof.
  intros Hd. unfold dec_fixed_array. destruct (_ <? 0); [reflexivity|].
  now rewrite dec_items_window.
Qed.
Lemma dec_var_array_window d ok r o :
  (forall o, d (window r) o = d r o) -> dec_var_array d ok (window r) o = dec_var_array d ok r o.
Proof.
  intros Hd. unfold dec_var_array. rewrite peek_sint_window.
  destruct (peek_sint 4 r o); try reflexivity. now apply dec_fixed_array_window.
Qed.
Lemma dec_compact_array_window d ok r o :
  (forall o, d (window r) o = d r o) -> dec_compact_array d ok (window r) o = dec_compact_array d ok r o.
Proof.
  intros Hd. unfold dec_compact_array. rewrite peek_varint_window.
  destruct (peek_varint r o); try reflexivity. destruct (_ =? 0); [reflexivity|].
  now apply dec_fixed_array_window.
Qed.

Lemma dec_window r : forall t c o, dec t c (window r) o = dec t c r o.
Proof.
  induction t as [t Hbase|e IH|e IH|e IH|fs IH|e IH] using ty_ind'; intros c o.
  - destruct t; try contradiction; cbn [dec]; unfold peek_varuint, peek_varuint64;
      rewrite ?peek_bool_window, ?peek_sint_window, ?peek_uint_window, ?peek_varint_window,
        ?peek_varint64_window, ?peek_varuint_w_window, ?peek_data16_window, ?peek_cnbytes_window,
        ?peek_nbytes_window, ?peek_fixed_window; try reflexivity.
    assert (Hd : forall o, dmap VInt (peek_uint 1 (window r) o) = dmap VInt (peek_uint 1 r o))
      by (intros; now rewrite peek_uint_window).
    destruct c; [apply dec_compact_array_window|apply dec_var_array_window]; exact Hd.
  - cbn [dec]. destruct c; [apply dec_compact_array_window|apply dec_var_array_window]; intros; apply IH.
  - cbn [dec]. apply dec_compact_array_window; intros; apply IH.
  - cbn [dec]. destruct e; try reflexivity; now rewrite IH.
  - cbn [dec]. f_equal. revert o. induction IH as [|[tg t'] fs Ht IHfs IH2]; intros o; [reflexivity|].
    cbn [dec_fields]. cbn [snd] in Ht. rewrite Ht.
    destruct (dec t' (tCompact tg) r o); try reflexivity.
    destruct (settable t' a); [|reflexivity].
    rewrite IH2. reflexivity.
  - cbn [dec]. rewrite dec_var_array_window; [reflexivity|intros; apply IH].
Qed.

(** A good decoder that only sees the window fails on an encoding that sticks
    out of it. *)
Lemma good_beyond {A} (d : bytes -> Z -> dres A) bs a pre rest :
  (forall r o, d (window r) o = d r o) -> good d bs a ->
  zlen pre <= bufsize -> bufsize < zlen pre + zlen bs ->
  d (pre ++ bs ++ rest) (zlen pre) = DFail.
Proof.
  intros Hw Hg Hp Hb. rewrite <- Hw. unfold window.
  rewrite firstn_app_ge by (unfold zlen, bufsize in *; lia).
  replace (firstn (Z.to_nat bufsize - length pre) (bs ++ rest))
    with (firstn (Z.to_nat bufsize - length pre) bs).
  2:{ rewrite firstn_app. unfold zlen, bufsize in *.
      replace (Z.to_nat 4096 - length pre - length bs)%nat with 0%nat by lia.
      cbn [firstn]. now rewrite app_nil_r. }
  destruct (Hg pre) as [_ H]. apply H; unfold zlen, bufsize in *; lia.
Qed.

Theorem dec_enc_beyond t n c v bs pre rest :
  agrees t n c = true -> wt t v = true -> enc t n c v = Some bs ->
  zlen pre <= bufsize -> bufsize < zlen pre + zlen bs ->
  dec t c (pre ++ bs ++ rest) (zlen pre) = DFail.
Proof.
  intros Ha Hw He. destruct (enc_dec_good t n c v Ha Hw) as (bs' & He' & Hg).
  rewrite He in He'. inversion He'; subst.
  apply (good_beyond (dec t c) _ v); [intros; apply dec_window|exact Hg].
Qed.

(** ** Tagged fields *)
Lemma dec_tag_list_S fields r n o : dec_tag_list fields r (S n) o =
  dbind (peek_varuint r o) (fun o1 tag =>
  dbind (peek_varuint r o1) (fun o2 tl =>
  dbind (match fields tag with
         | None => dmap TagRaw (peek_fixed r o2 tl)
         | Some t => dmap TagObj (peekObject r o2 t) end)
    (fun o3 x => dmap (cons (tag, x)) (dec_tag_list fields r n o3)))).
Proof.
  cbn [dec_tag_list]. destruct (peek_varuint r o) as [o1 tag| |]; cbn; try reflexivity.
  destruct (peek_varuint r o1) as [o2 tl| |]; cbn; try reflexivity.
  destruct (fields tag) as [t|].
  - now destruct (peekObject r o2 t).
  - unfold peek_fixed. now destruct (peek r (o2 + tl)).
Qed.

Lemma good_tag_list fields tags :
  Forall (tag_ok fields) tags ->
  exists bs, enc_tag_list tags = Some bs /\
    good (fun r o => dec_tag_list fields r (length tags) o) bs (tags_of fields tags).
Proof.
  induction 1 as [|[id [t v]] tags (Hid & Ha & Hw & Hlen & Hf) HF IH].
  - exists []. split; [reflexivity|]. apply good_ret.
  - cbn [fst snd] in *. apply in_u_iff in Hid.
    destruct IH as (bs & Hbs & Hg).
    destruct (enc_dec_good t false false v Ha Hw) as (d & Hd & Hgd).
    fold (encodeObject t v) in Hd. specialize (Hlen d Hd).
    exists ((enc_varuint id ++ enc_varuint (zlen d) ++ d) ++ bs). split.
    { cbn [enc_tag_list]. rewrite Hd, Hbs. reflexivity. }
    rewrite <- !app_assoc. pose proof (zlen_nonneg d).
    cbn [length]. eapply good_ext; [intros; apply dec_tag_list_S|].
    apply (good_bind peek_varuint (fun tag r o1 =>
      dbind (peek_varuint r o1) (fun o2 tl =>
      dbind (match fields tag with
         | None => dmap TagRaw (peek_fixed r o2 tl)
         | Some t => dmap TagObj (peekObject r o2 t) end)
      (fun o3 x => dmap (cons (tag, x)) (dec_tag_list fields r (length tags) o3)))) _ _ id).
    { apply good_varuint. lia. }
    apply (good_bind peek_varuint (fun tl r o2 =>
      dbind (match fields id with
         | None => dmap TagRaw (peek_fixed r o2 tl)
         | Some t => dmap TagObj (peekObject r o2 t) end)
      (fun o3 x => dmap (cons (id, x)) (dec_tag_list fields r (length tags) o3))) _ _ (zlen d)).
    { apply good_varuint. lia. }
    cbn [tags_of map]. rewrite Hd. unfold expected_tag.
    destruct (fields id) as [t'|] eqn:Ef.
    + rewrite (Hf t' eq_refl) in *.
      apply (good_bind (fun r o2 => dmap TagObj (peekObject r o2 t))
        (fun x r o3 => dmap (cons (id, x)) (dec_tag_list fields r (length tags) o3)) _ _ (TagObj v)).
      * apply (good_map TagObj). exact Hgd.
      * apply (good_map (cons (id, TagObj v))). exact Hg.
    + apply (good_bind (fun r o2 => dmap TagRaw (peek_fixed r o2 (zlen d)))
        (fun x r o3 => dmap (cons (id, x)) (dec_tag_list fields r (length tags) o3)) _ _ (TagRaw d)).
      * apply (good_map TagRaw). now apply good_fixed.
      * apply (good_map (cons (id, TagRaw d))). exact Hg.
Qed.

From Coq Require Import Permutation Sorted.

Lemma ins_tag_perm {A} (e : Z * A) l : Permutation (ins_tag e l) (e :: l).
Proof.
  induction l as [|x l IH]; cbn; [reflexivity|].
  destruct (_ <=? _); [reflexivity|]. rewrite IH. constructor.
Qed.
Lemma sort_tags_perm {A} (l : list (Z * A)) : Permutation (sort_tags l) l.
Proof. induction l as [|x l IH]; cbn; [reflexivity|]. now rewrite ins_tag_perm, IH. Qed.

Lemma ins_tag_sorted {A} (e : Z * A) l :
  StronglySorted Z.le (map fst l) -> StronglySorted Z.le (map fst (ins_tag e l)).
Proof.
  induction l as [|x l IH]; cbn; intros H; [repeat constructor|].
  inversion H as [|? ? Hs Hf]; subst.
  destruct (fst e <=? fst x) eqn:E; cbn.
  - constructor; [assumption|]. constructor; [lia|].
    eapply Forall_impl; [|exact Hf]. intros; cbn in *; lia.
  - constructor; [apply IH; assumption|].
    assert (Hp : Permutation (map fst (ins_tag e l)) (map fst (e :: l)))
      by apply Permutation_map, ins_tag_perm.
    rewrite Hp. cbn. constructor; [lia|assumption].
Qed.
Lemma sort_tags_sorted {A} (l : list (Z * A)) : StronglySorted Z.le (map fst (sort_tags l)).
Proof. induction l; cbn; [constructor|]. now apply ins_tag_sorted. Qed.

Lemma ss_le_lt l : StronglySorted Z.le l -> NoDup l -> StronglySorted Z.lt l.
Proof.
  induction 1 as [|x l Hs IH Hf]; intros Hn; [constructor|].
  inversion Hn; subst. constructor; [auto|].
  apply Forall_forall. intros y Hy. rewrite Forall_forall in Hf. specialize (Hf y Hy).
  assert (x <> y) by (intros ->; contradiction). lia.
Qed.
Lemma sort_tags_lt {A} (l : list (Z * A)) : NoDup (map fst l) -> StronglySorted Z.lt (map fst (sort_tags l)).
Proof.
  intros Hn. apply ss_le_lt; [apply sort_tags_sorted|].
  eapply Permutation_NoDup; [|exact Hn]. apply Permutation_map, Permutation_sym, sort_tags_perm.
Qed.

(* sorting distinct keys forgets the iteration order *)
Lemma sorted_perm_eq {A} (l1 l2 : list (Z * A)) :
  Permutation l1 l2 -> StronglySorted Z.lt (map fst l1) -> StronglySorted Z.lt (map fst l2) -> l1 = l2.
Proof.
  revert l2. induction l1 as [|x l1 IH]; intros l2 Hp H1 H2.
  - apply Permutation_nil in Hp. now subst.
  - destruct l2 as [|y l2]; [symmetry in Hp; now apply Permutation_nil in Hp|].
    cbn in H1, H2. inversion H1 as [|? ? Hs1 Hf1]; inversion H2 as [|? ? Hs2 Hf2]; subst.
    rewrite Forall_map, Forall_forall in Hf1, Hf2.
    assert (x = y).
    { assert (In x (y :: l2)) as [->|Hx] by (rewrite <- Hp; now left); [reflexivity|].
      assert (In y (x :: l1)) as [->|Hy] by (rewrite Hp; now left); [reflexivity|].
      specialize (Hf1 y Hy). specialize (Hf2 x Hx). lia. }
    subst y. f_equal. apply IH; auto. eapply Permutation_cons_inv; eauto.
Qed.

Lemma sort_tags_order {A} (l1 l2 : list (Z * A)) :
  NoDup (map fst l1) -> Permutation l1 l2 -> sort_tags l1 = sort_tags l2.
Proof.
  intros Hn Hp. apply sorted_perm_eq.
  - now rewrite !sort_tags_perm.
  - now apply sort_tags_lt.
  - apply sort_tags_lt. eapply Permutation_NoDup; [|exact Hn]. now apply Permutation_map.
Qed.

Theorem encodeTags_order m1 m2 :
  NoDup (map fst m1) -> Permutation m1 m2 -> encodeTags m1 = encodeTags m2.
Proof.
  intros Hn Hp. unfold encodeTags. rewrite (sort_tags_order m1 m2) by assumption.
  unfold zlen. now rewrite (Permutation_length Hp).
Qed.

Theorem tags_good fields m :
  zlen m < 2 ^ 32 -> Forall (tag_ok fields) m ->
  exists bs, encodeTags m = Some bs /\ good (peekTags fields) bs (tags_of fields (sort_tags m)).
Proof.
  intros Hl HF.
  destruct (good_tag_list fields (sort_tags m)) as (bs & Hbs & Hg).
  { rewrite sort_tags_perm. exact HF. }
  pose proof (zlen_nonneg m).
  exists (enc_varuint (zlen m) ++ bs). split.
  { unfold encodeTags. rewrite Hbs. reflexivity. }
  apply (good_bind peek_varuint (fun n r o => dec_tag_list fields r (Z.to_nat n) o) _ _ (zlen m)).
  - apply good_varuint. lia.
  - replace (Z.to_nat (zlen m)) with (length (sort_tags m)); [exact Hg|].
    rewrite (Permutation_length (sort_tags_perm m)). unfold zlen. lia.
Qed.
