(** * CrcProofs: the table-driven CRC equals the bit-serial one and detects
    every corruption confined to four consecutive bytes. *)
From Verif Require Export Crc CrcSpec CodecProofs.
From Coq Require Import ZifyBool ZifyNat.

Lemma iter_succ_r {A} (f : A -> A) n x : Nat.iter (S n) f x = Nat.iter n f (f x).
Proof. induction n as [|n IH]; [reflexivity|]. change (f (Nat.iter (S n) f x) = f (Nat.iter n f (f x))). now rewrite IH. Qed.
Lemma iter_add {A} (f : A -> A) n m x : Nat.iter (n + m) f x = Nat.iter n f (Nat.iter m f x).
Proof. induction n as [|n IH]; [reflexivity|]. change (f (Nat.iter (n + m) f x) = f (Nat.iter n f (Nat.iter m f x))). now rewrite IH. Qed.

Notation P := castagnoli.
Notation L1 := (crc_bit castagnoli).
Notation L8 := (Nat.iter 8 L1).

Lemma crc_bit_alt c : L1 c = Z.lxor (Z.shiftr c 1) (if Z.odd c then P else 0).
Proof. unfold crc_bit. destruct (Z.odd c); [reflexivity|]. now rewrite Z.lxor_0_r. Qed.

Lemma odd_lxor a b : Z.odd (Z.lxor a b) = xorb (Z.odd a) (Z.odd b).
Proof. rewrite <- !Z.bit0_odd. apply Z.lxor_spec. Qed.

Lemma L1_lin a b : L1 (Z.lxor a b) = Z.lxor (L1 a) (L1 b).
Proof.
  rewrite !crc_bit_alt, odd_lxor, Z.shiftr_lxor.
  apply Z.bits_inj'. intros i Hi. rewrite !Z.lxor_spec.
  destruct (Z.odd a), (Z.odd b); cbn [xorb]; rewrite ?Z.bits_0;
    destruct (Z.testbit (Z.shiftr a 1) i), (Z.testbit (Z.shiftr b 1) i), (Z.testbit P i); reflexivity.
Qed.
Lemma iter_lin n a b : Nat.iter n L1 (Z.lxor a b) = Z.lxor (Nat.iter n L1 a) (Nat.iter n L1 b).
Proof. induction n as [|n IH]; cbn [Nat.iter]; [reflexivity|]. unfold Nat.iter in *. cbn. now rewrite IH, L1_lin. Qed.

(* the low n bits are zero: n rounds just shift *)
Lemma iter_shift n x : Nat.iter n L1 (Z.shiftl x (Z.of_nat n)) = x.
Proof.
  revert x. induction n as [|n IH]; intros x.
  - apply Z.shiftl_0_r.
  - rewrite iter_succ_r.
    replace (L1 (Z.shiftl x (Z.of_nat (S n)))) with (Z.shiftl x (Z.of_nat n)); [apply IH|].
    rewrite crc_bit_alt.
    replace (Z.odd (Z.shiftl x (Z.of_nat (S n)))) with false.
    2:{ symmetry. rewrite <- Z.bit0_odd. apply Z.shiftl_spec_low. lia. }
    rewrite Z.lxor_0_r, Z.shiftr_shiftl_l by lia. f_equal. lia.
Qed.

Lemma split_low n c : 0 <= n -> c = Z.lxor (Z.land c (Z.ones n)) (Z.shiftl (Z.shiftr c n) n).
Proof.
  intros Hn. apply Z.bits_inj'. intros i Hi.
  rewrite Z.lxor_spec, Z.land_spec.
  destruct (Z.lt_ge_cases i n).
  - rewrite Z.ones_spec_low, Z.shiftl_spec_low by lia.
    now rewrite andb_true_r, xorb_false_r.
  - rewrite Z.ones_spec_high, Z.shiftl_spec_high, Z.shiftr_spec by lia.
    rewrite andb_false_r, xorb_false_l. f_equal. lia.
Qed.

Lemma lxor_range n a b : 0 <= n -> 0 <= a < 2 ^ n -> 0 <= b < 2 ^ n -> 0 <= Z.lxor a b < 2 ^ n.
Proof.
  intros Hn Ha Hb. split; [apply Z.lxor_nonneg; lia|].
  destruct (Z.eq_dec (Z.lxor a b) 0) as [->|Hne]; [apply Z.pow_pos_nonneg; lia|].
  assert (0 < Z.lxor a b) by (pose proof (Z.lxor_nonneg a b); lia).
  apply Z.log2_lt_pow2; [lia|].
  apply Z.le_lt_trans with (Z.max (Z.log2 a) (Z.log2 b)); [apply Z.log2_lxor; lia|].
  destruct (Z.eq_dec n 0) as [->|].
  { change (2 ^ 0) with 1 in *. assert (a = 0) by lia. assert (b = 0) by lia. subst. now rewrite Z.lxor_0_l in Hne. }
  assert (forall x, 0 <= x < 2 ^ n -> Z.log2 x < n).
  { intros x Hx. destruct (Z.eq_dec x 0) as [->|]; [cbn; lia|]. apply Z.log2_lt_pow2; lia. }
  pose proof (H0 a Ha). pose proof (H0 b Hb). lia.
Qed.

Lemma table_nth i : 0 <= i < 256 -> nth (Z.to_nat i) crc_table 0 = L8 i.
Proof.
  intros Hi. unfold crc_table, make_table.
  rewrite nth_indep with (d' := (fun i => L8 (Z.of_nat i)) 0%nat).
  2:{ rewrite map_length, seq_length. lia. }
  rewrite (map_nth (fun i => L8 (Z.of_nat i))). rewrite seq_nth by lia.
  f_equal. lia.
Qed.

Lemma uwrap_land w c : 0 <= w -> uwrap w c = Z.land c (Z.ones w).
Proof. intros. unfold uwrap. now rewrite Z.land_ones by lia. Qed.

(** The table look-up is eight register clocks on [c xor v]. *)
Lemma crc_step_L8 c v : 0 <= v < 256 -> crc_step crc_table c v = L8 (Z.lxor c v).
Proof.
  intros Hv. unfold crc_step.
  pose proof (uwrap_range 8 c ltac:(lia)) as Hu.
  rewrite table_nth by (apply (lxor_range 8); lia).
  transitivity (L8 (Z.lxor (Z.lxor (uwrap 8 c) v) (Z.shiftl (Z.shiftr c 8) 8))).
  - rewrite (iter_lin 8 (Z.lxor _ _) (Z.shiftl _ _)). f_equal.
    symmetry. apply (iter_shift 8).
  - f_equal. rewrite (split_low 8 c) at 3 by lia. rewrite uwrap_land by lia.
    rewrite !Z.lxor_assoc. f_equal. apply Z.lxor_comm.
Qed.

(** Bit-serial form. *)
Lemma reg_clock_L1 c b : reg_clock c b = L1 (Z.lxor c (Z.b2z b)).
Proof.
  rewrite crc_bit_alt, odd_lxor, Z.shiftr_lxor. unfold reg_clock.
  replace (Z.shiftr (Z.b2z b) 1) with 0 by (destruct b; reflexivity).
  rewrite Z.lxor_0_r. destruct b; reflexivity.
Qed.

Lemma clocks_iter n : forall c v, 
  fold_left reg_clock (map (fun i => Z.testbit v (Z.of_nat i)) (seq 0 n)) c
  = Nat.iter n L1 (Z.lxor c (Z.land v (Z.ones (Z.of_nat n)))).
Proof.
  induction n as [|n IH]; intros c v.
  - cbn. now rewrite Z.land_0_r, Z.lxor_0_r.
  - rewrite seq_S, map_app, fold_left_app, IH. cbn [map fold_left].
    rewrite reg_clock_L1. 
    replace (Nat.iter (S n) L1 (Z.lxor c (Z.land v (Z.ones (Z.of_nat (S n))))))
      with (L1 (Nat.iter n L1 (Z.lxor c (Z.land v (Z.ones (Z.of_nat (S n))))))) by reflexivity.
    f_equal.
    replace (Z.land v (Z.ones (Z.of_nat (S n))))
      with (Z.lxor (Z.land v (Z.ones (Z.of_nat n))) (Z.shiftl (Z.b2z (Z.testbit v (Z.of_nat n))) (Z.of_nat n))).
    + rewrite <- Z.lxor_assoc, (iter_lin n _ (Z.shiftl _ _)), iter_shift. reflexivity.
    + apply Z.bits_inj'. intros i Hi. rewrite Z.lxor_spec, !Z.land_spec.
      rewrite Z.shiftl_spec by lia.
      destruct (Z.lt_trichotomy i (Z.of_nat n)) as [Hl|[He|Hg]].
      * rewrite !Z.ones_spec_low by lia. rewrite (Z.testbit_neg_r _ (i - _)) by lia.
        now rewrite xorb_false_r.
      * subst i. rewrite Z.ones_spec_high, Z.ones_spec_low by lia.
        rewrite Z.sub_diag, Z.b2z_bit0, andb_false_r, andb_true_r. apply xorb_false_l.
      * rewrite !Z.ones_spec_high by lia.
        rewrite (Z.bits_above_log2 (Z.b2z _)); [now rewrite !andb_false_r| |].
        -- destruct (Z.testbit v (Z.of_nat n)); cbn; lia.
        -- destruct (Z.testbit v (Z.of_nat n)); cbn; lia.
Qed.

Lemma byte_clocks c v : 0 <= v < 256 ->
  fold_left reg_clock (bits_of_byte v) c = crc_step crc_table c v.
Proof.
  intros Hv. unfold bits_of_byte. rewrite clocks_iter, crc_step_L8 by assumption.
  change (Z.of_nat 8) with 8. rewrite Z.land_ones, Z.mod_small by lia. reflexivity.
Qed.

Lemma all_bytes_forall l : all_bytes l = true -> Forall (fun b => 0 <= b < 256) l.
Proof.
  unfold all_bytes. rewrite forallb_forall, Forall_forall. unfold is_byte.
  intros H x Hx. specialize (H x Hx). lia.
Qed.

Lemma fold_clocks p : Forall (fun b => 0 <= b < 256) p -> forall c,
  fold_left reg_clock (flat_map bits_of_byte p) c = fold_left (crc_step crc_table) p c.
Proof.
  induction 1 as [|b p Hb Hp IH]; intros c; [reflexivity|].
  cbn [flat_map]. rewrite fold_left_app, byte_clocks by assumption. apply IH.
Qed.

Theorem crc32c_correct p : all_bytes p = true -> crc32c p = crc32c_spec p.
Proof.
  intros Hp. unfold crc32c, crc_update, crc32c_spec, not32.
  rewrite fold_clocks by now apply all_bytes_forall. reflexivity.
Qed.

(** *** Detection *)
Lemma P_range : 0 <= P < 2 ^ 32. Proof. unfold castagnoli. lia. Qed.

Lemma L1_range c : 0 <= c < 2 ^ 32 -> 0 <= L1 c < 2 ^ 32.
Proof.
  intros Hc. rewrite crc_bit_alt. apply lxor_range; [lia| |].
  - rewrite Z.shiftr_div_pow2 by lia. change (2 ^ 1) with 2.
    split; [apply Z.div_pos; lia|]. apply Z.div_lt_upper_bound; lia.
  - destruct (Z.odd c); [apply P_range|lia].
Qed.
Lemma iter_range n c : 0 <= c < 2 ^ 32 -> 0 <= Nat.iter n L1 c < 2 ^ 32.
Proof. induction n as [|n IH]; intros H; [exact H|]. change (0 <= L1 (Nat.iter n L1 c) < 2 ^ 32). apply L1_range, IH, H. Qed.

(* only zero is mapped to zero *)
Lemma L1_zero c : 0 <= c < 2 ^ 32 -> L1 c = 0 -> c = 0.
Proof.
  intros Hc. rewrite crc_bit_alt. intros H. apply Z.lxor_eq in H.
  destruct (Z.odd c) eqn:E.
  - exfalso. assert (Z.shiftr c 1 < 2 ^ 31).
    { rewrite Z.shiftr_div_pow2 by lia. apply Z.div_lt_upper_bound; cbn; lia. }
    rewrite H in H0. unfold castagnoli in H0. lia.
  - rewrite Z.shiftr_div_pow2 in H by lia. change (2 ^ 1) with 2 in H.
    pose proof (Z.div2_odd c) as Hd. rewrite E, Z.div2_div, H in Hd. cbn in Hd. lia.
Qed.
Lemma iter_zero n c : 0 <= c < 2 ^ 32 -> Nat.iter n L1 c = 0 -> c = 0.
Proof.
  intros Hc. induction n as [|n IH]; intros H; [exact H|].
  apply IH. apply L1_zero; [now apply iter_range|exact H].
Qed.
Lemma iter_inj n a b : 0 <= a < 2 ^ 32 -> 0 <= b < 2 ^ 32 ->
  Nat.iter n L1 a = Nat.iter n L1 b -> a = b.
Proof.
  intros Ha Hb H. apply Z.lxor_eq. apply (iter_zero n); [apply lxor_range; lia|].
  rewrite iter_lin, H. apply Z.lxor_nilpotent.
Qed.

Lemma step_range c v : 0 <= c < 2 ^ 32 -> 0 <= v < 256 -> 0 <= crc_step crc_table c v < 2 ^ 32.
Proof. intros. rewrite crc_step_L8 by assumption. apply iter_range, lxor_range; lia. Qed.

Lemma fold_range p : Forall (fun b => 0 <= b < 256) p -> forall c, 0 <= c < 2 ^ 32 ->
  0 <= fold_left (crc_step crc_table) p c < 2 ^ 32.
Proof.
  induction 1 as [|b p Hb Hp IH]; intros c Hc; [exact Hc|]. cbn [fold_left].
  apply IH. now apply step_range.
Qed.

(* a message suffix acts injectively on the register *)
Lemma fold_inj p : Forall (fun b => 0 <= b < 256) p -> forall a b,
  0 <= a < 2 ^ 32 -> 0 <= b < 2 ^ 32 ->
  fold_left (crc_step crc_table) p a = fold_left (crc_step crc_table) p b -> a = b.
Proof.
  induction 1 as [|x p Hx Hp IH]; intros a b Ha Hb H; [exact H|]. cbn [fold_left] in H.
  apply IH in H; [|now apply step_range|now apply step_range].
  rewrite !crc_step_L8 in H by assumption.
  apply iter_inj in H; [|apply lxor_range; lia|apply lxor_range; lia].
  apply (f_equal (fun z => Z.lxor z x)) in H.
  now rewrite !Z.lxor_assoc, Z.lxor_nilpotent, !Z.lxor_0_r in H.
Qed.

(* little-endian value of a few bytes *)
Fixpoint le_val (p : bytes) : Z :=
  match p with [] => 0 | b :: p' => b + 256 * le_val p' end.
Lemma le_val_range p : Forall (fun b => 0 <= b < 256) p -> 0 <= le_val p < 256 ^ zlen p.
Proof.
  induction 1 as [|b p Hb Hp IH]; [cbn; lia|].
  cbn [le_val]. rewrite zlen_cons, Z.pow_add_r by (pose proof (zlen_nonneg p); lia).
  change (256 ^ 1) with 256. lia.
Qed.
Lemma le_val_inj p : Forall (fun b => 0 <= b < 256) p -> forall q,
  Forall (fun b => 0 <= b < 256) q -> length p = length q -> le_val p = le_val q -> p = q.
Proof.
  induction 1 as [|b p Hb Hp IH]; intros q Hq Hl He; destruct q as [|c q]; try discriminate; [reflexivity|].
  inversion Hq; subst. cbn [le_val] in He. injection Hl as Hl.
  assert (b = c /\ le_val p = le_val q) as [-> E] by lia. f_equal. now apply IH.
Qed.

(* reading k bytes = xor-ing their little-endian value and clocking 8k times *)
Lemma fold_iter p : Forall (fun b => 0 <= b < 256) p -> forall c,
  fold_left (crc_step crc_table) p c = Nat.iter (8 * length p) L1 (Z.lxor c (le_val p)).
Proof.
  induction 1 as [|b p Hb Hp IH]; intros c.
  - cbn. now rewrite Z.lxor_0_r.
  - cbn [fold_left length]. rewrite IH, crc_step_L8 by assumption.
    replace (8 * S (length p))%nat with (8 * length p + 8)%nat by lia.
    rewrite iter_add. f_equal.
    cbn [le_val].
    replace (b + 256 * le_val p) with (Z.lxor b (Z.shiftl (le_val p) 8)).
    + rewrite <- Z.lxor_assoc, (iter_lin 8 _ (Z.shiftl _ _)). f_equal. symmetry. apply (iter_shift 8).
    + pose proof (le_val_range p Hp).
      rewrite Z.shiftl_mul_pow2 by lia. 
      rewrite Z.lxor_lor.
      * rewrite lor_disjoint by (change (2 ^ 8) with 256; lia). change (2 ^ 8) with 256. lia.
      * apply Z.bits_inj'. intros i Hi. rewrite Z.land_spec, Z.bits_0.
        destruct (Z.lt_ge_cases i 8).
        -- rewrite Z.mul_pow2_bits_low by lia. apply andb_false_r.
        -- rewrite testbit_small; [reflexivity|lia|]. split; [lia|].
           apply Z.lt_le_trans with (2 ^ 8); [lia|]. apply Z.pow_le_mono_r; lia.
Qed.

Lemma not32_range c : 0 <= c < 2 ^ 32 -> 0 <= not32 c < 2 ^ 32.
Proof. intros. unfold not32. apply lxor_range; lia. Qed.
Lemma not32_inj a b : not32 a = not32 b -> a = b.
Proof.
  unfold not32. intros H. apply (f_equal (fun z => Z.lxor z (2 ^ 32 - 1))) in H.
  now rewrite !Z.lxor_assoc, Z.lxor_nilpotent, !Z.lxor_0_r in H.
Qed.

Lemma crc32c_range p : all_bytes p = true -> 0 <= crc32c p < 2 ^ 32.
Proof.
  intros Hp. unfold crc32c, crc_update. apply not32_range, fold_range.
  - now apply all_bytes_forall.
  - now apply not32_range.
Qed.

Theorem crc32c_detects a w w' c :
  all_bytes (a ++ w ++ c) = true -> all_bytes w' = true ->
  length w = length w' -> (length w <= 4)%nat -> w <> w' ->
  crc32c (a ++ w ++ c) <> crc32c (a ++ w' ++ c).
Proof.
  unfold all_bytes. rewrite !forallb_app. rewrite !andb_true_iff.
  intros (Ha & Hw & Hc) Hw' Hl H4 Hne E.
  apply all_bytes_forall in Ha, Hw, Hw', Hc.
  unfold crc32c, crc_update in E. apply not32_inj in E.
  rewrite !fold_left_app in E.
  set (s := fold_left (crc_step crc_table) a (not32 0)) in *.
  assert (Hs : 0 <= s < 2 ^ 32) by (apply fold_range; [assumption|now apply not32_range]).
  apply fold_inj in E; [|assumption|now apply fold_range|now apply fold_range].
  rewrite !fold_iter in E by assumption. rewrite Hl in E.
  assert (Hr : forall x, Forall (fun b => 0 <= b < 256) x -> (length x <= 4)%nat -> 0 <= le_val x < 2 ^ 32).
  { intros x Hx Hx4. pose proof (le_val_range x Hx).
    assert (256 ^ zlen x <= 256 ^ 4) by (apply Z.pow_le_mono_r; unfold zlen; lia).
    change (256 ^ 4) with (2 ^ 32) in *. lia. }
  apply iter_inj in E; [|apply lxor_range; [lia|lia|apply Hr; [assumption|lia]]..].
  apply Hne. apply le_val_inj; auto.
  apply (f_equal (Z.lxor s)) in E.
  now rewrite <- !Z.lxor_assoc, Z.lxor_nilpotent, !Z.lxor_0_l in E.
Qed.
