(** * DetectProofs: which damage CRC-32C detects *)
From Verif Require Export DetectSpec CrcProofs CodecMore.
From Verif Require StreamProofs.
From Coq Require Import ZifyBool ZifyNat Znumtheory Bool.
Open Scope Z_scope.

(** The register fed with the difference, from zero. *)
Definition syn (l : list bool) : Z := fold_left reg_clock l 0.
Lemma clock_lin a b x y : Z.lxor (reg_clock a x) (reg_clock b y) = reg_clock (Z.lxor a b) (xorb x y).
Proof.
  rewrite !reg_clock_L1, <- L1_lin. f_equal.
  replace (Z.b2z (xorb x y)) with (Z.lxor (Z.b2z x) (Z.b2z y)) by (destruct x, y; reflexivity).
  rewrite !Z.lxor_assoc. f_equal. rewrite <- !Z.lxor_assoc. f_equal. apply Z.lxor_comm.
Qed.
Lemma fold_lin l : forall m a b, length l = length m ->
  Z.lxor (fold_left reg_clock l a) (fold_left reg_clock m b) = fold_left reg_clock (differ l m) (Z.lxor a b).
Proof.
  induction l as [|x l IH]; intros [|y m] a b H; try discriminate; [reflexivity|]. cbn [fold_left differ].
  rewrite IH by (now injection H). now rewrite clock_lin.
Qed.
Lemma bits_length a : length (flat_map bits_of_byte a) = (8 * length a)%nat.
Proof. induction a as [|x a IH]; [reflexivity|]. cbn [flat_map]. rewrite app_length, IH. unfold bits_of_byte. rewrite map_length, seq_length. cbn [length]. lia. Qed.
Lemma same_crc a b : length a = length b -> crc32c_spec a = crc32c_spec b -> syn (flips a b) = 0.
Proof.
  intros Hl H. unfold crc32c_spec in H. apply (f_equal (fun z => Z.lxor z 0xffffffff)) in H.
  rewrite !Z.lxor_assoc, Z.lxor_nilpotent, !Z.lxor_0_r in H.
  unfold syn, flips. rewrite <- (Z.lxor_nilpotent 0xffffffff), <- fold_lin, H; [apply Z.lxor_nilpotent|]. now rewrite !bits_length, Hl.
Qed.
Lemma crc_of_syn a b : length a = length b -> syn (flips a b) = 0 -> crc32c_spec a = crc32c_spec b.
Proof.
  intros Hl H. unfold crc32c_spec. f_equal. apply Z.lxor_eq. rewrite fold_lin by now rewrite !bits_length, Hl.
  rewrite Z.lxor_nilpotent. exact H.
Qed.
Lemma clock_range c b : 0 <= c < 2 ^ 32 -> 0 <= reg_clock c b < 2 ^ 32.
Proof. intros. rewrite reg_clock_L1. apply L1_range, lxor_range; [lia|assumption|destruct b; cbn; lia]. Qed.
Lemma fold_clock_range l : forall c, 0 <= c < 2 ^ 32 -> 0 <= fold_left reg_clock l c < 2 ^ 32.
Proof. induction l as [|b l IH]; intros c H; [exact H|]. apply IH, clock_range, H. Qed.
Lemma fold_false n c : fold_left reg_clock (repeat false n) c = Nat.iter n L1 c.
Proof.
  revert c. induction n as [|n IH]; intros c; [reflexivity|]. cbn [repeat fold_left]. rewrite IH, iter_succ_r. f_equal.
  rewrite reg_clock_L1. cbn. now rewrite Z.lxor_0_r.
Qed.
Lemma L1_0 n : Nat.iter n L1 0 = 0.
Proof. induction n as [|n IH]; [reflexivity|]. change (L1 (Nat.iter n L1 0) = 0). now rewrite IH. Qed.

(** ** Bursts *)
Fixpoint bits_val (l : list bool) : Z := match l with [] => 0 | b :: l' => Z.b2z b + 2 * bits_val l' end.
Lemma bits_val_range l : 0 <= bits_val l < 2 ^ Z.of_nat (length l).
Proof.
  induction l as [|b l IH]; [cbn; lia|]. cbn [bits_val length]. rewrite Nat2Z.inj_succ, Z.pow_succ_r by lia. destruct b; cbn [Z.b2z]; lia.
Qed.
Lemma bits_val_bit l : forall i, (i < length l)%nat -> Z.testbit (bits_val l) (Z.of_nat i) = nth i l false.
Proof.
  induction l as [|b l IH]; intros i Hi; [cbn in Hi; lia|]. cbn [bits_val]. rewrite Z.add_comm. destruct i as [|i].
  - cbn [nth]. change (Z.of_nat 0) with 0. apply Z.testbit_0_r.
  - rewrite Nat2Z.inj_succ, Z.testbit_succ_r by lia. cbn [nth]. apply IH. cbn in Hi. lia.
Qed.
Lemma map_nth_seq (l : list bool) : map (fun i => nth i l false) (seq 0 (length l)) = l.
Proof.
  induction l as [|b l IH]; [reflexivity|]. cbn [length seq map nth]. f_equal. rewrite <- seq_shift, map_map. exact IH.
Qed.
Lemma fold_bits l c : fold_left reg_clock l c = Nat.iter (length l) L1 (Z.lxor c (bits_val l)).
Proof.
  pose proof (clocks_iter (length l) c (bits_val l)) as H.
  rewrite (map_ext_in (fun i => Z.testbit (bits_val l) (Z.of_nat i)) (fun i => nth i l false)) in H.
  - rewrite map_nth_seq in H. rewrite H, Z.land_ones, Z.mod_small by (apply bits_val_range || lia). reflexivity.
  - intros i Hi. apply in_seq in Hi. apply bits_val_bit. lia.
Qed.
Lemma bits_val_0 l : bits_val l = 0 -> l = repeat false (length l).
Proof.
  induction l as [|b l IH]; [reflexivity|]. cbn [bits_val length repeat]. intros H. pose proof (bits_val_range l).
  destruct b; cbn [Z.b2z] in H; [lia|]. f_equal. apply IH. lia.
Qed.
Lemma syn_burst i w j : (length w <= 32)%nat -> syn (repeat false i ++ w ++ repeat false j) = 0 -> w = repeat false (length w).
Proof.
  intros Hw H. unfold syn in H. rewrite !fold_left_app, !fold_false, L1_0, fold_bits in H. cbn in H. rewrite ?Z.lxor_0_l in H.
  assert (R : 0 <= bits_val w < 2 ^ 32).
  { pose proof (bits_val_range w). assert (2 ^ Z.of_nat (length w) <= 2 ^ 32) by (apply Z.pow_le_mono_r; lia). lia. }
  apply iter_zero in H; [|now apply iter_range]. apply iter_zero in H; [|exact R]. now apply bits_val_0.
Qed.

(** ** An odd number of bits *)
Fixpoint par (n : nat) (f : nat -> bool) : bool := match n with O => false | S m => xorb (par m f) (f m) end.
Lemma par_xor n f g : par n (fun i => xorb (f i) (g i)) = xorb (par n f) (par n g).
Proof. induction n as [|n IH]; [reflexivity|]. cbn [par]. rewrite IH. destruct (par n f), (par n g), (f n), (g n); reflexivity. Qed.
Lemma par_ext n f g : (forall i, (i < n)%nat -> f i = g i) -> par n f = par n g.
Proof. induction n as [|n IH]; intros H; [reflexivity|]. cbn [par]. rewrite IH, H; [reflexivity|lia|]. intros i Hi. apply H. lia. Qed.
Lemma par_shift n f : par n (fun i => f (S i)) = xorb (f 0%nat) (xorb (par n f) (f n)).
Proof. induction n as [|n IH]; cbn [par]; [destruct (f 0%nat); reflexivity|]. rewrite IH. destruct (f 0%nat), (par n f), (f n), (f (S n)); reflexivity. Qed.
Definition parity (c : Z) : bool := par 32 (fun i => Z.testbit c (Z.of_nat i)).
Lemma parity_lxor a b : parity (Z.lxor a b) = xorb (parity a) (parity b).
Proof. unfold parity. rewrite <- par_xor. apply par_ext. intros i _. apply Z.lxor_spec. Qed.
Lemma parity_L1 c : 0 <= c < 2 ^ 32 -> parity (L1 c) = parity c.
Proof.
  intros Hc. rewrite crc_bit_alt, parity_lxor.
  assert (E : parity (Z.shiftr c 1) = xorb (Z.odd c) (parity c)).
  { unfold parity. rewrite (par_ext 32 _ (fun i => Z.testbit c (Z.of_nat (S i)))).
    - rewrite (par_shift 32 (fun i => Z.testbit c (Z.of_nat i))). rewrite (testbit_small c (Z.of_nat 32)) by (split; [lia|exact (proj2 Hc)] || lia).
      change (Z.of_nat 0) with 0. rewrite Z.bit0_odd, xorb_false_r. reflexivity.
    - intros i _. rewrite Z.shiftr_spec by lia. f_equal. lia. }
  rewrite E. destruct (Z.odd c).
  - replace (parity P) with true by (vm_compute; reflexivity). destruct (parity c); reflexivity.
  - replace (parity 0) with false by (vm_compute; reflexivity). destruct (parity c); reflexivity.
Qed.
Lemma parity_clock c b : 0 <= c < 2 ^ 32 -> parity (reg_clock c b) = xorb (parity c) b.
Proof.
  intros Hc. rewrite reg_clock_L1, parity_L1, parity_lxor by (apply lxor_range; [lia|assumption|destruct b; cbn; lia]).
  f_equal. destruct b; vm_compute; reflexivity.
Qed.
Lemma parity_syn l : parity (syn l) = Nat.odd (count_occ bool_dec l true).
Proof.
  assert (G : forall c, 0 <= c < 2 ^ 32 -> parity (fold_left reg_clock l c) = xorb (parity c) (Nat.odd (count_occ bool_dec l true))).
  { induction l as [|b l IH]; intros c Hc; [cbn; now rewrite xorb_false_r|]. cbn [fold_left]. rewrite IH by now apply clock_range.
    rewrite parity_clock by assumption. cbn [count_occ]. destruct b; cbn [bool_dec].
    - destruct (bool_dec true true); [|congruence]. rewrite Nat.odd_succ, <- Nat.negb_odd. destruct (parity c), (Nat.odd _); reflexivity.
    - destruct (bool_dec false true); [congruence|]. now rewrite xorb_false_r. }
  unfold syn. rewrite G by lia. replace (parity 0) with false by (vm_compute; reflexivity). apply xorb_false_l.
Qed.

(** ** Two bits *)
(** A linear map of the register by the images of its 32 bits. *)
Fixpoint image (cols : list Z) (c : Z) : Z :=
  match cols with [] => 0 | x :: cols' => Z.lxor (if Z.odd c then x else 0) (image cols' (Z.div2 c)) end.
Definition cols_of (f : Z -> Z) : list Z := map (fun i => f (2 ^ Z.of_nat i)) (seq 0 32).
Lemma image_lin (f : Z -> Z) : f 0 = 0 -> (forall a b, f (Z.lxor a b) = Z.lxor (f a) (f b)) ->
  forall n k c, 0 <= c < 2 ^ Z.of_nat n -> image (map (fun i => f (2 ^ Z.of_nat i)) (seq k n)) c = f (Z.shiftl c (Z.of_nat k)).
Proof.
  intros H0 Hl. induction n as [|n IH]; intros k c Hc.
  - assert (c = 0) as -> by (change (2 ^ Z.of_nat 0) with 1 in Hc; lia). cbn. now rewrite Z.shiftl_0_l.
  - cbn [seq map image]. rewrite Nat2Z.inj_succ, Z.pow_succ_r in Hc by lia. pose proof (Z.div2_odd c) as Hd.
    rewrite (IH (S k)).
    + replace (if Z.odd c then f (2 ^ Z.of_nat k) else 0) with (f (Z.shiftl (Z.b2z (Z.odd c)) (Z.of_nat k))).
      * rewrite <- Hl. f_equal. rewrite Nat2Z.inj_succ. unfold Z.succ. rewrite Z.add_comm, <- Z.shiftl_shiftl by lia. rewrite <- Z.shiftl_lxor. f_equal.
        rewrite Z.shiftl_mul_pow2 by lia. change (2 ^ 1) with 2. clear - Hd. rewrite Hd at 3. rewrite Z.add_comm, Z.mul_comm.
        destruct (Z.odd c); cbn [Z.b2z]; [|now rewrite Z.lxor_0_l].
        rewrite Z.lxor_comm. rewrite <- Z.add_nocarry_lxor; [lia|]. apply Z.bits_inj'. intros i Hi. rewrite Z.land_spec, Z.bits_0.
        destruct (Z.eq_dec i 0) as [->|]; [rewrite !Z.bit0_odd, Z.odd_mul; cbn; rewrite ?andb_false_r; reflexivity|].
        rewrite (testbit_small 1 i); [apply andb_false_r|lia|]. split; [lia|]. apply Z.pow_gt_1; lia.
      * destruct (Z.odd c); cbn [Z.b2z]; [f_equal; apply Z.shiftl_1_l|now rewrite Z.shiftl_0_l].
    + destruct (Z.odd c); cbn [Z.b2z] in Hd; lia.
Qed.
Lemma image_of f c : f 0 = 0 -> (forall a b, f (Z.lxor a b) = Z.lxor (f a) (f b)) -> 0 <= c < 2 ^ 32 -> image (cols_of f) c = f c.
Proof. intros H0 Hl Hc. unfold cols_of. rewrite image_lin by assumption. cbn [Z.of_nat]. now rewrite Z.shiftl_0_r. Qed.
Definition square (cols : list Z) : list Z := map (image cols) cols.
Lemma pow_range i : (i < 32)%nat -> 0 <= 2 ^ Z.of_nat i < 2 ^ 32.
Proof. intros H. split; [apply Z.pow_nonneg; lia|apply Z.pow_lt_mono_r; lia]. Qed.
Lemma square_of n : square (cols_of (Nat.iter n L1)) = cols_of (Nat.iter (n + n) L1).
Proof.
  unfold square. unfold cols_of at 2. rewrite map_map. unfold cols_of at 2. apply map_ext_in. intros i Hi. apply in_seq in Hi.
  rewrite image_of; [now rewrite iter_add|apply L1_0|apply iter_lin|]. apply iter_range, pow_range. lia.
Qed.
Lemma squares k : Nat.iter k square (cols_of L1) = cols_of (Nat.iter (2 ^ k)%nat L1).
Proof.
  induction k as [|k IH]; [reflexivity|]. change (square (Nat.iter k square (cols_of L1)) = cols_of (Nat.iter (2 ^ S k)%nat L1)).
  rewrite IH, square_of. do 2 f_equal. cbn [Nat.pow]. lia.
Qed.
Lemma iter_pow k c : 0 <= c < 2 ^ 32 -> Nat.iter (2 ^ k)%nat L1 c = image (Nat.iter k square (cols_of L1)) c.
Proof. intros H. rewrite squares. symmetry. apply image_of; [apply L1_0|apply iter_lin|exact H]. Qed.
(** 2^31 clocks do what one does. *)
Lemma clocks_31 : exists t : nat, Z.of_nat t = 2 ^ 31 /\ Nat.iter t L1 1 = P.
Proof.
  exists (2 ^ 31)%nat. split; [now rewrite Nat2Z.inj_pow|]. rewrite iter_pow by lia. vm_compute. reflexivity.
Qed.
Lemma period : exists t : nat, Z.of_nat t = 2 ^ 31 - 1 /\ Nat.iter t L1 1 = 1.
Proof.
  destruct clocks_31 as (t & Ht & H). destruct t as [|t]; [discriminate|]. exists t. split; [lia|].
  apply (iter_inj 1); [apply iter_range; lia|lia|]. change (Nat.iter (S t) L1 1 = L1 1). rewrite H. vm_compute. reflexivity.
Qed.

(** 2^31 - 1 is a prime. *)
Fixpoint no_divisor (n : nat) (d p : Z) : bool :=
  match n with O => true | S m => negb (p mod d =? 0) && no_divisor m (d + 1) p end.
Lemma no_divisor_ok n : forall d p e, no_divisor n d p = true -> d <= e < d + Z.of_nat n -> p mod e <> 0.
Proof.
  induction n as [|n IH]; intros d p e H He; [lia|]. cbn [no_divisor] in H. apply andb_prop in H as [H1 H2].
  destruct (Z.eq_dec e d) as [->|]; [lia|]. apply (IH (d + 1) p e H2). lia.
Qed.
Lemma mersenne_31 : prime (2 ^ 31 - 1).
Proof.
  assert (C : no_divisor (Z.to_nat 46340) 2 (2 ^ 31 - 1) = true) by (vm_compute; reflexivity).
  assert (D : forall e, 2 <= e <= 46341 -> (2 ^ 31 - 1) mod e <> 0).
  { intros e He. apply (no_divisor_ok _ 2 _ e C). rewrite Z2Nat.id by lia. lia. }
  clear C. apply prime_alt. split; [lia|]. intros n Hn [q Hq].
  assert (Hqp : 1 < q < 2 ^ 31 - 1) by nia.
  destruct (Z.le_gt_cases n 46341) as [L|G].
  - apply (D n); [lia|]. rewrite Hq. apply Z.mod_mul. lia.
  - apply (D q); [|rewrite Hq, Z.mul_comm; apply Z.mod_mul; lia]. split; [lia|]. nia.
Qed.
Lemma iter_mult n k c : Nat.iter n L1 c = c -> Nat.iter (k * n) L1 c = c.
Proof. intros H. induction k as [|k IH]; [reflexivity|]. cbn [Nat.mul]. now rewrite iter_add, IH. Qed.
Lemma no_return n : 0 < Z.of_nat n < 2 ^ 31 - 1 -> Nat.iter n L1 1 <> 1.
Proof.
  intros Hn H. destruct period as (t & Ht & Hp).
  assert (R : rel_prime (Z.of_nat n) (2 ^ 31 - 1)) by (apply rel_prime_le_prime; [apply mersenne_31|lia]).
  apply rel_prime_bezout in R. destruct R as [u v E].
  (* u n + v t = 1; make u positive *)
  set (u' := u mod Z.of_nat t). assert (Hu : 0 <= u' < Z.of_nat t) by (apply Z.mod_pos_bound; lia).
  assert (E2 : exists w, u' * Z.of_nat n = 1 + w * Z.of_nat t).
  { exists (- v - (u / Z.of_nat t) * Z.of_nat n). unfold u'. pose proof (Z.div_mod u (Z.of_nat t)) as Hd. rewrite <- Ht in E. nia. }
  destruct E2 as [w E2]. assert (Hw : 0 <= w) by nia.
  assert (E3 : (Z.to_nat u' * n = 1 + Z.to_nat w * t)%nat) by nia.
  assert (X : Nat.iter (1 + Z.to_nat w * t) L1 1 = 1) by (rewrite <- E3; now apply iter_mult).
  rewrite iter_add, (iter_mult t _ _ Hp) in X. vm_compute in X. discriminate.
Qed.
Lemma syn_two i k j : Z.of_nat (S k) < 2 ^ 31 - 1 -> syn (repeat false i ++ true :: repeat false k ++ true :: repeat false j) <> 0.
Proof.
  intros Hk H. unfold syn in H. rewrite fold_left_app, fold_false, L1_0 in H. cbn [fold_left] in H.
  rewrite fold_left_app, fold_false in H. cbn [fold_left] in H. rewrite fold_false in H.
  assert (R : 0 <= Nat.iter k L1 (reg_clock 0 true) < 2 ^ 32) by (apply iter_range, clock_range; lia).
  apply iter_zero in H; [|now apply clock_range]. rewrite reg_clock_L1 in H. apply L1_zero in H; [|apply lxor_range; [lia|assumption|cbn; lia]].
  apply Z.lxor_eq in H. change (reg_clock 0 true) with (L1 1) in H. rewrite <- iter_succ_r in H.
  apply (no_return (S k)); [lia|exact H].
Qed.

Lemma count_0 l : count_occ bool_dec l true = 0%nat -> l = repeat false (length l).
Proof.
  induction l as [|b l IH]; [reflexivity|]. cbn [count_occ]. destruct (bool_dec b true) as [->|Hb]; [discriminate|].
  intros H. cbn [length repeat]. rewrite <- (IH H). destruct b; [congruence|reflexivity].
Qed.
Lemma count_S l n : count_occ bool_dec l true = S n -> exists i l', l = repeat false i ++ true :: l' /\ count_occ bool_dec l' true = n.
Proof.
  induction l as [|b l IH]; [discriminate|]. cbn [count_occ]. destruct (bool_dec b true) as [->|Hb]; intros H.
  - injection H as H. exists 0%nat, l. auto.
  - destruct (IH H) as (i & l' & -> & H'). exists (S i), l'. split; [|exact H']. destruct b; [congruence|reflexivity].
Qed.
Lemma flips_length a b : length a = length b -> length (flips a b) = (8 * length a)%nat.
Proof.
  intros H. unfold flips. rewrite <- bits_length. assert (E : length (flat_map bits_of_byte a) = length (flat_map bits_of_byte b)) by now rewrite !bits_length, H.
  revert E. generalize (flat_map bits_of_byte a) as x, (flat_map bits_of_byte b) as y. induction x as [|u x IH]; intros [|v y] E; try discriminate; [reflexivity|].
  cbn. f_equal. apply IH. now injection E.
Qed.
Lemma bits_inj x y : 0 <= x < 256 -> 0 <= y < 256 -> bits_of_byte x = bits_of_byte y -> x = y.
Proof.
  intros Hx Hy H. pose proof (fold_bits (bits_of_byte x) 0) as _. apply Z.bits_inj'. intros i Hi. destruct (Z.lt_ge_cases i 8) as [L|G].
  - pose proof (f_equal (fun l => nth (Z.to_nat i) l false) H) as E. cbn beta in E. unfold bits_of_byte in E.
    rewrite !(nth_indep _ false (Z.testbit x (Z.of_nat 0))) in E by (rewrite map_length, seq_length; lia).
    rewrite (map_nth (fun i => Z.testbit x (Z.of_nat i)) (seq 0 8) 0%nat) in E.
    rewrite (nth_indep _ _ (Z.testbit y (Z.of_nat 0))) in E by (rewrite map_length, seq_length; lia).
    rewrite (map_nth (fun i => Z.testbit y (Z.of_nat i)) (seq 0 8) 0%nat) in E.
    rewrite seq_nth in E by lia. cbn [plus] in E. now rewrite Z2Nat.id in E by lia.
  - rewrite !testbit_small; [reflexivity|lia| |lia|]; (split; [lia|]); apply Z.lt_le_trans with (2 ^ 8); try lia; apply Z.pow_le_mono_r; lia.
Qed.
(** Messages that differ somewhere differ in some bit. *)
Lemma flips_none a : forall b, all_bytes a = true -> all_bytes b = true -> length a = length b -> flips a b = repeat false (8 * length a) -> a = b.
Proof.
  induction a as [|x a IH]; intros [|y b] Ha Hb Hl H; try discriminate; [reflexivity|].
  unfold all_bytes in Ha, Hb. cbn [forallb] in Ha, Hb. apply andb_prop in Ha as [Hx Ha]. apply andb_prop in Hb as [Hy Hb]. unfold is_byte in Hx, Hy.
  assert (E : forall u v, length u = length v -> forall u' v', differ (u ++ u') (v ++ v') = differ u v ++ differ u' v').
  { induction u as [|p u IHu]; intros [|q v] Huv u' v'; try discriminate; [reflexivity|]. cbn. f_equal. apply IHu. now injection Huv. }
  assert (D : forall u v, length u = length v -> differ u v = repeat false (length u) -> u = v).
  { induction u as [|p u IHu]; intros [|q v] Huv H'; try discriminate; [reflexivity|]. cbn in H'. injection H' as H1 H2. injection Huv as Huv.
    f_equal; [destruct p, q; try discriminate; reflexivity|now apply IHu]. }
  assert (L : forall z, length (bits_of_byte z) = 8%nat) by (intros z; unfold bits_of_byte; now rewrite map_length, seq_length).
  unfold flips in H. cbn [flat_map] in H. rewrite E in H by now rewrite !L. cbn [length] in H.
  replace (8 * S (length a))%nat with (8 + 8 * length a)%nat in H by lia. rewrite repeat_app in H.
  assert (L8d : length (differ (bits_of_byte x) (bits_of_byte y)) = length (repeat false 8)).
  { rewrite repeat_length. pose proof (flips_length [x] [y] eq_refl) as F. unfold flips in F. cbn [flat_map] in F. rewrite !app_nil_r in F. exact F. }
  assert (H1 : differ (bits_of_byte x) (bits_of_byte y) = repeat false 8).
  { apply (f_equal (firstn 8)) in H. rewrite firstn_app, L8d, repeat_length, Nat.sub_diag, firstn_O, app_nil_r in H.
    rewrite firstn_all2 in H by (rewrite L8d, repeat_length; lia). rewrite H. rewrite firstn_app, repeat_length, Nat.sub_diag, firstn_O, app_nil_r. reflexivity. }
  rewrite H1 in H. apply app_inv_head in H. f_equal.
  - apply bits_inj; [lia|lia|]. apply D; [now rewrite !L|rewrite L; exact H1].
  - apply IH; auto.
Qed.

Theorem detect_odd a b : length a = length b -> Nat.odd (flipped a b) = true -> crc32c_spec a <> crc32c_spec b.
Proof.
  intros Hl Ho E. apply same_crc in E; [|exact Hl]. unfold flipped in Ho. rewrite <- parity_syn, E in Ho. vm_compute in Ho. discriminate.
Qed.
Theorem detect_burst a b : all_bytes a = true -> all_bytes b = true -> length a = length b -> a <> b -> within 32 a b -> crc32c_spec a <> crc32c_spec b.
Proof.
  intros Ha Hb Hl Hn (i & w & j & H & Hw) E. apply same_crc in E; [|exact Hl]. rewrite H in E. apply syn_burst in E; [|exact Hw].
  apply Hn, flips_none; auto. rewrite <- (flips_length a b Hl). rewrite H, E, !app_length, !repeat_length, <- !repeat_app. reflexivity.
Qed.
Theorem detect_three a b : length a = length b -> 8 * zlen a <= 2 ^ 31 - 1 -> (1 <= flipped a b <= 3)%nat -> crc32c_spec a <> crc32c_spec b.
Proof.
  intros Hl Hz Hf. destruct (Nat.eq_dec (flipped a b) 2) as [H2|H2].
  - intros E. apply same_crc in E; [|exact Hl]. pose proof (flips_length a b Hl) as L. unfold flipped in H2.
    destruct (count_S _ _ H2) as (i & l & H & Hc). destruct (count_S _ _ Hc) as (k & l' & H' & Hc'). rewrite (count_0 _ Hc') in H'.
    rewrite H, H' in E. revert E. apply syn_two. rewrite H, H', !app_length, repeat_length in L. cbn [length] in L. rewrite app_length, repeat_length in L. cbn [length] in L.
    unfold zlen in Hz. lia.
  - apply detect_odd; [exact Hl|]. destruct (flipped a b) as [|[|[|[|n]]]]; try reflexivity; lia.
Qed.

(** ** What is not detected *)
Fixpoint xors (a p : bytes) : bytes := match a, p with x :: a', y :: p' => Z.lxor x y :: xors a' p' | _, _ => a end.
Lemma xors_length a : forall p, length (xors a p) = length a.
Proof. induction a as [|x a IH]; intros [|y p]; try reflexivity. cbn. now rewrite IH. Qed.
Lemma xors_bytes a : forall p, all_bytes a = true -> all_bytes p = true -> all_bytes (xors a p) = true.
Proof.
  unfold all_bytes. induction a as [|x a IH]; intros [|y p] Ha Hp; try exact Ha. cbn [xors forallb] in *. apply andb_prop in Ha as [Hx Ha]. apply andb_prop in Hp as [Hy Hp].
  rewrite IH by assumption. rewrite andb_true_r. unfold is_byte in *. pose proof (lxor_range 8 x y). change (2 ^ 8) with 256 in *. lia.
Qed.
Lemma differ_app u : forall v u' v', length u = length v -> differ (u ++ u') (v ++ v') = differ u v ++ differ u' v'.
Proof. induction u as [|p u IHu]; intros [|q v] u' v' Huv; try discriminate; [reflexivity|]. cbn. f_equal. apply IHu. now injection Huv. Qed.
Lemma differ_same u : differ u u = repeat false (length u).
Proof. induction u as [|p u IH]; [reflexivity|]. cbn. rewrite IH, xorb_nilpotent. reflexivity. Qed.
Lemma differ_lxor x y : differ (bits_of_byte x) (bits_of_byte (Z.lxor x y)) = bits_of_byte y.
Proof.
  unfold bits_of_byte. induction (seq 0 8) as [|i l IH]; [reflexivity|]. cbn [map differ]. rewrite IH, Z.lxor_spec. f_equal.
  destruct (Z.testbit x _), (Z.testbit y _); reflexivity.
Qed.
Lemma flips_xors p : forall a, (length p <= length a)%nat -> flips a (xors a p) = flat_map bits_of_byte p ++ repeat false (8 * (length a - length p)).
Proof.
  assert (L : forall z, length (bits_of_byte z) = 8%nat) by (intros z; unfold bits_of_byte; now rewrite map_length, seq_length).
  unfold flips. induction p as [|y p IH]; intros a Hp.
  - destruct a as [|x a]; [reflexivity|]. cbn [xors]. rewrite differ_same, bits_length. cbn [length flat_map app]. now rewrite Nat.sub_0_r.
  - destruct a as [|x a]; [cbn in Hp; lia|]. cbn [xors flat_map]. rewrite differ_app by now rewrite !L. rewrite differ_lxor, IH by (cbn in Hp; lia).
    cbn [length Nat.sub]. now rewrite app_assoc.
Qed.
Lemma undetected p a : (length p <= length a)%nat -> syn (flat_map bits_of_byte p) = 0 -> crc32c_spec (xors a p) = crc32c_spec a.
Proof.
  intros Hp H. symmetry. apply crc_of_syn; [now rewrite xors_length|]. rewrite flips_xors by exact Hp. unfold syn in *. rewrite fold_left_app, H, fold_false. apply L1_0.
Qed.
Lemma count_repeat n : count_occ bool_dec (repeat false n) true = 0%nat.
Proof. induction n as [|n IH]; [reflexivity|]. exact IH. Qed.
(** Four single bits far apart. *)
Definition set_byte (n : nat) (x : Z) (l : bytes) : bytes := firstn n l ++ x :: skipn (S n) l.
Definition four : bytes := set_byte 0 1 (set_byte 95 128 (set_byte 315 16 (set_byte 659 8 (repeat 0 660)))).
Lemma four_ok : all_bytes four = true /\ length four = 660%nat /\ count_occ bool_dec (flat_map bits_of_byte four) true = 4%nat /\ syn (flat_map bits_of_byte four) = 0.
Proof. vm_compute. auto. Qed.
(** The generator's own 33 coefficients. *)
Definition gen : bytes := [0xf1; 0x76; 0xec; 0x05; 0x01].
Lemma gen_ok : all_bytes gen = true /\ syn (flat_map bits_of_byte gen) = 0 /\ flat_map bits_of_byte gen = firstn 33 (flat_map bits_of_byte gen) ++ repeat false 7.
Proof. vm_compute. auto. Qed.
Lemma four_missed a : all_bytes a = true -> (660 <= length a)%nat -> exists b, all_bytes b = true /\ length b = length a /\ flipped a b = 4%nat /\ crc32c_spec b = crc32c_spec a.
Proof.
  intros Ha Hl. destruct four_ok as (H1 & H2 & H3 & H4). exists (xors a four). split; [now apply xors_bytes|]. split; [apply xors_length|]. split.
  - unfold flipped. rewrite flips_xors by (rewrite H2; exact Hl). rewrite count_occ_app, H3, count_repeat. reflexivity.
  - apply undetected; [rewrite H2; exact Hl|exact H4].
Qed.
Lemma burst_missed a : all_bytes a = true -> (5 <= length a)%nat -> exists b, all_bytes b = true /\ length b = length a /\ b <> a /\ within 33 a b /\ crc32c_spec b = crc32c_spec a.
Proof.
  intros Ha Hl. destruct gen_ok as (H1 & H2 & H3). exists (xors a gen). split; [now apply xors_bytes|]. split; [apply xors_length|].
  assert (F : flips a (xors a gen) = flat_map bits_of_byte gen ++ repeat false (8 * (length a - length gen))) by (apply flips_xors; exact Hl).
  split; [|split].
  - intros E. rewrite E in F. unfold flips in F. rewrite differ_same, bits_length in F. destruct a as [|x a]; [cbn in Hl; lia|]. cbn in F. discriminate.
  - exists 0%nat, (firstn 33 (flat_map bits_of_byte gen)), (7 + 8 * (length a - length gen))%nat. split; [|apply firstn_le_length].
    rewrite F, H3 at 1. rewrite repeat_app. cbn [repeat]. rewrite <- !app_assoc. reflexivity.
  - apply undetected; [exact Hl|exact H2].
Qed.

(** ** The messages of a Fetch reply *)
Lemma crc_field_inj a b : 0 <= a < 2 ^ 32 -> 0 <= b < 2 ^ 32 -> w_int32 a = w_int32 b -> a = b.
Proof.
  intros Ha Hb H. apply (f_equal be_get) in H. unfold w_int32 in H. rewrite !StreamProofs.be_get_w in H. change (256 ^ Z.of_nat 4) with (2 ^ 32) in H.
  now rewrite !Z.mod_small in H by assumption.
Qed.
Lemma crc_range t : all_bytes t = true -> 0 <= crc32c_spec t < 2 ^ 32.
Proof. intros H. rewrite <- crc32c_correct by exact H. now apply crc32c_range. Qed.
Lemma message_parts off size crc ts k v :
  covered (w_message off size crc ts k v) = w_msg_tail ts k v /\ firstn 4 (skipn 12 (w_message off size crc ts k v)) = w_int32 crc.
Proof. split; reflexivity. Qed.
Lemma passes_iff off size ts k v t : obytes k = true -> obytes v = true -> all_bytes t = true ->
  passes (w_message off size (crc32c_spec (w_msg_tail ts k v)) ts k v) t <-> crc32c_spec t = crc32c_spec (w_msg_tail ts k v).
Proof.
  intros Hk Hv Ht. unfold passes. rewrite (proj2 (message_parts _ _ _ _ _ _)). split; [|intros ->; reflexivity].
  intros H. symmetry. apply crc_field_inj in H; [exact H|apply crc_range, tail_bytes; assumption|now apply crc_range].
Qed.
Theorem detects ms r max ms' : obytes (rKey r) = true -> obytes (rVal r) = true -> appendMessage ms r max = Some ms' ->
  exists m b, msMsgs ms' = msMsgs ms ++ [m] /\ encodeObject tMessageV1 (message_val m) = Some b /\ passes b (covered b) /\
    forall t, all_bytes t = true -> length t = length (covered b) ->
      Nat.odd (flipped (covered b) t) = true \/ (t <> covered b /\ within 32 (covered b) t) \/
        ((1 <= flipped (covered b) t <= 3)%nat /\ zlen b <= 2 ^ 28) -> ~ passes b t.
Proof.
  intros Hk Hv H. destruct (message_layout ms r max ms' Hk Hv H) as (m & b & Hm & He & -> & Hz & _). exists m, (w_message (msOffset ms) (rec_size r) (crc32c_spec (w_msg_tail (rTs r) (rKey r) (rVal r))) (rTs r) (rKey r) (rVal r)).
  split; [exact Hm|]. split; [exact He|]. rewrite (proj1 (message_parts _ _ _ _ _ _)).
  assert (T : all_bytes (w_msg_tail (rTs r) (rKey r) (rVal r)) = true) by (apply tail_bytes; assumption).
  split; [apply passes_iff; auto|]. intros t Ht Hl Hd Hp. apply passes_iff in Hp; auto. symmetry in Hp. revert Hp.
  destruct Hd as [Hd|[[Hn Hd]|[Hd Hs]]]; [apply detect_odd|apply detect_burst|apply detect_three]; auto.
  assert (zlen (w_msg_tail (rTs r) (rKey r) (rVal r)) <= zlen (w_message (msOffset ms) (rec_size r) (crc32c_spec (w_msg_tail (rTs r) (rKey r) (rVal r))) (rTs r) (rKey r) (rVal r)) - 16).
  { unfold w_message. rewrite !zlen_app. unfold w_int64, w_int32. rewrite !zlen_w_be. lia. }
  lia.
Qed.
Theorem misses ms r max ms' : obytes (rKey r) = true -> obytes (rVal r) = true -> appendMessage ms r max = Some ms' ->
  exists m b, msMsgs ms' = msMsgs ms ++ [m] /\ encodeObject tMessageV1 (message_val m) = Some b /\
    (exists t, all_bytes t = true /\ length t = length (covered b) /\ t <> covered b /\ within 33 (covered b) t /\ passes b t) /\
    (676 <= zlen b -> exists t, all_bytes t = true /\ length t = length (covered b) /\ flipped (covered b) t = 4%nat /\ passes b t).
Proof.
  intros Hk Hv H. destruct (message_layout ms r max ms' Hk Hv H) as (m & b & Hm & He & -> & Hz & _). exists m, (w_message (msOffset ms) (rec_size r) (crc32c_spec (w_msg_tail (rTs r) (rKey r) (rVal r))) (rTs r) (rKey r) (rVal r)).
  split; [exact Hm|]. split; [exact He|]. rewrite (proj1 (message_parts _ _ _ _ _ _)).
  assert (T : all_bytes (w_msg_tail (rTs r) (rKey r) (rVal r)) = true) by (apply tail_bytes; assumption).
  assert (Z0 : zlen (w_message (msOffset ms) (rec_size r) (crc32c_spec (w_msg_tail (rTs r) (rKey r) (rVal r))) (rTs r) (rKey r) (rVal r)) = 16 + zlen (w_msg_tail (rTs r) (rKey r) (rVal r))).
  { unfold w_message. rewrite !zlen_app. unfold w_int64, w_int32. rewrite !zlen_w_be. lia. }
  split.
  - destruct (burst_missed _ T) as (t & H1 & H2 & H3 & H4 & H5).
    { unfold w_msg_tail, w_int8, w_int64. rewrite !app_length, !w_be_length. lia. }
    exists t. repeat (split; [assumption|]). apply passes_iff; auto.
  - intros Hs. destruct (four_missed _ T) as (t & H1 & H2 & H3 & H4); [unfold zlen in *; lia|].
    exists t. repeat (split; [assumption|]). apply passes_iff; auto.
Qed.
