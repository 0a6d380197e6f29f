(** * DetectSpec: messages that differ in some bits *)
From Verif Require Export CrcSpec WireSpec.

(** Position by position: do the bits differ?  (In the order in which the register
    takes them.) *)
Fixpoint differ (a b : list bool) : list bool :=
  match a, b with
  | x :: a', y :: b' => xorb x y :: differ a' b'
  | _, _ => []
  end.
Definition flips (a b : bytes) : list bool := differ (flat_map bits_of_byte a) (flat_map bits_of_byte b).
(** How many are flipped. *)
Definition flipped (a b : bytes) : nat := count_occ Bool.bool_dec (flips a b) true.
(** All flipped bits lie within n consecutive bits. *)
Definition within (n : nat) (a b : bytes) : Prop :=
  exists i w j, flips a b = repeat false i ++ w ++ repeat false j /\ (length w <= n)%nat.

(** The part of an encoded message the checksum covers (after offset, size, crc), and
    what a reader of the message checks when it finds [t] in its place. *)
Definition covered (m : bytes) : bytes := skipn 16 m.
Definition passes (m t : bytes) : Prop := firstn 4 (skipn 12 m) = w_int32 (crc32c_spec t).
