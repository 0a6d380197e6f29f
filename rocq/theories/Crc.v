(** * Crc: CRC-32C as [hash/crc32] computes it for encoder.go:484, 518-524. *)
From Verif Require Export GoBase.

(** crc32.Castagnoli: the reversed polynomial. *)
Definition castagnoli : Z := 0x82f63b78.

(** One round of the inner loop of crc32.MakeTable (simpleMakeTable):
    [if crc&1 == 1 { crc = (crc >> 1) ^ poly } else { crc >>= 1 }]. *)
Definition crc_bit (poly c : Z) : Z :=
  if Z.odd c then Z.lxor (Z.shiftr c 1) poly else Z.shiftr c 1.

(** encoder.go:484: crc32.MakeTable(crc32.Castagnoli), 256 entries. *)
Definition make_table (poly : Z) : list Z :=
  map (fun i => Nat.iter 8 (crc_bit poly) (Z.of_nat i)) (seq 0 256).
Definition crc_table : list Z := make_table castagnoli.

(** crc32.Update (simpleUpdate; the assembly variants compute the same):
    [crc = ^crc; for v in p { crc = tab[byte(crc)^v] ^ (crc >> 8) }; return ^crc]. *)
Definition crc_step (tab : list Z) (c v : Z) : Z :=
  Z.lxor (nth (Z.to_nat (Z.lxor (uwrap 8 c) v)) tab 0) (Z.shiftr c 8).
Definition not32 (c : Z) : Z := Z.lxor c (2 ^ 32 - 1).
Definition crc_update (crc : Z) (tab : list Z) (p : bytes) : Z :=
  not32 (fold_left (crc_step tab) p (not32 crc)).

(** encoder.go:523 *)
Definition crc32c (p : bytes) : Z := crc_update 0 crc_table p.
