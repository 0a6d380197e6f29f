(** * CrcSpec: CRC-32C as a shift register fed bit by bit (RFC 3720, B.4). *)
From Verif Require Export GoBase.

(** The bits of a byte, least significant first. *)
Definition bits_of_byte (b : Z) : list bool :=
  map (fun i => Z.testbit b (Z.of_nat i)) (seq 0 8).

(** One clock of the reflected 32-bit register: the incoming bit is compared
    with the low bit; on a difference the generator polynomial is added. *)
Definition reg_clock (reg : Z) (b : bool) : Z :=
  Z.lxor (Z.shiftr reg 1) (if xorb (Z.odd reg) b then 0x82f63b78 else 0).

(** Register preset to all ones, complemented at the end. *)
Definition crc32c_spec (msg : bytes) : Z :=
  Z.lxor (fold_left reg_clock (flat_map bits_of_byte msg) 0xffffffff) 0xffffffff.
