(** * GoBase: the pieces of the Go language and standard library the code rests on.

    Nothing here is code of the repository; each definition states the contract
    of the Go feature the repository's code uses. *)
From Coq Require Export List ZArith Lia Bool.
Export ListNotations.
Open Scope Z_scope.

(** A byte slice / string content.  Every element of a real Go [[]byte] lies in
    [0,256); definitions below are total on all of [Z]. *)
Definition bytes := list Z.

Definition is_byte (b : Z) : bool := (0 <=? b) && (b <? 256).
Definition all_bytes (l : bytes) : bool := forallb is_byte l.

(** [len(x)] as a Go [int] (64-bit platform; lengths never reach 2^63). *)
Definition zlen {A} (l : list A) : Z := Z.of_nat (length l).

(** Conversion to an unsigned [w]-bit integer type: [uint8(x)], [uint32(x)], ... *)
Definition uwrap (w z : Z) : Z := z mod 2 ^ w.
(** Conversion to a signed [w]-bit integer type: [int16(x)], [int32(x)], ... *)
Definition swrap (w z : Z) : Z := (z + 2 ^ (w - 1)) mod 2 ^ w - 2 ^ (w - 1).

Definition in_u (w z : Z) : bool := (0 <=? z) && (z <? 2 ^ w).
Definition in_s (w z : Z) : bool := (- 2 ^ (w - 1) <=? z) && (z <? 2 ^ (w - 1)).

(** [binary.BigEndian.PutUint16/32/64]: the [n] low-order bytes, most
    significant first ([b[0] = byte(v >> 8*(n-1))], ...). *)
Fixpoint be_put (n : nat) (v : Z) : bytes :=
  match n with
  | O => []
  | S k => uwrap 8 (Z.shiftr v (8 * Z.of_nat k)) :: be_put k v
  end.

(** [binary.BigEndian.Uint16/32/64] of a slice of exactly that many bytes. *)
Definition be_get (l : bytes) : Z := fold_left (fun a b => a * 256 + b) l 0.

(** ** [bufio.Reader]

    [bufio.NewReader] allocates a buffer of [defaultBufSize] = 4096 bytes.  The
    reader wraps a [bytes.Buffer] holding a whole request, so its state is
    described by the bytes not yet discarded, [r].  [Peek n] fills the buffer
    as far as possible and returns at most its content; it errors when
    [n > 4096] (ErrBufferFull), when fewer than [n] bytes are left (EOF), or
    when [n < 0].  See BufioReader.v for the concrete buffer and the proof that
    this abstraction is exact. *)
Definition bufsize : Z := 4096.

(** Bytes returned by [Peek n] whatever the error (first result). *)
Definition peek_avail (r : bytes) (n : Z) : bytes :=
  firstn (Z.to_nat (Z.min n bufsize)) r.

(** [Peek n] when the error is checked: [None] = some error. *)
Definition peek (r : bytes) (n : Z) : option bytes :=
  if (n <? 0) || (bufsize <? n) || (zlen r <? n) then None
  else Some (firstn (Z.to_nat n) r).

(** [Discard n] for [0 <= n <=] bytes left. *)
Definition discard (r : bytes) (n : Z) : bytes := skipn (Z.to_nat n) r.
