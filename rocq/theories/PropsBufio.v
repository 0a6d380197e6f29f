(** * Property C44: reading and writing messages through bufio. *)
From Verif Require Import GoBase BufioReader BufioWriter.
From Coq Require Import List ZArith.
Import ListNotations.
Open Scope Z_scope.

(** Whatever the message and whatever the calls, the library's reader (a sliding
    4096-byte buffer, refilled from the message) answers every [Peek] from the
    message and the number of bytes discarded so far; no call panics, and no
    call loops. *)
Theorem C44_bufio_exact : forall msg cs,
  exists b, b_calls (new_reader msg) cs = Some (answers msg 0 cs, b).
Proof. exact bufio_answers. Qed.
Print Assumptions C44_bufio_exact.

(** The reader the decoder model uses gives the same answers. *)
Theorem C44_decoder_reader : forall msg cs, a_calls msg cs = answers msg 0 cs.
Proof. exact model_answers. Qed.
Print Assumptions C44_decoder_reader.

(** A 5000-byte message: peeks that need a refill and a slide of the buffer, one
    beyond the buffer, one past the end, and a discard across the buffer's end. *)
Definition C44_msg : bytes := map (fun i => Z.of_nat i mod 251) (seq 0 5000).
Definition C44_calls : list bcall :=
  [BPeek 4; BDiscard 4; BPeek 4097; BDiscard 4090; BPeek 10; BDiscard (-3); BDiscard 900; BPeek 7; BPeek 6; BDiscard 10; BPeek 0; BPeek (-1)].
Example C44_nontrivial : match b_calls (new_reader C44_msg) C44_calls with
  | Some (l, b) => l = answers C44_msg 0 C44_calls /\
      map snd l = [true; false; true; false; true; true; false] /\
      map (fun x => length (fst x)) l = [4; 4096; 10; 6; 6; 0; 0]%nat /\
      nth 2 (map fst l) [] = [78; 79; 80; 81; 82; 83; 84; 85; 86; 87] /\
      bSrc b = []
  | None => False
  end.
Proof. vm_compute. repeat split. Qed.

(** Whatever is written through a bufio.Writer, in whatever pieces, comes out
    after the final Flush unchanged and in order. *)
Theorem C44_writer_exact : forall cs,
  exists w, w_calls new_writer cs = Some w /\ wOut (flush w) = written cs.
Proof. exact writer_exact. Qed.
Print Assumptions C44_writer_exact.

(** Small writes, one across the buffer's end, one larger than the buffer; without
    the Flush some bytes are missing. *)
Definition C44_writes : list wcall :=
  [WByte 7; WWrite (firstn 4090 C44_msg); WWrite [1; 2; 3; 4; 5; 6; 7; 8]; WWrite C44_msg; WWrite []; WByte 9].
Example C44_writes_nontrivial : match w_calls new_writer C44_writes with
  | Some w => wOut (flush w) = written C44_writes /\ Z.of_nat (length (written C44_writes)) = 9100 /\
      wOut w = firstn (Z.to_nat 8192) (written C44_writes)
  | None => False
  end.
Proof. vm_compute. repeat split. Qed.
