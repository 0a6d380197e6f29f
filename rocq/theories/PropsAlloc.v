(** * PropsAlloc: C51, memory set aside for requests *)
From Verif Require Import AllocProofs.
From stdpp Require Import gmap list.
Open Scope Z_scope.
Open Scope list_scope.

(** What is decoded has exactly the room it needs. *)
Theorem C51_decoded t r e v : peekObject r 0 t = DOk e v -> rsv t false r 0 = slice_lengths v.
Proof. exact (exact_dec t false r 0 e v). Qed.
Print Assumptions C51_decoded.
(** A request the server goes on with has been given room for at most as many
    elements as it has bytes. *)
Theorem C51_taken_up port msg x : beginRequest port msg = Some x -> zsum (reserved msg) <= zlen msg.
Proof. exact (reserved_taken port msg x). Qed.
Print Assumptions C51_taken_up.
(** Any message: all but two of the slices together have no more elements than
    the message has bytes, and each of the two has less than 2^31. *)
Theorem C51_any msg : Forall (fun n => 0 <= n < 2 ^ 31) (reserved msg) /\
  exists unread read, Permutation (reserved msg) (unread ++ read) /\ (length unread <= 2)%nat /\ zsum read <= zlen msg.
Proof. exact (reserved_any msg). Qed.
Print Assumptions C51_any.
(** These bounds are reached: a Metadata request of 14 bytes makes the decoder set
    aside room for any number of strings, an OffsetFetch request of 22 bytes for
    any number of topics and any number of partitions. *)
Theorem C51_metadata n : 0 < n < 2 ^ 31 -> reserved ([0; 3; 0; 1; 0; 0; 0; 0; 0; 0] ++ enc_i32 n) = [n].
Proof. exact (ask_metadata n). Qed.
Print Assumptions C51_metadata.
Theorem C51_offset_fetch n m : 0 < n < 2 ^ 31 -> 0 < m < 2 ^ 31 ->
  reserved ([0; 9; 0; 1; 0; 0; 0; 0; 0; 0] ++ [0; 0] ++ enc_i32 n ++ [0; 0] ++ enc_i32 m) = [n; m].
Proof. exact (ask_offsets n m). Qed.
Print Assumptions C51_offset_fetch.

(** OffsetFetch for partitions 1, 2 of topic a and partition 7 of topic b: room for
    2 topics, 2 partitions and 1 partition, and it is taken up. *)
Example C51_ex : let msg := ([0; 9; 0; 1; 0; 0; 0; 5; 0; 0] ++
    [0; 1; 103] ++ enc_i32 2 ++ [0; 1; 97] ++ enc_i32 2 ++ enc_i32 1 ++ enc_i32 2 ++ [0; 1; 98] ++ enc_i32 1 ++ enc_i32 7) in
  reserved msg = [2; 2; 1] /\ exists x, beginRequest 9092 msg = Some x.
Proof. split; [reflexivity|eexists; vm_compute; reflexivity]. Qed.
