(** * PropsPart: partition numbers given to the API count modulo 2^32 (C56) *)
From Verif Require Import PartProofs.
From stdpp Require Import gmap list.
Open Scope Z_scope.
Open Scope list_scope.

(** Two histories with the same schedule, whose calls differ only in that partition
    numbers differ by multiples of 2^32: everything observable is the same. *)
Theorem C56_numbers_wrap port ch e1 e2 : Forall2 renumbered_ev e1 e2 ->
  snd (run (init port ch) e1) = snd (run (init port ch) e2).
Proof. exact (numbers_wrap port ch e1 e2). Qed.
Print Assumptions C56_numbers_wrap.

(** Other numbers are told apart: already creating the partition shows the
    difference. *)
Theorem C56_numbers_differ port ch t p q : all_bytes t = true -> int64 p = true -> int64 q = true ->
  snd (run (init port ch) [EvCall (CallCreate [t] p); EvApi 0; EvApi 0; EvApi 0]) =
  snd (run (init port ch) [EvCall (CallCreate [t] q); EvApi 0; EvApi 0; EvApi 0]) -> same_number p q.
Proof. exact (numbers_differ port ch t p q). Qed.
Print Assumptions C56_numbers_differ.

(** A record posted to partition 2^32, another to partition 0: a client that fetches
    partition 0 gets both. *)
Example C56_ex : Forall2 renumbered_ev (part_demo 4294967296) (part_demo 0) /\
  writes 0 (snd (run (init 9092 []) (part_demo 4294967296))) =
    w_reply 8 (w_fetch_resp 0 [(topicA, [(0, 0, 2, w_record 0 (Rec 0 5 (Some [1]) (Some [2]) []) ++ w_record 1 (Rec 0 6 None (Some [3]) []))])]).
Proof.
  split; [|vm_compute; reflexivity]. unfold part_demo. constructor.
  - constructor; [|reflexivity|reflexivity]. constructor. exists (-1). reflexivity.
  - match goal with |- Forall2 _ ?l _ => generalize l end. intros l. induction l; constructor; [constructor|assumption].
Qed.
