(** * PropsDetect: which damage to a fetched message its checksum shows (C62) *)
From Verif Require Import DetectProofs.
Open Scope Z_scope.
Open Scope list_scope.

(** Any odd number of flipped bits, any damage within 32 consecutive bits, and up to
    three flipped bits anywhere (in messages of at most 256 MB). *)
Theorem C62_detects ms r max ms' :
  obytes (rKey r) = true -> obytes (rVal r) = true -> appendMessage ms r max = Some ms' ->
  exists m b, msMsgs ms' = msMsgs ms ++ [m] /\ encodeObject tMessageV1 (message_val m) = Some b /\ passes b (covered b) /\
    forall t, all_bytes t = true -> length t = length (covered b) ->
      Nat.odd (flipped (covered b) t) = true \/ (t <> covered b /\ within 32 (covered b) t) \/
        ((1 <= flipped (covered b) t <= 3)%nat /\ zlen b <= 2 ^ 28) -> ~ passes b t.
Proof. exact (detects ms r max ms'). Qed.
Print Assumptions C62_detects.

(** These bounds are sharp: in every message some damage within 33 bits goes unseen, and
    in every message of at least 676 bytes some four flipped bits. *)
Theorem C62_misses ms r max ms' :
  obytes (rKey r) = true -> obytes (rVal r) = true -> appendMessage ms r max = Some ms' ->
  exists m b, msMsgs ms' = msMsgs ms ++ [m] /\ encodeObject tMessageV1 (message_val m) = Some b /\
    (exists t, all_bytes t = true /\ length t = length (covered b) /\ t <> covered b /\ within 33 (covered b) t /\ passes b t) /\
    (676 <= zlen b -> exists t, all_bytes t = true /\ length t = length (covered b) /\ flipped (covered b) t = 4%nat /\ passes b t).
Proof. exact (misses ms r max ms'). Qed.
Print Assumptions C62_misses.

(** Two bits of a message flipped, and one whose length allows for the four. *)
Example C62_ex :
  let k := Some [1] in
  (exists ms', appendMessage (newMessageSetV1 5) (Rec 0 1000 k (Some [2; 3]) []) 100 = Some ms') /\
  let b := w_message 5 37 (crc32c_spec (w_msg_tail 1000 k (Some [2; 3]))) 1000 k (Some [2; 3]) in
  let t := w_msg_tail 1000 k (Some [3; 1]) in
  length t = length (covered b) /\ flipped (covered b) t = 2%nat /\ within 32 (covered b) t /\ ~ passes b t /\
  (exists ms', appendMessage (newMessageSetV1 5) (Rec 0 1000 k (Some (repeat 7 700)) []) 1000 = Some ms').
Proof.
  split; [vm_compute; eauto|]. cbv zeta. split; [vm_compute; reflexivity|]. split; [vm_compute; reflexivity|]. split; [|split; [vm_compute; discriminate|vm_compute; eauto]].
  exists (8 * 19)%nat, (skipn (8 * 19) (flips (w_msg_tail 1000 (Some [1]) (Some [2; 3])) (w_msg_tail 1000 (Some [1]) (Some [3; 1])))), 0%nat.
  split; vm_compute; [reflexivity|repeat constructor].
Qed.
