(** * PropsAlias: posted slices are shared with the caller (C36) *)
From Verif Require Import AliasProofs Alias WireSpec CrcSpec ReplySpec AliasSpec.
From Coq Require Import List.
Open Scope Z_scope.
Open Scope list_scope.

(** A finished Fetch delivers consecutive records of the log from its offset.
    The key and the value are those found in the caller's memory when the reply
    was made; the checksum is that of what was found there earlier, when the
    record was picked up. *)
Theorem C36_shared_delivery h log off max es out :
  let s := arun (ASys h log (afetch off max)) es in
  let H := heap_at (ASys h log (afetch off max)) es in
  heap_bytes h -> fPc (aFetch s) = PDone out ->
  exists ms, out = w_int32 (shared_size (map moRec ms)) ++ w_shareds H off ms /\
    map moRec ms = firstn (length ms) (skipn (Z.to_nat off) (log ++ posted es)) /\
    Forall (in_order (length es)) ms.
Proof. exact (shared_posted h log off max es out). Qed.
Print Assumptions C36_shared_delivery.

(** If the caller does not write to the posted slices, the records are delivered
    as posted, with their checksums. *)
Theorem C36_unmodified h log off max es out :
  let s := arun (ASys h log (afetch off max)) es in let all := log ++ posted es in
  heap_bytes h -> fPc (aFetch s) = PDone out ->
  (forall r, In r all -> inside h (aKey r) /\ inside h (aVal r)) ->
  (forall a i b r, In (AWrite a i b) es -> In r all -> ~ hits_slice a i (aKey r) /\ ~ hits_slice a i (aVal r)) ->
  exists n, let rs := map (content h) (firstn n (skipn (Z.to_nat off) all)) in
    out = w_int32 (log_size rs) ++ w_records off rs.
Proof. exact (unmodified_posted h log off max es out). Qed.
Print Assumptions C36_unmodified.

(** If the caller does not write while the Fetch runs, the records are delivered
    with the content the slices have then, whatever was posted, and correct
    checksums. *)
Theorem C36_modified_before h log off max es1 es2 out :
  let s1 := arun (ASys h log (afetch off max)) es1 in
  let s := arun s1 es2 in let all := log ++ posted es1 ++ posted es2 in
  heap_bytes h -> existsb is_fetch es1 = false -> existsb is_write es2 = false -> fPc (aFetch s) = PDone out ->
  (forall r, In r all -> inside h (aKey r) /\ inside h (aVal r)) ->
  exists n, let rs := map (content (aHeap s1)) (firstn n (skipn (Z.to_nat off) all)) in
    out = w_int32 (log_size rs) ++ w_records off rs.
Proof. exact (current_posted h log off max es1 es2 out). Qed.
Print Assumptions C36_modified_before.

(** A record whose value was changed, in up to four neighbouring bytes, between
    the two readings is delivered with a wrong checksum. *)
Theorem C36_modified_between H off m a w w' c :
  let r := moRec m in let v1 := view (H (moCrcVal m)) (aVal r) in let v2 := view (H (moVal m)) (aVal r) in
  (forall n, heap_bytes (H n)) -> view (H (moKey m)) (aKey r) = view (H (moCrcKey m)) (aKey r) ->
  v1 = Some (a ++ w ++ c) -> v2 = Some (a ++ w' ++ c) -> length w = length w' -> (length w <= 4)%nat -> w <> w' ->
  exists size crc tail, (w_shared H off m = w_int64 off ++ w_int32 size ++ w_int32 crc ++ tail) /\
    (tail = w_msg_tail (aTs r) (view (H (moKey m)) (aKey r)) v2) /\ w_int32 crc <> w_int32 (crc32c_spec tail).
Proof. exact (changed_between H off m a w w' c). Qed.
Print Assumptions C36_modified_between.

Definition hi : heap := [[104; 105]; [7]].
Definition sHi : option slice := Some (Slice 0 0 2).
Definition fetches (n : nat) : list aevent := repeat (AFetch false) n.
(** The checksum field of the first message of a set, and the part it is for. *)
Definition first_crc (out : bytes) : bytes := firstn 4 (skipn 16 out).
Definition first_tail (out : bytes) : bytes := firstn (Z.to_nat (be_get (firstn 4 (skipn 12 out)) - 16)) (skipn 20 out).

(** So the checksum of a delivered record need not match it: the caller writes
    after the record was picked up. *)
Theorem C36_crc_always_matches_refuted : exists h log off max es out,
  heap_bytes h /\ (forall r, In r log -> inside h (aKey r) /\ inside h (aVal r)) /\
  fPc (aFetch (arun (ASys h log (afetch off max)) es)) = PDone out /\
  first_crc out <> w_int32 (crc32c_spec (first_tail out)).
Proof.
  exists hi, [ARec 5 None sHi], 0, 1000, (fetches 4 ++ [AWrite 0 1 111] ++ fetches 3).
  eexists. split; [repeat constructor|]. split; [intros r [<-|[]]; cbn; split; [exact I|lia]|].
  split; [vm_compute; reflexivity|]. vm_compute. discriminate.
Qed.
Print Assumptions C36_crc_always_matches_refuted.

(** The same without the write; with the write before the Fetch; and a buffer
    posted twice with a change in between, which is delivered twice with its
    last content. *)
Example C36_ex :
  let run es := fPc (aFetch (arun (ASys hi [ARec 5 None sHi] (afetch 0 1000)) es)) in
  let r1 := Rec 0 5 None (Some [104; 105]) [] in let r2 := Rec 0 5 None (Some [104; 111]) [] in
  let r3 := Rec 0 6 (Some [7]) (Some [104; 111]) [] in
  run (fetches 7) = PDone (w_int32 36 ++ w_records 0 [r1]) /\
  run ([AWrite 0 1 111] ++ fetches 7) = PDone (w_int32 36 ++ w_records 0 [r2]) /\
  run ([AWrite 0 1 111; APost 6 (Some (Slice 1 0 1)) sHi] ++ fetches 12) = PDone (w_int32 73 ++ w_records 0 [r2; r3]).
Proof. cbv zeta. repeat split; vm_compute; reflexivity. Qed.
(** The hypotheses of [C36_modified_between] are met by the run above. *)
Example C36_ex_between :
  let H := heap_at (ASys hi [ARec 5 None sHi] (afetch 0 1000)) (fetches 4 ++ [AWrite 0 1 111] ++ fetches 3) in
  let m := Moment (ARec 5 None sHi) 1 2 5 6 in
  view (H (moCrcVal m)) (aVal (moRec m)) = Some ([104] ++ [105] ++ []) /\
  view (H (moVal m)) (aVal (moRec m)) = Some ([104] ++ [111] ++ []).
Proof. cbv zeta. split; vm_compute; reflexivity. Qed.
