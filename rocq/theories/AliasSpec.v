(** * AliasSpec: what a Fetch delivers of shared slices *)
From Verif Require Import Alias WireSpec CrcSpec.
Open Scope Z_scope.
Open Scope list_scope.

(** The caller's memory after the first [n] events. *)
Definition heap_at (s : asys) (es : list aevent) (n : nat) : heap := aHeap (arun s (firstn n es)).

(** A delivered record and the moments its key and value were read: for the
    checksum, and for the reply. *)
Record moment := Moment { moRec : arec; moCrcKey : nat; moCrcVal : nat; moKey : nat; moVal : nat }.
Definition in_order (n : nat) (m : moment) : Prop :=
  (moCrcKey m <= moCrcVal m /\ moCrcVal m <= moKey m /\ moKey m <= moVal m /\ moVal m <= n)%nat.

Definition arec_size (r : arec) : Z := 34 + slen (aKey r) + slen (aVal r).
(** The message on the wire, [H] being the memory over time. *)
Definition w_shared (H : nat -> heap) (off : Z) (m : moment) : bytes :=
  let r := moRec m in
  w_message off (arec_size r)
    (crc32c_spec (w_msg_tail (aTs r) (view (H (moCrcKey m)) (aKey r)) (view (H (moCrcVal m)) (aVal r))))
    (aTs r) (view (H (moKey m)) (aKey r)) (view (H (moVal m)) (aVal r)).
Fixpoint w_shareds (H : nat -> heap) (off : Z) (ms : list moment) : bytes :=
  match ms with [] => [] | m :: ms' => w_shared H off m ++ w_shareds H (off + 1) ms' end.
Definition shared_size (rs : list arec) : Z := fold_right (fun r n => arec_size r + n) 0 rs.

(** The arrays hold bytes. *)
Definition heap_bytes (h : heap) : Prop := Forall (fun a => all_bytes a = true) h.
(** The slice lies within its array. *)
Definition inside (h : heap) (o : option slice) : Prop :=
  match o with Some s => (sOff s + sLen s <= length (nth (sArr s) h []))%nat | None => True end.
(** The write changes a byte of the slice. *)
Definition hits_slice (a i : nat) (o : option slice) : Prop :=
  match o with Some s => sArr s = a /\ (sOff s <= i < sOff s + sLen s)%nat | None => False end.
(** The record with the content its slices have now. *)
Definition content (h : heap) (r : arec) : krecord := Rec 0 (aTs r) (view h (aKey r)) (view h (aVal r)) [].

(** The records the caller posts, in order. *)
Definition posted (es : list aevent) : list arec :=
  flat_map (fun e => match e with APost ts k v => [ARec ts k v] | _ => [] end) es.
