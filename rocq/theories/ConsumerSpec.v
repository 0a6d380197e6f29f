(** * ConsumerSpec: a client that reads its offset, fetches, and commits *)
From Verif Require Export ReplySpec.
From stdpp Require Import list.
Open Scope Z_scope.
Open Scope list_scope.

(** Connection [c] takes up request [m] at trace [A]; at trace [A'] exactly the
    bytes [r] have been written to it, and no other request of it taken up. *)
Definition dialogue (port : Z) (ch : list nat) (A : list obs) (c : nat) (m r : bytes) (A' : list obs) : Prop :=
  exists s evs s' B, serving port ch A c m s /\ run s evs = (s', B) /\ sends_ok c evs /\
    frames c B = [] /\ writes c B = r /\ A' = A ++ OFrame c m :: B.

(** A message as a client sees it: timestamp, key, value. *)
Definition msg : Type := Z * option bytes * option bytes.
Definition msg_of_rec (r : krecord) : msg := (rTs r, rKey r, rVal r).
Definition rec_of_msg (m : msg) : krecord := let '(ts, k, v) := m in Rec 0 ts k v [].
(** It can be decoded from bytes. *)
Definition msg_ok (m : msg) : Prop := l_i64 (rTs (rec_of_msg m)) = true /\ rec_size (rec_of_msg m) <= 2147483647.

Section Client.
Context (port : Z) (ch : list nat) (t : bytes) (p : Z) (g : bytes).

(** OffsetFetch of (t, p) for group g; the reply says [o]. *)
Definition asks_offset (A : list obs) (o : Z) (A' : list obs) : Prop :=
  exists c corr client md er,
    l_header 9 1 corr client = true /\ l_off g [(t, [p])] = true /\ zlen (w_off_req g [(t, [p])]) <= 4096 /\
    l_i64 o = true /\
    dialogue port ch A c (w_request 9 1 corr client (w_off_req g [(t, [p])]))
      (w_reply corr (w_off_resp [(t, [(p, o, md, er)])])) A'.

(** Fetch of (t, p) from offset [o] with some limit and waiting time; the reply
    holds the messages [batch]. *)
Definition gets_batch (A : list obs) (o : Z) (batch : list msg) (A' : list obs) : Prop :=
  exists c corr client r w mb max er hw,
    l_header 1 2 corr client = true /\ l_fetch r w mb [(t, [(p, o, max)])] = true /\
    zlen (w_fetch_req r w mb [(t, [(p, o, max)])]) <= 4096 /\ Forall msg_ok batch /\
    dialogue port ch A c (w_request 1 2 corr client (w_fetch_req r w mb [(t, [(p, o, max)])]))
      (w_reply corr (w_fetch_resp 0 [(t, [(p, er, hw, w_records o (map rec_of_msg batch))])])) A'.

(** An observation that moves the group's offset. *)
Definition moves (x : obs) : Prop :=
  match x with
  | OSet _ t' p' g' _ | OCommit _ t' p' g' _ => (t', p', g') = (t, p, g)
  | _ => False
  end.
(** From [A] to [A'] nobody moves the group's offset, or only connection [c]. *)
Definition unmoved (A A' : list obs) : Prop :=
  exists D, A' = A ++ D /\ forall x, In x D -> ~ moves x.
Definition moved_by (c : nat) (A A' : list obs) : Prop :=
  exists D, A' = A ++ D /\ forall x, In x D -> moves x -> exists o, x = OCommit c t p g o.

(** OffsetCommit of offset [o], acknowledged with error code 0; meanwhile nobody
    else moves the group's offset. *)
Definition commits_to (A : list obs) (o : Z) (A' : list obs) : Prop :=
  exists c corr client gen mem ret md,
    l_header 8 2 corr client = true /\ l_commit g gen mem ret [(t, [(p, o, md)])] = true /\
    zlen (w_commit_req g gen mem ret [(t, [(p, o, md)])]) <= 4096 /\
    dialogue port ch A c (w_request 8 2 corr client (w_commit_req g gen mem ret [(t, [(p, o, md)])]))
      (w_reply corr (w_commit_resp [(t, [(p, 0)])])) A' /\
    moved_by c A A'.

(** The client's loop, started at [A0].  Now it is [A], the messages received so
    far are [got], the last Fetch was taken up at [F].  Between and during the
    requests anything may happen (posts, other clients, restarts), except that
    nobody else moves this group's offset. *)
Inductive consumes (A0 : list obs) : list obs -> list msg -> list obs -> Prop :=
| con_start : consumes A0 A0 [] []
| con_round A got F A1 o A1' A2 batch A2' A3 A3' :
    consumes A0 A got F ->
    A `prefix_of` A1 -> asks_offset A1 o A1' ->
    A1' `prefix_of` A2 -> gets_batch A2 o batch A2' ->
    A2' `prefix_of` A3 -> unmoved A A3 ->
    commits_to A3 (o + zlen batch) A3' ->
    consumes A0 A3' (got ++ batch) A2.
End Client.
