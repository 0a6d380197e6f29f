(** * PropsSnap: C65, the reply to a Fetch is right at one moment *)
From Verif Require Import SnapProofs Demo.
From stdpp Require Import gmap list.
Open Scope Z_scope.
Open Scope list_scope.

(** There is one moment between taking up the Fetch and its reply at which every
    partition held exactly the records given for it (C24: the k-th of them is given
    for all partitions of the k-th topic). *)
Theorem C65_snapshot port ch A c corr client r w mb ts s :
  let m := w_request 1 2 corr client (w_fetch_req r w mb ts) in
  l_header 1 2 corr client = true -> l_fetch r w mb ts = true -> zlen (w_fetch_req r w mb ts) <= 4096 ->
  nonneg_offsets ts -> (length ts <= length (flat ts))%nat ->
  serving port ch A c m s ->
  answers_right c s (snapshot (A ++ [OFrame c m]) corr ts).
Proof. exact (fetch_snapshot port ch A c corr client r w mb ts s). Qed.
Print Assumptions C65_snapshot.

(** So records posted one after the other to several partitions are not seen in
    another order. *)
Theorem C65_in_order port ch A c corr client r w mb ts s :
  let m := w_request 1 2 corr client (w_fetch_req r w mb ts) in
  l_header 1 2 corr client = true -> l_fetch r w mb ts = true -> zlen (w_fetch_req r w mb ts) <= 4096 ->
  nonneg_offsets ts -> (length ts <= length (flat ts))%nat ->
  serving port ch A c m s ->
  answers_right c s (fun B rep => posts_small ((A ++ [OFrame c m]) ++ B) ->
    exists res, rep = w_reply corr (w_fetch_resp 0 (fetch_ents ts res)) /\ length res = length (flat ts) /\
      in_order_of_posting (A ++ [OFrame c m]) B (flat ts) res).
Proof. exact (fetch_in_order port ch A c corr client r w mb ts s). Qed.
Print Assumptions C65_in_order.

(** Not so for partitions that are made after the request was taken up: a record
    can be missing although one posted later is there. *)
Theorem C65_new_partition_refuted : exists port ch A c s corr client r w mb ts res evs s' B,
  let m := w_request 1 2 corr client (w_fetch_req r w mb ts) in
  serving port ch A c m s /\ run s evs = (s', B) /\ sends_ok c evs /\
  writes c B = w_reply corr (w_fetch_resp 0 (fetch_ents ts res)) /\
  forall B0, B0 `prefix_of` B -> ~ Forall2 (exactly ((A ++ [OFrame c m]) ++ B0)) (flat ts) res.
Proof. exact late_partition. Qed.
Print Assumptions C65_new_partition_refuted.

(** While the handler is between two partitions a record is posted to the one it has
    looked at, then one to the one it has not: it gets both. *)
Example C65_ex : let ts := [(topicA, [(2, 0, 1000)]); (topicB, [(0, 0, 1000)])] in
  let m := w_request 1 2 6 clientA (w_fetch_req (-1) 0 1 ts) in
  let post t p i := EvCall (CallPost t p None (Some [9]) [] (Some 5)) :: repeat (EvApi i) 4 in
  let B := snd (run (demo_state m) (repeat (EvConn 0 ch0) 12 ++ post topicA 2 4%nat ++ post topicB 0 5%nat ++ repeat (EvConn 0 ch0) 13)) in
  let A := demo_trace m ++ [OFrame 0 m] in
  l_header 1 2 6 clientA = true /\ l_fetch (-1) 0 1 ts = true /\ zlen (w_fetch_req (-1) 0 1 ts) <= 4096 /\
  nonneg_offsets ts /\ (length ts <= length (flat ts))%nat /\ serving 9092 [] (demo_trace m) 0 m (demo_state m) /\
  writes 0 B = w_reply 6 (w_fetch_resp 0 (fetch_ents ts
    [(3, w_records 0 (tr_log topicA 2 (A ++ B))); (1, w_records 0 (tr_log topicB 0 (A ++ B)))])).
Proof.
  cbv zeta. split; [reflexivity|]. split; [reflexivity|]. split; [vm_compute; discriminate|].
  split; [repeat constructor; vm_compute; discriminate|]. split; [vm_compute; repeat constructor|].
  split; [apply demo_serving; vm_compute; reflexivity|]. vm_compute. reflexivity.
Qed.
