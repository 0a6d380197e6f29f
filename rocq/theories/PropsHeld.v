(** * PropsHeld: what a connection keeps in memory (C63) *)
From Verif Require Import HeldProofs Demo.
From stdpp Require Import gmap list.
Open Scope Z_scope.
Open Scope list_scope.

(** [rest]: the bytes read from connection c and not yet taken up (C09).  While a
    request is served these are at most 8191; at any time they are less than the
    frame they begin with and one more Read. *)
Theorem C63_unread c port ch evs s os rest : run (init port ch) evs = (s, os) -> framed_with c os rest ->
  (busy_since_read c os -> zlen rest <= 8191) /\
  (4 <= zlen rest -> zlen rest < 4 + be_get (firstn 4 rest) + 8192).
Proof. exact (held_always c port ch evs s os rest). Qed.
Print Assumptions C63_unread.

(** The reply to a Fetch has no more bytes than the request allows for: per
    partition the largest limit given (and 18), per topic its name (and 6), and 16. *)
Theorem C63_fetch_size port ch A c corr client r w mb ts s :
  let m := w_request 1 2 corr client (w_fetch_req r w mb ts) in
  l_header 1 2 corr client = true -> l_fetch r w mb ts = true -> zlen (w_fetch_req r w mb ts) <= 4096 ->
  nonneg_offsets ts -> (length ts <= length (flat ts))%nat ->
  serving port ch A c m s ->
  answers_right c s (fun B rep => posts_small ((A ++ [OFrame c m]) ++ B) -> zlen rep <= fetch_room ts).
Proof. exact (fetch_size port ch A c corr client r w mb ts s). Qed.
Print Assumptions C63_fetch_size.

(** Both are reached: the last byte of a request comes with 8191 more; *)
Example C63_ex : let m := w_request 18 0 5 clientA [] in
  let evs := [EvAccept; EvConn 0 ch0; EvRecv 0 (firstn 15 (w_frame m)); EvConn 0 ch0;
    EvRecv 0 (skipn 15 (w_frame m) ++ repeat 0 (Z.to_nat 8191)); EvConn 0 ch0] in
  let os := snd (run (init 9092 []) evs) in
  framed_with 0 os (repeat 0 (Z.to_nat 8191)) /\ busy_since_read 0 os.
Proof.
  cbv zeta. split; [split; [apply (bool_decide_unpack _); vm_compute; exact I|]|].
  - match goal with |- Forall _ ?l => assert (E : l = [w_request 18 0 5 clientA []]) by (vm_compute; reflexivity); rewrite E end.
    repeat constructor.
  - match goal with |- busy_since_read 0 (snd (run ?i ?l)) =>
      change (busy_since_read 0 (snd (run i (firstn 5 l ++ [EvConn 0 ch0])))); rewrite ServerProofs.run_app; cbn [snd];
      exists (snd (run i (firstn 5 l))), (snd (run (fst (run i (firstn 5 l))) [EvConn 0 ch0])) end.
    split; [reflexivity|]. split; [|vm_compute; reflexivity].
    match goal with |- ?l <> _ => assert (E : l = [w_request 18 0 5 clientA []]) by (vm_compute; reflexivity); rewrite E; discriminate end.
Qed.
(** all records of a partition fit the limit exactly. *)
Example C63_ex_fetch : let ts := [(topicA, [(2, 0, 71)])] in
  let m := w_request 1 2 6 clientA (w_fetch_req (-1) 0 1 ts) in
  l_header 1 2 6 clientA = true /\ l_fetch (-1) 0 1 ts = true /\ zlen (w_fetch_req (-1) 0 1 ts) <= 4096 /\
  nonneg_offsets ts /\ (length ts <= length (flat ts))%nat /\
  serving 9092 [] (demo_trace m) 0 m (demo_state m) /\ zlen (demo_reply m 60) = 117 /\ fetch_room ts = 117.
Proof.
  cbv zeta. split; [reflexivity|]. split; [reflexivity|]. split; [vm_compute; discriminate|].
  split; [repeat constructor; vm_compute; discriminate|]. split; [vm_compute; repeat constructor|].
  split; [apply demo_serving; vm_compute; reflexivity|]. split; vm_compute; reflexivity.
Qed.
