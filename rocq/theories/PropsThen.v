(** * PropsThen: C67, what one reply said later replies do not take back *)
From Verif Require Import ThenProofs Demo.
From stdpp Require Import gmap list.
Open Scope Z_scope.
Open Scope list_scope.

(** A ListOffsets taken up after another has been answered finds no partition gone
    or shorter. *)
Theorem C67_list_list port ch A1 c1 corr1 client1 r1 ts1 s1 :
  let m1 := w_request 2 1 corr1 client1 (w_list_req r1 ts1) in
  l_header 2 1 corr1 client1 = true -> l_list r1 ts1 = true -> zlen (w_list_req r1 ts1) <= 4096 ->
  serving port ch A1 c1 m1 s1 ->
  answers c1 s1 (fun B1 rep1 => exists ents1, rep1 = w_reply corr1 (w_list_resp ents1) /\ same_shape ts1 ents1 /\
    forall A2 c2 corr2 client2 r2 ts2 s2,
    let m2 := w_request 2 1 corr2 client2 (w_list_req r2 ts2) in
    l_header 2 1 corr2 client2 = true -> l_list r2 ts2 = true -> zlen (w_list_req r2 ts2) <= 4096 ->
    serving port ch A2 c2 m2 s2 -> ((A1 ++ [OFrame c1 m1]) ++ B1) `prefix_of` A2 ->
    answers c2 s2 (fun _ rep2 => list_after (says_end ts1 ents1) corr2 ts2 rep2) (2 * entries ts2 + 5)) (2 * entries ts1 + 5).
Proof. exact (list_list port ch A1 c1 corr1 client1 r1 ts1 s1). Qed.
Print Assumptions C67_list_list.

(** A Fetch taken up after a ListOffsets has been answered comes past the end that
    was given. *)
Theorem C67_list_fetch port ch A1 c1 corr1 client1 r1 ts1 s1 :
  let m1 := w_request 2 1 corr1 client1 (w_list_req r1 ts1) in
  l_header 2 1 corr1 client1 = true -> l_list r1 ts1 = true -> zlen (w_list_req r1 ts1) <= 4096 ->
  serving port ch A1 c1 m1 s1 ->
  answers c1 s1 (fun B1 rep1 => exists ents1, rep1 = w_reply corr1 (w_list_resp ents1) /\ same_shape ts1 ents1 /\
    forall A2 c2 corr2 client2 r2 w2 mb2 ts2 s2,
    let m2 := w_request 1 2 corr2 client2 (w_fetch_req r2 w2 mb2 ts2) in
    l_header 1 2 corr2 client2 = true -> l_fetch r2 w2 mb2 ts2 = true -> zlen (w_fetch_req r2 w2 mb2 ts2) <= 4096 ->
    nonneg_offsets ts2 -> (length ts2 <= length (flat ts2))%nat ->
    serving port ch A2 c2 m2 s2 -> ((A1 ++ [OFrame c1 m1]) ++ B1) `prefix_of` A2 ->
    answers_right c2 s2 (fun B2 rep2 => posts_small ((A2 ++ [OFrame c2 m2]) ++ B2) ->
      fetch_after (says_end ts1 ents1) corr2 ts2 rep2)) (2 * entries ts1 + 5).
Proof. exact (list_fetch port ch A1 c1 corr1 client1 r1 ts1 s1). Qed.
Print Assumptions C67_list_fetch.

(** An OffsetFetch taken up after an OffsetCommit has been answered gives, for every
    offset acknowledged, that one or a higher one, unless one was set since. *)
Theorem C67_commit_offset_fetch port ch A1 c1 corr1 client1 g gen mem ret ts1 s1 :
  let m1 := w_request 8 2 corr1 client1 (w_commit_req g gen mem ret ts1) in
  l_header 8 2 corr1 client1 = true -> l_commit g gen mem ret ts1 = true -> zlen (w_commit_req g gen mem ret ts1) <= 4096 ->
  serving port ch A1 c1 m1 s1 ->
  answers c1 s1 (fun B1 rep1 => exists ents1, rep1 = w_reply corr1 (w_commit_resp ents1) /\ same_shape ts1 ents1 /\
    forall C c2 corr2 client2 ts2 s2,
    let A2 := ((A1 ++ [OFrame c1 m1]) ++ B1) ++ C in
    let m2 := w_request 9 1 corr2 client2 (w_off_req g ts2) in
    l_header 9 1 corr2 client2 = true -> l_off g ts2 = true -> zlen (w_off_req g ts2) <= 4096 ->
    serving port ch A2 c2 m2 s2 ->
    answers c2 s2 (fun B2 rep2 => off_after (says_done ts1 ents1) corr2 g ts2 (B1 ++ C ++ B2) rep2) (3 * entries ts2 + 6)) (2 * entries ts1 + 5).
Proof. exact (commit_off port ch A1 c1 corr1 client1 g gen mem ret ts1 s1). Qed.
Print Assumptions C67_commit_offset_fetch.

(** A Fetch taken up after SimplePost or ExtendedPost has returned gives the record
    posted, at its place, if it starts there or before. *)
Theorem C67_post_fetch port ch evs s0 A i A0 t p key v h ts0 c corr client r w mb ts s :
  let m := w_request 1 2 corr client (w_fetch_req r w mb ts) in
  run (init port ch) evs = (s0, A) ->
  calls (init port ch) [] evs !! i = Some (A0, CallPost t p key v h ts0) -> In (OReturn i) A ->
  l_header 1 2 corr client = true -> l_fetch r w mb ts = true -> zlen (w_fetch_req r w mb ts) <= 4096 ->
  nonneg_offsets ts -> (length ts <= length (flat ts))%nat ->
  serving port ch A c m s ->
  exists n tm, nth_error (tr_log t (as_int32 p) A) n = Some (Rec 0 tm key v h) /\ (forall x, ts0 = Some x -> tm = x) /\
  answers_right c s (fun B rep => posts_small ((A ++ [OFrame c m]) ++ B) ->
    exists res, rep = w_reply corr (w_fetch_resp 0 (fetch_ents ts res)) /\ length res = length (flat ts) /\
    forall k off mx x, nth_error (flat ts) k = Some (t, (as_int32 p, off, mx)) -> nth_error res k = Some x -> off <= Z.of_nat n ->
      exists pre post, snd x = w_records off (pre ++ Rec 0 tm key v h :: post) /\ off + zlen pre = Z.of_nat n).
Proof. exact (post_fetch port ch evs s0 A i A0 t p key v h ts0 c corr client r w mb ts s). Qed.
Print Assumptions C67_post_fetch.

(** After CreatePartitionTopics has returned, ListOffsets knows the partitions. *)
Theorem C67_create_list port ch evs s0 A i A0 tns p c corr client r ts s :
  let m := w_request 2 1 corr client (w_list_req r ts) in
  run (init port ch) evs = (s0, A) -> calls (init port ch) [] evs !! i = Some (A0, CallCreate tns p) -> In (OReturn i) A ->
  l_header 2 1 corr client = true -> l_list r ts = true -> zlen (w_list_req r ts) <= 4096 ->
  serving port ch A c m s ->
  answers c s (fun B rep => exists ents, rep = w_reply corr (w_list_resp ents) /\ same_shape ts ents /\
    forall t T j er tm o, In t tns -> In (t, (as_int32 p, T), (j, er, tm, o)) (pairs ts ents) -> er = 0) (2 * entries ts + 5).
Proof. exact (create_list port ch evs s0 A i A0 tns p c corr client r ts s). Qed.
Print Assumptions C67_create_list.

(** After SetConsumerGroupOffset has returned, for a partition that was there, OffsetFetch
    gives the offset set, as long as nothing else moves it. *)
Theorem C67_set_offset_fetch port ch evs s0 A i A0 t p g x c corr client ts s :
  let m := w_request 9 1 corr client (w_off_req g ts) in
  run (init port ch) evs = (s0, A) -> calls (init port ch) [] evs !! i = Some (A0, CallSet t p g x) -> In (OReturn i) A ->
  tr_has t (as_int32 p) A0 = true ->
  l_header 9 1 corr client = true -> l_off g ts = true -> zlen (w_off_req g ts) <= 4096 -> In (t, as_int32 p) (flat ts) ->
  serving port ch A c m s ->
  exists X Y, A = X ++ OSet i t (as_int32 p) g x :: Y /\
  answers c s (fun B rep => (forall o, In o (Y ++ B) -> ~ ConsumerSpec.moves t (as_int32 p) g o) ->
    exists ents, rep = w_reply corr (w_off_resp ents) /\
      (exists l, In (t, l) ents /\ In (as_int32 p, x, None, 0) l) /\
      (forall l o md er, In (t, l) ents -> In (as_int32 p, o, md, er) l -> o = x)) (3 * entries ts + 6).
Proof. exact (set_off port ch evs s0 A i A0 t p g x c corr client ts s). Qed.
Print Assumptions C67_set_offset_fetch.

(** Connection 0 asks for the end of (orders, 2), then a record is posted, then
    connection 1 asks for it, or fetches. *)
Definition then_run (m1 m2 : bytes) : list event := (demo_setup ++ demo_send m1) ++ [EvConn 0 ch0] ++ repeat (EvConn 0 ch0) 20 ++
  EvCall (CallPost topicA 2 None (Some [9]) [] (Some 5)) :: repeat (EvApi 4) 4 ++
  [EvAccept; EvConn 1 ch0; EvRecv 1 (w_frame m2)].
Definition then_state (m1 m2 : bytes) : sys := fst (step (fst (run (init 9092 []) (then_run m1 m2))) (EvConn 1 ch0)).
Definition then_trace (m1 m2 : bytes) : list obs := snd (run (init 9092 []) (then_run m1 m2)).
Definition then_B1 (m1 : bytes) : list obs := snd (run (demo_state m1) (repeat (EvConn 0 ch0) 20)).
Definition then_C (m1 m2 : bytes) : list obs := skipn (length ((demo_trace m1 ++ [OFrame 0 m1]) ++ then_B1 m1)) (then_trace m1 m2).
Definition then_reply (m1 m2 : bytes) : bytes := writes 1 (snd (run (then_state m1 m2) (repeat (EvConn 1 ch0) 20))).
Lemma then_serving m1 m2 : match snd (step (fst (run (init 9092 []) (then_run m1 m2))) (EvConn 1 ch0)) with
    OFrame c' m' :: _ => Nat.eqb 1 c' && beqb m2 m' | _ => false end = true ->
  serving 9092 [] (then_trace m1 m2) 1 m2 (then_state m1 m2).
Proof. unfold then_trace, then_state. generalize (then_run m1 m2) as evs. intros evs. apply serving_run. Qed.

Definition then_l : bytes := w_request 2 1 5 clientA (w_list_req (-1) [(topicA, [(2, -1)])]).
Definition then_f : bytes := w_request 1 2 7 clientA (w_fetch_req (-1) 0 1 [(topicA, [(2, 1, 1000)])]).
Example C67_ex :
  l_list (-1) [(topicA, [(2, -1)])] = true /\ l_fetch (-1) 0 1 [(topicA, [(2, 1, 1000)])] = true /\
  serving 9092 [] (demo_trace then_l) 0 then_l (demo_state then_l) /\
  writes 0 (then_B1 then_l) = w_reply 5 (w_list_resp [(topicA, [(2, 0, 77, 2)])]) /\
  says_end [(topicA, [(2, -1)])] [(topicA, [(2, 0, 77, 2)])] topicA 2 2 /\
  serving 9092 [] (then_trace then_l then_l) 1 then_l (then_state then_l then_l) /\
  then_trace then_l then_l = ((demo_trace then_l ++ [OFrame 0 then_l]) ++ then_B1 then_l) ++ then_C then_l then_l /\
  then_reply then_l then_l = w_reply 5 (w_list_resp [(topicA, [(2, 0, 77, 3)])]) /\
  serving 9092 [] (then_trace then_l then_f) 1 then_f (then_state then_l then_f) /\
  then_trace then_l then_f = ((demo_trace then_l ++ [OFrame 0 then_l]) ++ then_B1 then_l) ++ then_C then_l then_f /\
  then_reply then_l then_f = w_reply 7 (w_fetch_resp 0 (fetch_ents [(topicA, [(2, 1, 1000)])]
    [(3, w_records 1 (skipn 1 (tr_log topicA 2 (then_trace then_l then_f))))])).
Proof.
  split; [reflexivity|]. split; [reflexivity|]. split; [apply demo_serving; vm_compute; reflexivity|].
  split; [vm_compute; reflexivity|]. split; [exists 2, 77; left; reflexivity|].
  split; [apply then_serving; vm_compute; reflexivity|]. split; [vm_compute; reflexivity|]. split; [vm_compute; reflexivity|].
  split; [apply then_serving; vm_compute; reflexivity|]. split; vm_compute; reflexivity.
Qed.

(** Connection 0 commits 5, connection 1 is told 5 (it was 1). *)
Definition then_c : bytes := w_request 8 2 4 clientA (w_commit_req groupA 1 (w_text "m") 0 [(topicA, [(2, 5, None)])]).
Definition then_o : bytes := w_request 9 1 3 clientA (w_off_req groupA [(topicA, [2])]).
Example C67_ex2 :
  l_commit groupA 1 (w_text "m") 0 [(topicA, [(2, 5, None)])] = true /\ l_off groupA [(topicA, [2])] = true /\
  serving 9092 [] (demo_trace then_c) 0 then_c (demo_state then_c) /\
  writes 0 (then_B1 then_c) = w_reply 4 (w_commit_resp [(topicA, [(2, 0)])]) /\
  says_done [(topicA, [(2, 5, None)])] [(topicA, [(2, 0)])] topicA 2 5 /\ tr_off topicA 2 groupA (demo_trace then_c) = 1 /\
  serving 9092 [] (then_trace then_c then_o) 1 then_o (then_state then_c then_o) /\
  then_trace then_c then_o = ((demo_trace then_c ++ [OFrame 0 then_c]) ++ then_B1 then_c) ++ then_C then_c then_o /\
  then_reply then_c then_o = w_reply 3 (w_off_resp [(topicA, [(2, 5, None, 0)])]).
Proof.
  split; [reflexivity|]. split; [reflexivity|]. split; [apply demo_serving; vm_compute; reflexivity|].
  split; [vm_compute; reflexivity|]. split; [exists None, 2; left; reflexivity|]. split; [vm_compute; reflexivity|].
  split; [apply then_serving; vm_compute; reflexivity|]. split; vm_compute; reflexivity.
Qed.

(** The post made in between (call number 4) is the record at offset 2 there. *)
Example C67_ex3 :
  option_map snd (calls (init 9092 []) [] (then_run then_l then_f) !! 4%nat) = Some (CallPost topicA 2 None (Some [9]) [] (Some 5)) /\
  done_by 4 (then_trace then_l then_f) = [OTopic 4 topicA; OMade 4 topicA 2; OPosted 4 topicA 2 (Rec 0 5 None (Some [9]) []); OReturn 4] /\
  nth_error (tr_log topicA (as_int32 2) (then_trace then_l then_f)) 2 = Some (Rec 0 5 None (Some [9]) []) /\
  exists pre post, skipn 1 (tr_log topicA 2 (then_trace then_l then_f)) = pre ++ Rec 0 5 None (Some [9]) [] :: post /\ 1 + zlen pre = 2.
Proof.
  split; [vm_compute; reflexivity|]. split; [vm_compute; reflexivity|]. split; [vm_compute; reflexivity|].
  exists [Rec 0 77 None (Some []) [(w_text "h", None)]], []. split; vm_compute; reflexivity.
Qed.

(** In the same setting topic bills was created with partition 0 by call 2, and the
    offset of group g set to 1 by call 3. *)
Definition then_b : bytes := w_request 2 1 5 clientA (w_list_req (-1) [(topicB, [(0, -2)])]).
Example C67_ex4 :
  option_map snd (calls (init 9092 []) [] (demo_setup ++ demo_send then_b) !! 2%nat) = Some (CallCreate [topicB] 0) /\
  done_by 2 (demo_trace then_b) = [OTopic 2 topicB; OMade 2 topicB 0; OReturn 2] /\ serving 9092 [] (demo_trace then_b) 0 then_b (demo_state then_b) /\
  demo_reply then_b 20 = w_reply 5 (w_list_resp [(topicB, [(0, 0, 0, 0)])]) /\
  option_map (fun x : list obs * call => (tr_has topicA (as_int32 2) (fst x), snd x)) (calls (init 9092 []) [] (demo_setup ++ demo_send then_o) !! 3%nat) =
    Some (true, CallSet topicA 2 groupA 1) /\
  done_by 3 (demo_trace then_o) = [OSet 3 topicA 2 groupA 1; OReturn 3] /\
  serving 9092 [] (demo_trace then_o) 0 then_o (demo_state then_o) /\
  demo_reply then_o 20 = w_reply 3 (w_off_resp [(topicA, [(2, 1, None, 0)])]).
Proof.
  split; [vm_compute; reflexivity|]. split; [vm_compute; reflexivity|].
  split; [apply demo_serving; vm_compute; reflexivity|]. split; [vm_compute; reflexivity|].
  split; [vm_compute; reflexivity|]. split; [vm_compute; reflexivity|].
  split; [apply demo_serving; vm_compute; reflexivity|vm_compute; reflexivity].
Qed.
