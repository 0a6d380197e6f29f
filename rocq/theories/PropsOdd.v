(** * PropsOdd: the same request written differently (C53) *)
From Verif Require Import OddReplies Demo.
From stdpp Require Import gmap list.
Open Scope Z_scope.
Open Scope list_scope.

(** Connection [c] takes up a well-formed request [m] and the process lives on.
    Then there is an execution, the same but for the bytes of this request, in
    which [c] takes up a plain request and the state after that is the same.  The
    plain request is [m] with the null strings written as length 0 or -1. *)
Theorem C53_as_plain port ch A c m s key ver corr h b extra :
  serving port ch A c m s -> sCrash s = false -> is_request m key ver corr h b extra ->
  exists sh client hc body A' pre post, let m' := w_request key ver corr client (body ++ extra) in
    layout key ver = Some sh /\ h = w_int16 key ++ w_int16 ver ++ w_int32 corr ++ hc /\
    reworded SStr hc (w_nstring client) /\ reworded sh b body /\
    l_header key ver corr client = true /\ plain_body key body /\ zlen body <= 4096 /\
    same_but_read c A A' /\ reads c A = pre ++ m ++ post /\ reads c A' = pre ++ m' ++ post /\ frames c A' = frames c A /\
    serving port ch A' c m' s.
Proof. exact (odd_as_plain port ch A c m s key ver corr h b extra). Qed.
Print Assumptions C53_as_plain.

(** The replies of C16, C18-C20, C23 and C26, for every well-formed request. *)
Theorem C53_commit port ch A c m s corr h b :
  serving port ch A c m s -> sCrash s = false -> is_request m 8 2 corr h b [] ->
  exists g gen mem ret ts, reworded (SRec [SStr; SInt 4; SStr; SInt 8; s_topics (SRec [SInt 4; SInt 8; SStr])]) b (w_commit_req g gen mem ret ts) /\
    answers c s (commit_reply (A ++ [OFrame c m]) c corr g ts) (2 * entries ts + 5).
Proof. exact (odd_commit port ch A c m s corr h b). Qed.
Print Assumptions C53_commit.

Theorem C53_offset_fetch port ch A c m s corr h b :
  serving port ch A c m s -> sCrash s = false -> is_request m 9 1 corr h b [] ->
  exists g ts, reworded (SRec [SStr; s_topics (SInt 4)]) b (w_off_req g ts) /\
    answers c s (off_reply (A ++ [OFrame c m]) corr g ts) (3 * entries ts + 6).
Proof. exact (odd_off port ch A c m s corr h b). Qed.
Print Assumptions C53_offset_fetch.

Theorem C53_list port ch A c m s corr h b :
  serving port ch A c m s -> sCrash s = false -> is_request m 2 1 corr h b [] ->
  exists replica ts, reworded (SRec [SInt 4; s_topics (SRec [SInt 4; SInt 8])]) b (w_list_req replica ts) /\
    answers c s (list_reply (A ++ [OFrame c m]) corr ts) (2 * entries ts + 5).
Proof. exact (odd_list port ch A c m s corr h b). Qed.
Print Assumptions C53_list.

Theorem C53_fetch port ch A c m s corr h b :
  serving port ch A c m s -> sCrash s = false -> is_request m 1 2 corr h b [] ->
  exists replica wait minb ts,
    reworded (SRec [SInt 4; SInt 4; SInt 4; s_topics (SRec [SInt 4; SInt 8; SInt 4])]) b (w_fetch_req replica wait minb ts) /\
    (nonneg_offsets ts -> (length ts <= length (flat ts))%nat ->
     answers_right c s (fetch_reply (A ++ [OFrame c m]) corr wait ts)).
Proof. exact (odd_fetch port ch A c m s corr h b). Qed.
Print Assumptions C53_fetch.

Theorem C53_metadata port ch A c m s corr h b :
  serving port ch A c m s -> sCrash s = false -> is_request m 3 1 corr h b [] ->
  exists topics, reworded (SRec [SArr SStr]) b (w_metadata_req topics) /\
    answers c s (fun _ r => r = w_reply corr (w_metadata_resp [(100, w_text "localhost", port, None)] 500
       (map (fun t => (0, t, false, [(0, 2, 100, [1], [1])])) topics))) 4.
Proof. exact (odd_metadata port ch A c m s corr h b). Qed.
Print Assumptions C53_metadata.

(** The rest of the APIs: C27, C38 and C12. *)
Theorem C53_find port ch A c m s corr h b :
  serving port ch A c m s -> sCrash s = false -> is_request m 10 0 corr h b [] ->
  answers c s (fun _ r => r = w_reply corr (w_find_resp 0 100 (w_text "localhost") port)) 4.
Proof. exact (odd_find port ch A c m s corr h b). Qed.
Print Assumptions C53_find.

Theorem C53_join port ch A c m s corr h b :
  serving port ch A c m s -> sCrash s = false -> is_request m 11 1 corr h b [] ->
  exists leader me, leader <> me /\
    answers c s (fun _ r => r = w_reply corr (w_join_resp 0 0 (w_text "roundrobin") leader me [(w_text "you", None)])) 4.
Proof. exact (odd_join port ch A c m s corr h b). Qed.
Print Assumptions C53_join.

Theorem C53_heartbeat port ch A c m s corr h b :
  serving port ch A c m s -> sCrash s = false -> is_request m 12 0 corr h b [] ->
  answers c s (fun _ r => r = w_reply corr (w_error_resp 0)) 4.
Proof. exact (odd_heartbeat port ch A c m s corr h b). Qed.
Print Assumptions C53_heartbeat.

Theorem C53_leave port ch A c m s corr h b :
  serving port ch A c m s -> sCrash s = false -> is_request m 13 0 corr h b [] ->
  answers c s (fun _ r => r = w_reply corr (w_error_resp 0)) 4.
Proof. exact (odd_leave port ch A c m s corr h b). Qed.
Print Assumptions C53_leave.

Theorem C53_versions port ch A c m s corr h b :
  serving port ch A c m s -> sCrash s = false -> is_request m 18 0 corr h b [] ->
  answers c s (fun _ r => r = w_reply corr (w_versions_resp 0
    [(1, 2, 2); (2, 1, 1); (3, 1, 1); (8, 2, 2); (9, 1, 1); (10, 0, 0); (11, 1, 1); (12, 0, 0); (13, 0, 0); (14, 0, 0); (18, 0, 0)])) 5.
Proof. exact (odd_versions port ch A c m s corr h b). Qed.
Print Assumptions C53_versions.

(** A SyncGroup request with assignments ends the process, however written. *)
Theorem C53_sync port ch A c m s corr h b :
  serving port ch A c m s -> sCrash s = false -> is_request m 14 0 corr h b [] ->
  exists g gen mem ps, reworded (SRec [SStr; SInt 4; SStr; SArr (SRec [SStr; SArr (SInt 1)])]) b (w_sync_req g gen mem ps) /\
    (ps = [] -> answers c s (sync_reply (A ++ [OFrame c m]) corr) 5) /\ (ps <> [] -> rejects c s 0).
Proof. exact (odd_sync port ch A c m s corr h b). Qed.
Print Assumptions C53_sync.

(** A client id of length -5, a member id of length -300, metadata of length
    -32768; and the same request as the grammar writes it. *)
Example C53_ex :
  let h := w_int16 8 ++ w_int16 2 ++ w_int32 6 ++ w_int16 (-5) in
  let b := w_string groupA ++ w_int32 0 ++ w_int16 (-300) ++ w_int64 0 ++
    w_int32 1 ++ (w_string topicA ++ w_int32 1 ++ (w_int32 2 ++ w_int64 5 ++ w_int16 (-32768))) in
  let m := h ++ b ++ [] in
  let m' := w_request 8 2 6 None (w_commit_req groupA 0 [] 0 [(topicA, [(2, 5, None)])]) in
  is_request m 8 2 6 h b [] /\ serving 9092 [] (demo_trace m) 0 m (demo_state m) /\ sCrash (demo_state m) = false /\
  m <> m' /\ demo_reply m 20 = w_reply 6 (w_commit_resp [(topicA, [(2, 0)])]) /\ demo_reply m' 20 = demo_reply m 20.
Proof.
  cbn zeta. split; [|split; [apply demo_serving; vm_compute; reflexivity|split; [vm_compute; reflexivity|split; [vm_compute; discriminate|split; vm_compute; reflexivity]]]].
  split; [reflexivity|]. split; [|split; [vm_compute; discriminate|]].
  - exists (w_int16 (-5)). split; [reflexivity|]. split; [apply p_null; reflexivity|]. repeat split.
  - eexists. split; [reflexivity|]. split; [|vm_compute; discriminate].
    apply (p_rec _ [w_string groupA; w_int32 0; w_int16 (-300); w_int64 0; w_int32 1 ++ (w_string topicA ++ w_int32 1 ++ (w_int32 2 ++ w_int64 5 ++ w_int16 (-32768)))]).
    constructor; [apply p_str; reflexivity|]. constructor; [apply p_int; reflexivity|]. constructor; [apply p_null; reflexivity|].
    constructor; [apply p_int; reflexivity|]. constructor; [|constructor].
    apply (p_arr _ [w_string topicA ++ w_int32 1 ++ (w_int32 2 ++ w_int64 5 ++ w_int16 (-32768))]); [reflexivity|]. constructor; [|constructor].
    apply (p_rec _ [w_string topicA; w_int32 1 ++ (w_int32 2 ++ w_int64 5 ++ w_int16 (-32768))]).
    constructor; [apply p_str; reflexivity|]. constructor; [|constructor].
    apply (p_arr _ [w_int32 2 ++ w_int64 5 ++ w_int16 (-32768)]); [reflexivity|]. constructor; [|constructor].
    apply (p_rec _ [w_int32 2; w_int64 5; w_int16 (-32768)]).
    constructor; [apply p_int; reflexivity|]. constructor; [apply p_int; reflexivity|]. constructor; [apply p_null; reflexivity|constructor].
Qed.

(** A heartbeat without a client id, its group written with length -2, its member with
    length -1. *)
Example C53_ex_heartbeat :
  let h := w_int16 12 ++ w_int16 0 ++ w_int32 6 ++ w_int16 (-1) in
  let b := w_int16 (-2) ++ w_int32 3 ++ w_int16 (-1) in
  let m := h ++ b ++ [] in
  is_request m 12 0 6 h b [] /\ serving 9092 [] (demo_trace m) 0 m (demo_state m) /\ sCrash (demo_state m) = false /\
  demo_reply m 20 = [0; 0; 0; 6; 0; 0; 0; 6; 0; 0].
Proof.
  cbn zeta. split; [|split; [apply demo_serving; vm_compute; reflexivity|split; vm_compute; reflexivity]].
  split; [reflexivity|]. split; [|split; [vm_compute; discriminate|]].
  - exists (w_int16 (-1)). split; [reflexivity|]. split; [apply p_null; reflexivity|]. repeat split.
  - eexists. split; [reflexivity|]. split; [|vm_compute; discriminate].
    apply (p_rec _ [w_int16 (-2); w_int32 3; w_int16 (-1)]).
    constructor; [apply p_null; reflexivity|]. constructor; [apply p_int; reflexivity|]. constructor; [apply p_null; reflexivity|constructor].
Qed.
