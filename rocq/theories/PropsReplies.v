(** * PropsReplies: what the mock answers (C12, C16, C18-C24, C26, C27, C38)

    In all theorems connection [c] has just taken up request [m] after the trace
    [A] ([serving]); the conclusion is about whatever happens next. *)
From Verif Require Import VersionsProofs HugeProofs Demo.
From stdpp Require Import gmap list.
From Coq Require Import Sorted.
Open Scope Z_scope.
Open Scope list_scope.

(** ** C12 *)

(** The pairs that are dispatched, which are those with a layout (C11: requests
    with a layout are answered, the others end the process). *)
Theorem C12_versions_exact port ch A c corr client s :
  l_header 18 0 corr client = true ->
  serving port ch A c (w_request 18 0 corr client []) s ->
  exists keys,
    answers c s (fun _ r => r = w_reply corr (w_versions_resp 0 keys)) 5 /\
    StronglySorted Z.lt (map (fun k : Z * Z * Z => fst (fst k)) keys) /\
    forall key ver,
      ((exists a, dispatch key ver = Some a) <-> exists lo hi, In (key, lo, hi) keys /\ lo <= ver <= hi) /\
      ((exists sh, layout key ver = Some sh) <-> exists lo hi, In (key, lo, hi) keys /\ lo <= ver <= hi).
Proof. exact (versions_exact' port ch A c corr client s). Qed.
Print Assumptions C12_versions_exact.

Example C12_ex : let m := w_request 18 0 5 clientA [] in
  l_header 18 0 5 clientA = true /\ serving 9092 [] (demo_trace m) 0 m (demo_state m) /\
  firstn 20 (demo_reply m 9) = [0; 0; 0; 76; 0; 0; 0; 5; 0; 0; 0; 0; 0; 11; 0; 1; 0; 2; 0; 2].
Proof. split; [reflexivity|]. split; [apply demo_serving; vm_compute; reflexivity|]. vm_compute. reflexivity. Qed.

(** ** C16 *)
Theorem C16_commit_reply port ch A c corr client g gen mem ret ts s :
  let m := w_request 8 2 corr client (w_commit_req g gen mem ret ts) in
  l_header 8 2 corr client = true -> l_commit g gen mem ret ts = true ->
  zlen (w_commit_req g gen mem ret ts) <= 4096 ->
  serving port ch A c m s ->
  answers c s (commit_reply (A ++ [OFrame c m]) c corr g ts) (2 * entries ts + 5).
Proof. exact (commit_answered port ch A c corr client g gen mem ret ts s). Qed.
Print Assumptions C16_commit_reply.

(** One commit succeeds, one names a missing partition. *)
Example C16_ex :
  let ts := [(topicA, [(2, 5, None); (9, 6, Some [1])])] in
  let m := w_request 8 2 (-1) None (w_commit_req groupA 0 [] 0 ts) in
  l_commit groupA 0 [] 0 ts = true /\ serving 9092 [] (demo_trace m) 0 m (demo_state m) /\
  demo_reply m 20 = w_reply (-1) (w_commit_resp [(topicA, [(2, 0); (9, 3)])]) /\
  commits 0 (snd (demo_run m 20)) = [(topicA, 2, groupA, 5)].
Proof.
  split; [reflexivity|]. split; [apply demo_serving; vm_compute; reflexivity|]. vm_compute. auto.
Qed.

(** ** C18 *)
Theorem C18_offset_fetch_reply port ch A c corr client g ts s :
  let m := w_request 9 1 corr client (w_off_req g ts) in
  l_header 9 1 corr client = true -> l_off g ts = true -> zlen (w_off_req g ts) <= 4096 ->
  serving port ch A c m s ->
  answers c s (off_reply (A ++ [OFrame c m]) corr g ts) (3 * entries ts + 6).
Proof. exact (off_answered port ch A c corr client g ts s). Qed.
Print Assumptions C18_offset_fetch_reply.

Example C18_ex :
  let ts := [(topicA, [2; 3]); (w_text "none", [0]); (topicB, [0; 0])] in
  let m := w_request 9 1 3 clientA (w_off_req groupA ts) in
  l_off groupA ts = true /\ serving 9092 [] (demo_trace m) 0 m (demo_state m) /\
  demo_reply m 40 = w_reply 3 (w_off_resp [(topicA, [(2, 1, None, 0)]); (topicB, [(0, 0, None, 0); (0, 0, None, 0)])]).
Proof.
  split; [reflexivity|]. split; [apply demo_serving; vm_compute; reflexivity|]. vm_compute. auto.
Qed.

(** ** C19, C20 *)
Theorem C19_C20_list_offsets_reply port ch A c corr client replica ts s :
  let m := w_request 2 1 corr client (w_list_req replica ts) in
  l_header 2 1 corr client = true -> l_list replica ts = true -> zlen (w_list_req replica ts) <= 4096 ->
  serving port ch A c m s ->
  answers c s (list_reply (A ++ [OFrame c m]) corr ts) (2 * entries ts + 5).
Proof. exact (list_answered port ch A c corr client replica ts s). Qed.
Print Assumptions C19_C20_list_offsets_reply.

Theorem C20_position_determined log T o tm o' tm' :
  by_time log T o tm -> by_time log T o' tm' -> o = o' /\ tm = tm'.
Proof. exact (by_time_unique log T o tm o' tm'). Qed.
Print Assumptions C20_position_determined.

Theorem C20_first_at_or_after log T o tm :
  by_time log T o tm -> StronglySorted Z.le (map rTs log) ->
  forall k r, nth_error log k = Some r -> (Z.of_nat k < o <-> rTs r < T).
Proof. exact (by_time_first log T o tm). Qed.
Print Assumptions C20_first_at_or_after.

(** Without the order of timestamps this fails. *)
Theorem C20_first_at_or_after_unordered_refuted : exists log T o tm k r,
  by_time log T o tm /\ nth_error log k = Some r /\ Z.of_nat k < o /\ T <= rTs r.
Proof. exact by_time_skips. Qed.
Print Assumptions C20_first_at_or_after_unordered_refuted.

(** Latest, earliest, by time, missing; the log has timestamps 10 and 77. *)
Example C19_ex :
  let ts := [(topicA, [(2, -1); (2, -2); (2, 10); (2, 11); (2, 78); (5, -1)])] in
  let m := w_request 2 1 0 clientA (w_list_req (-1) ts) in
  l_list (-1) ts = true /\ serving 9092 [] (demo_trace m) 0 m (demo_state m) /\
  demo_reply m 40 = w_reply 0 (w_list_resp
    [(topicA, [(2, 0, 77, 2); (2, 0, 10, 0); (2, 0, 10, 0); (2, 0, 10, 1); (2, 0, 77, 2); (5, 3, 0, 0)])]).
Proof.
  split; [reflexivity|]. split; [apply demo_serving; vm_compute; reflexivity|]. vm_compute. auto.
Qed.
Example C20_ex : let log := [Rec 0 10 None None []; Rec 0 77 None None []] in
  by_time log 11 1 10 /\ StronglySorted Z.le (map rTs log).
Proof.
  cbn zeta. split.
  - split; [vm_compute; split; discriminate|]. split; [|split].
    + intros k r Hk Hn. destruct k as [|[|[|k]]]; try discriminate; try lia. injection Hn as <-. cbn. lia.
    + right. exists (Rec 0 10 None None []). repeat split; cbn; lia.
    + lia.
  - repeat constructor; cbn; lia.
Qed.

(** ** C21, C22: requests with one partition per topic *)
Theorem C21_C22_fetch_reply port ch A c corr client r w mb ts s :
  let m := w_request 1 2 corr client (w_fetch_req r w mb ts) in
  l_header 1 2 corr client = true -> l_fetch r w mb ts = true -> zlen (w_fetch_req r w mb ts) <= 4096 ->
  nonneg_offsets ts -> Forall (fun t : bytes * list (Z * Z * Z) => exists p, snd t = [p]) ts ->
  serving port ch A c m s ->
  answers_right c s (fetch_reply_own (A ++ [OFrame c m]) corr w ts).
Proof. exact (fetch_answered_own port ch A c corr client r w mb ts s). Qed.
Print Assumptions C21_C22_fetch_reply.

Example C21_ex :
  let ts := [(topicA, [(2, 1, 1000)]); (topicB, [(0, 0, 0)])] in
  let m := w_request 1 2 8 clientA (w_fetch_req (-1) 0 1 ts) in
  let r2 := Rec 0 77 None (Some []) [(w_text "h", None)] in
  l_fetch (-1) 0 1 ts = true /\ Forall (fun t : bytes * list (Z * Z * Z) => exists p, snd t = [p]) ts /\
  nonneg_offsets ts /\ serving 9092 [] (demo_trace m) 0 m (demo_state m) /\ posts_small (demo_trace m) /\
  demo_reply m 40 = w_reply 8 (w_fetch_resp 0
    [(topicA, [(2, 0, 2, w_record 1 r2)]); (topicB, [(0, 0, 0, [])])]).
Proof.
  split; [reflexivity|]. split; [repeat constructor; eexists; reflexivity|].
  split; [repeat constructor; discriminate|].
  split; [apply demo_serving; vm_compute; reflexivity|]. split.
  - intros i t p rec Hin. vm_compute in Hin.
    repeat (destruct Hin as [Hin|Hin]; [try discriminate Hin; injection Hin as <- <- <- <-; vm_compute; discriminate|]).
    destruct Hin.
  - vm_compute. reflexivity.
Qed.

(** Why records are taken to be smaller than 2 GiB ([posts_small] in
    [fetch_reply]): larger ones pass any limit, as their size is computed in int32
    and counts as negative. *)
Theorem C22_huge_record_passes_limit ms r max : obytes (rKey r) = true -> obytes (rVal r) = true ->
  2 ^ 31 <= rec_size r < 2 ^ 32 -> msTotal ms <= max ->
  exists ms' m b, appendMessage ms r max = Some ms' /\ msMsgs ms' = msMsgs ms ++ [m] /\
    msTotal ms' = msTotal ms + rec_size r - 2 ^ 32 /\ encodeObject tMessageV1 (message_val m) = Some b /\ zlen b = rec_size r.
Proof. exact (huge_record ms r max). Qed.
Print Assumptions C22_huge_record_passes_limit.
Example C22_ex_huge : exists r, obytes (rKey r) = true /\ obytes (rVal r) = true /\ 2 ^ 31 <= rec_size r < 2 ^ 32 /\
  msTotal (newMessageSetV1 7) <= 100.
Proof.
  destruct huge_record_exists as (r & H1 & H2 & H3). exists r. split; [exact H1|]. split; [exact H2|]. split; [exact H3|]. vm_compute. discriminate.
Qed.

(** ** C23, C24 *)

(** All partitions of the k-th topic carry the k-th result ([fetch_ents]); a
    reply without records is not given before the time is up or FinishRequests
    is called ([fetch_due]). *)
Theorem C23_C24_fetch_reply port ch A c corr client r w mb ts s :
  let m := w_request 1 2 corr client (w_fetch_req r w mb ts) in
  l_header 1 2 corr client = true -> l_fetch r w mb ts = true -> zlen (w_fetch_req r w mb ts) <= 4096 ->
  nonneg_offsets ts -> (length ts <= length (flat ts))%nat ->
  serving port ch A c m s ->
  answers_right c s (fetch_reply (A ++ [OFrame c m]) corr w ts).
Proof. exact (fetch_answered_right port ch A c corr client r w mb ts s). Qed.
Print Assumptions C23_C24_fetch_reply.

Theorem C23_fetch_answered port ch A c corr client r w mb ts s e1 e2 e3 e4 e5 s1 s2 s3 s4 s5 B1 B2 B3 B4 B5 :
  let m := w_request 1 2 corr client (w_fetch_req r w mb ts) in
  let A' := A ++ [OFrame c m] in
  let B := B1 ++ B2 ++ B3 ++ B4 ++ B5 in
  l_header 1 2 corr client = true -> l_fetch r w mb ts = true -> zlen (w_fetch_req r w mb ts) <= 4096 ->
  nonneg_offsets ts -> (length ts <= length (flat ts))%nat ->
  serving port ch A c m s ->
  run s e1 = (s1, B1) -> run s1 e2 = (s2, B2) -> run s2 e3 = (s3, B3) -> run s3 e4 = (s4, B4) -> run s4 e5 = (s5, B5) ->
  sends_ok c (e1 ++ e2 ++ e3 ++ e4 ++ e5) -> crashed B = false ->
  posts_small (A' ++ B) -> Forall (fits (A' ++ B)) (flat ts) ->
  (entries ts + 1 <= own_steps c e1)%nat ->
  fetch_ready A' (tr_now (A' ++ B1) + w * 1000000) ts (A' ++ B1 ++ B2) ->
  (fetch_steps ts (A' ++ B) <= own_steps c e3)%nat ->
  tr_now (A' ++ B1 ++ B2 ++ B3) + 20000000 <= tr_now (A' ++ B1 ++ B2 ++ B3 ++ B4) ->
  (fetch_steps ts (A' ++ B) <= own_steps c e5)%nat ->
  exists B' rep, B' `prefix_of` until_frame c B /\ fetch_reply A' corr w ts B' rep /\ writes c (until_frame c B) = rep.
Proof. exact (fetch_answered_live port ch A c corr client r w mb ts s e1 e2 e3 e4 e5 s1 s2 s3 s4 s5 B1 B2 B3 B4 B5). Qed.
Print Assumptions C23_fetch_answered.

(** Whatever follows the request, and whether or not it lists enough partitions. *)
Theorem C23_too_big_never_answered port ch A c corr client r w mb ts extra s t idx off max :
  let m := w_request 1 2 corr client (w_fetch_req r w mb ts ++ extra) in
  l_header 1 2 corr client = true -> l_fetch r w mb ts = true -> zlen (w_fetch_req r w mb ts) <= 4096 ->
  nonneg_offsets ts ->
  serving port ch A c m s ->
  In (t, (idx, off, max)) (flat ts) -> tr_has t idx A = true ->
  Z.max 0 max < log_size (skipn (Z.to_nat off) (tr_log t idx A)) ->
  forall evs s' B, run s evs = (s', B) -> posts_small (A ++ B) ->
    writes c B = [] /\ frames c B = [] /\ crashed_by c B = false.
Proof. exact (fetch_too_big_hangs port ch A c corr client r w mb ts extra s t idx off max). Qed.
Print Assumptions C23_too_big_never_answered.

Theorem C24_few_partitions port ch A c corr client r w mb ts s :
  let m := w_request 1 2 corr client (w_fetch_req r w mb ts) in
  l_header 1 2 corr client = true -> l_fetch r w mb ts = true -> zlen (w_fetch_req r w mb ts) <= 4096 ->
  (length (flat ts) < length ts)%nat ->
  serving port ch A c m s ->
  forall evs s' B, run s evs = (s', B) -> writes c B = [] /\ frames c B = [].
Proof. exact (fetch_few_partitions port ch A c corr client r w mb ts s). Qed.
Print Assumptions C24_few_partitions.

(** The process ends where the reply would be sent: when the request lists fewer
    partitions than topics, or when bytes follow it. *)
Theorem C11_C24_unsendable_fetch_dies port ch A c corr client r w mb ts extra s e1 e2 e3 e4 e5 s1 s2 s3 s4 s5 B1 B2 B3 B4 B5 :
  let m := w_request 1 2 corr client (w_fetch_req r w mb ts ++ extra) in
  let A' := A ++ [OFrame c m] in
  let B := B1 ++ B2 ++ B3 ++ B4 ++ B5 in
  l_header 1 2 corr client = true -> l_fetch r w mb ts = true -> zlen (w_fetch_req r w mb ts) <= 4096 ->
  nonneg_offsets ts -> (length (flat ts) < length ts)%nat \/ extra <> [] ->
  serving port ch A c m s ->
  run s e1 = (s1, B1) -> run s1 e2 = (s2, B2) -> run s2 e3 = (s3, B3) -> run s3 e4 = (s4, B4) -> run s4 e5 = (s5, B5) ->
  posts_small (A' ++ B) -> Forall (fits (A' ++ B)) (flat ts) ->
  (entries ts + 1 <= own_steps c e1)%nat ->
  fetch_ready A' (tr_now (A' ++ B1) + w * 1000000) ts (A' ++ B1 ++ B2) ->
  (fetch_steps ts (A' ++ B) <= own_steps c e3)%nat ->
  tr_now (A' ++ B1 ++ B2 ++ B3) + 20000000 <= tr_now (A' ++ B1 ++ B2 ++ B3 ++ B4) ->
  (fetch_steps ts (A' ++ B) <= own_steps c e5)%nat ->
  sCrash s5 = true.
Proof. exact (fetch_dies port ch A c corr client r w mb ts extra s e1 e2 e3 e4 e5 s1 s2 s3 s4 s5 B1 B2 B3 B4 B5). Qed.
Print Assumptions C11_C24_unsendable_fetch_dies.

Theorem C24_negative_offset port ch A c corr client r w mb ts s t idx off max :
  let m := w_request 1 2 corr client (w_fetch_req r w mb ts) in
  l_header 1 2 corr client = true -> l_fetch r w mb ts = true -> zlen (w_fetch_req r w mb ts) <= 4096 ->
  serving port ch A c m s ->
  In (t, (idx, off, max)) (flat ts) -> tr_has t idx A = true -> off < 0 ->
  rejects c s (entries ts + length (flat ts) + 1).
Proof. exact (fetch_negative_offset port ch A c corr client r w mb ts s t idx off max). Qed.
Print Assumptions C24_negative_offset.

(** Two partitions of one topic: both get the data of the first. *)
Example C24_ex :
  let ts := [(topicA, [(2, 1, 1000); (7, 0, 1000)])] in
  let m := w_request 1 2 8 clientA (w_fetch_req (-1) 0 1 ts) in
  let r2 := Rec 0 77 None (Some []) [(w_text "h", None)] in
  l_fetch (-1) 0 1 ts = true /\ nonneg_offsets ts /\ (length ts <= length (flat ts))%nat /\
  serving 9092 [] (demo_trace m) 0 m (demo_state m) /\
  demo_reply m 40 = w_reply 8 (w_fetch_resp 0 [(topicA, [(2, 0, 2, w_record 1 r2); (7, 0, 2, w_record 1 r2)])]).
Proof.
  split; [reflexivity|]. split; [repeat constructor; discriminate|]. split; [vm_compute; lia|].
  split; [apply demo_serving; vm_compute; reflexivity|]. vm_compute. reflexivity.
Qed.

(** A wait of 5 ms on an empty partition, with other things going on between. *)
Example C23_ex :
  let ts := [(topicB, [(0, 0, 1000)])] in
  let m := w_request 1 2 8 clientA (w_fetch_req (-1) 5 1 ts) in
  let A' := demo_trace m ++ [OFrame 0 m] in
  let e1 := repeat (EvConn 0 ch0) 3 in
  let e2 := [EvTick 6000000] in
  let e3 := repeat (EvConn 0 ch0) 60 in
  let B1 := snd (run (demo_state m) e1) in
  let s1 := fst (run (demo_state m) e1) in
  let B2 := snd (run s1 e2) in
  let s2 := fst (run s1 e2) in
  let B3 := snd (run s2 e3) in
  l_fetch (-1) 5 1 ts = true /\ serving 9092 [] (demo_trace m) 0 m (demo_state m) /\
  (entries ts + 1 <= own_steps 0 e1)%nat /\
  fetch_ready A' (tr_now (A' ++ B1) + 5 * 1000000) ts (A' ++ B1 ++ B2) /\
  Forall (fits (A' ++ B1 ++ B2 ++ B3)) (flat ts) /\
  (fetch_steps ts (A' ++ B1 ++ B2 ++ B3) <= own_steps 0 e3)%nat /\
  writes 0 (B1 ++ B2) = [] /\
  writes 0 (B1 ++ B2 ++ B3) = w_reply 8 (w_fetch_resp 0 [(topicB, [(0, 0, 0, [])])]).
Proof.
  cbn zeta. split; [reflexivity|]. split; [apply demo_serving; vm_compute; reflexivity|].
  split; [vm_compute; lia|]. split; [right; left; vm_compute; reflexivity|].
  split; [apply List.Forall_forall; intros q Hq; vm_compute in Hq; destruct Hq as [<-|[]]; vm_compute; discriminate|].
  split; [vm_compute; lia|]. split; vm_compute; reflexivity.
Qed.

(** One byte after a Fetch that waits 5 ms: nothing happens until the time is up,
    then the process ends. *)
Example C11_C24_unsendable_ex :
  let ts := [(topicB, [(0, 0, 1000)])] in
  let m := w_request 1 2 8 clientA (w_fetch_req (-1) 5 1 ts ++ [7]) in
  let A' := demo_trace m ++ [OFrame 0 m] in
  let e1 := repeat (EvConn 0 ch0) 3 in
  let e2 := [EvTick 6000000] in
  let e3 := repeat (EvConn 0 ch0) 60 in
  let e4 := [EvTick 20000000] in
  let B1 := snd (run (demo_state m) e1) in
  let s1 := fst (run (demo_state m) e1) in
  let B2 := snd (run s1 e2) in
  let s2 := fst (run s1 e2) in
  l_fetch (-1) 5 1 ts = true /\ nonneg_offsets ts /\ serving 9092 [] (demo_trace m) 0 m (demo_state m) /\
  (entries ts + 1 <= own_steps 0 e1)%nat /\
  fetch_ready A' (tr_now (A' ++ B1) + 5 * 1000000) ts (A' ++ B1 ++ B2) /\
  Forall (fits (A' ++ B1 ++ B2)) (flat ts) /\
  (fetch_steps ts (A' ++ B1 ++ B2) <= own_steps 0 e3)%nat /\
  sCrash s2 = false /\ sCrash (fst (run s2 (e3 ++ e4 ++ e3))) = true.
Proof.
  cbn zeta. split; [reflexivity|]. split; [repeat constructor; discriminate|].
  split; [apply demo_serving; vm_compute; reflexivity|].
  split; [vm_compute; lia|]. split; [right; left; vm_compute; reflexivity|].
  split; [apply List.Forall_forall; intros q Hq; vm_compute in Hq; destruct Hq as [<-|[]]; vm_compute; discriminate|].
  split; [vm_compute; lia|]. split; vm_compute; reflexivity.
Qed.

(** A record of 37 bytes and a limit of 36; a topic without partitions besides. *)
Example C23_too_big_ex :
  let ts := [(topicA, [(2, 0, 36)]); (topicB, [])] in
  let m := w_request 1 2 8 clientA (w_fetch_req (-1) 5 1 ts ++ [9]) in
  l_fetch (-1) 5 1 ts = true /\ serving 9092 [] (demo_trace m) 0 m (demo_state m) /\
  In (topicA, (2, 0, 36)) (flat ts) /\ tr_has topicA 2 (demo_trace m) = true /\
  Z.max 0 36 < log_size (skipn (Z.to_nat 0) (tr_log topicA 2 (demo_trace m))) /\
  demo_reply m 200 = [].
Proof.
  cbn zeta. split; [reflexivity|]. split; [apply demo_serving; vm_compute; reflexivity|].
  split; [now left|]. split; [vm_compute; reflexivity|]. split; vm_compute; reflexivity.
Qed.

Example C24_few_ex :
  let ts := [(topicA, [(2, 0, 1000)]); (topicB, [])] in
  let m := w_request 1 2 8 clientA (w_fetch_req (-1) 5 1 ts) in
  l_fetch (-1) 5 1 ts = true /\ (length (flat ts) < length ts)%nat /\
  serving 9092 [] (demo_trace m) 0 m (demo_state m) /\ crashed (snd (demo_run m 40)) = true.
Proof.
  cbn zeta. split; [reflexivity|]. split; [vm_compute; lia|].
  split; [apply demo_serving; vm_compute; reflexivity|]. vm_compute. reflexivity.
Qed.
Example C24_negative_ex :
  let ts := [(topicA, [(2, -1, 1000)])] in
  let m := w_request 1 2 8 clientA (w_fetch_req (-1) 5 1 ts) in
  l_fetch (-1) 5 1 ts = true /\ serving 9092 [] (demo_trace m) 0 m (demo_state m) /\
  In (topicA, (2, -1, 1000)) (flat ts) /\ tr_has topicA 2 (demo_trace m) = true.
Proof.
  cbn zeta. split; [reflexivity|]. split; [apply demo_serving; vm_compute; reflexivity|].
  split; [now left|]. vm_compute. reflexivity.
Qed.

(** ** C26 *)
Theorem C26_metadata_reply port ch A c corr client topics s :
  l_header 3 1 corr client = true -> l_metadata topics = true -> zlen (w_metadata_req topics) <= 4096 ->
  serving port ch A c (w_request 3 1 corr client (w_metadata_req topics)) s ->
  answers c s (fun _ r => r = w_reply corr
    (w_metadata_resp [(100, w_text "localhost", port, None)] 500
       (map (fun t => (0, t, false, [(0, 2, 100, [1], [1])])) topics))) 4.
Proof. exact (metadata_answered port ch A c corr client topics s). Qed.
Print Assumptions C26_metadata_reply.

Example C26_ex : let m := w_request 3 1 7 clientA (w_metadata_req [topicA; w_text "none"]) in
  l_metadata [topicA; w_text "none"] = true /\ serving 9092 [] (demo_trace m) 0 m (demo_state m) /\
  demo_reply m 4 = w_reply 7 (w_metadata_resp [(100, w_text "localhost", 9092, None)] 500
    [(0, topicA, false, [(0, 2, 100, [1], [1])]); (0, w_text "none", false, [(0, 2, 100, [1], [1])])]).
Proof.
  cbn zeta. split; [reflexivity|]. split; [apply demo_serving; vm_compute; reflexivity|]. vm_compute. reflexivity.
Qed.

(** ** C27 *)
Theorem C27_join_reply port ch A c corr client group session rebalance member ptype protocols s :
  l_header 11 1 corr client = true -> l_join group session rebalance member ptype protocols = true ->
  zlen (w_join_req group session rebalance member ptype protocols) <= 4096 ->
  serving port ch A c (w_request 11 1 corr client (w_join_req group session rebalance member ptype protocols)) s ->
  exists leader me, leader <> me /\
  answers c s (fun _ r => r = w_reply corr
    (w_join_resp 0 0 (w_text "roundrobin") leader me [(w_text "you", None)])) 4.
Proof. exact (join_not_leader port ch A c corr client group session rebalance member ptype protocols s). Qed.
Print Assumptions C27_join_reply.

Theorem C27_sync_reply port ch A c corr client g gen mem s :
  let m := w_request 14 0 corr client (w_sync_req g gen mem []) in
  l_header 14 0 corr client = true -> l_sync g gen mem [] = true -> zlen (w_sync_req g gen mem []) <= 4096 ->
  serving port ch A c m s -> answers c s (sync_reply (A ++ [OFrame c m]) corr) 5.
Proof. exact (sync_answered port ch A c corr client g gen mem s). Qed.
Print Assumptions C27_sync_reply.

Theorem C27_sync_as_leader_rejected port ch A c corr client g gen mem ps s :
  let m := w_request 14 0 corr client (w_sync_req g gen mem ps) in
  l_header 14 0 corr client = true -> l_sync g gen mem ps = true -> ps <> [] ->
  serving port ch A c m s -> rejects c s 0.
Proof. exact (sync_rejected port ch A c corr client g gen mem ps s). Qed.
Print Assumptions C27_sync_as_leader_rejected.

Example C27_join_ex :
  let m := w_request 11 1 7 clientA (w_join_req groupA 1 2 [] (w_text "consumer") [(w_text "range", [0; 1])]) in
  l_join groupA 1 2 [] (w_text "consumer") [(w_text "range", [0; 1])] = true /\
  serving 9092 [] (demo_trace m) 0 m (demo_state m).
Proof. cbn zeta. split; [reflexivity|]. apply demo_serving; vm_compute; reflexivity. Qed.
Example C27_sync_ex :
  let m := w_request 14 0 7 clientA (w_sync_req groupA 1 [] []) in
  l_sync groupA 1 [] [] = true /\ serving 9092 [] (demo_trace m) 0 m (demo_state m) /\
  (demo_reply m 9 = w_reply 7 (w_sync_resp 0 (w_assignment 1 [(topicA, [2]); (topicB, [0])] None)) \/
   demo_reply m 9 = w_reply 7 (w_sync_resp 0 (w_assignment 1 [(topicB, [0]); (topicA, [2])] None))).
Proof.
  cbn zeta. split; [reflexivity|]. split; [apply demo_serving; vm_compute; reflexivity|].
  vm_compute. first [left; reflexivity|right; reflexivity].
Qed.
Example C27_sync_leader_ex :
  let m := w_request 14 0 7 clientA (w_sync_req groupA 1 [] [(w_text "a", [1])]) in
  l_sync groupA 1 [] [(w_text "a", [1])] = true /\ serving 9092 [] (demo_trace m) 0 m (demo_state m).
Proof. cbn zeta. split; [reflexivity|]. apply demo_serving; vm_compute; reflexivity. Qed.

(** ** C38 *)
Theorem C38_find_reply port ch A c corr client key s :
  l_header 10 0 corr client = true -> l_string key = true -> zlen (w_find_req key) <= 4096 ->
  serving port ch A c (w_request 10 0 corr client (w_find_req key)) s ->
  answers c s (fun _ r => r = w_reply corr (w_find_resp 0 100 (w_text "localhost") port)) 4.
Proof. exact (find_answered port ch A c corr client key s). Qed.
Print Assumptions C38_find_reply.

Theorem C38_heartbeat_reply port ch A c corr client group gen member s :
  l_header 12 0 corr client = true -> l_heartbeat group gen member = true ->
  zlen (w_heartbeat_req group gen member) <= 4096 ->
  serving port ch A c (w_request 12 0 corr client (w_heartbeat_req group gen member)) s ->
  answers c s (fun _ r => r = w_reply corr (w_error_resp 0)) 4.
Proof. exact (heartbeat_answered port ch A c corr client group gen member s). Qed.
Print Assumptions C38_heartbeat_reply.

Theorem C38_leave_reply port ch A c corr client group member s :
  l_header 13 0 corr client = true -> l_leave group member = true ->
  zlen (w_leave_req group member) <= 4096 ->
  serving port ch A c (w_request 13 0 corr client (w_leave_req group member)) s ->
  answers c s (fun _ r => r = w_reply corr (w_error_resp 0)) 4.
Proof. exact (leave_answered port ch A c corr client group member s). Qed.
Print Assumptions C38_leave_reply.

Example C38_ex :
  let m1 := w_request 10 0 7 clientA (w_find_req groupA) in
  let m2 := w_request 12 0 7 clientA (w_heartbeat_req groupA 3 []) in
  let m3 := w_request 13 0 7 clientA (w_leave_req groupA []) in
  serving 9092 [] (demo_trace m1) 0 m1 (demo_state m1) /\
  serving 9092 [] (demo_trace m2) 0 m2 (demo_state m2) /\
  serving 9092 [] (demo_trace m3) 0 m3 (demo_state m3) /\
  demo_reply m1 4 = w_reply 7 (w_find_resp 0 100 (w_text "localhost") 9092) /\
  demo_reply m2 4 = [0; 0; 0; 6; 0; 0; 0; 7; 0; 0] /\ demo_reply m3 4 = [0; 0; 0; 6; 0; 0; 0; 7; 0; 0].
Proof.
  cbn zeta. do 3 (split; [apply demo_serving; vm_compute; reflexivity|]). vm_compute. auto.
Qed.
