(** * PropsServer: requests, frames and connections (C05, C06, C09-C11, C37) *)
From Verif Require Import HugeProofs AcceptProofs RejectProofs Demo.
From stdpp Require Import gmap list.
Open Scope Z_scope.
Open Scope list_scope.

(** ** C05 *)
Theorem C05_long_body port ch A c m s h b rest key ver corr sh :
  serving port ch A c m s -> m = h ++ b ++ rest ->
  is_header h key ver corr -> layout key ver = Some sh -> parses sh b -> 4096 < zlen b ->
  rejects c s 0.
Proof. exact (long_body_rejected port ch A c m s h b rest key ver corr sh). Qed.
Print Assumptions C05_long_body.

Theorem C05_long_header port ch A c m s h rest key ver corr :
  serving port ch A c m s -> m = h ++ rest -> is_header h key ver corr -> 4096 < zlen h ->
  rejects c s 0.
Proof. exact (long_header_rejected port ch A c m s h rest key ver corr). Qed.
Print Assumptions C05_long_header.

(** Metadata for 600 topics: 6004 bytes. *)
Example C05_ex :
  let bs := repeat (w_string (w_text "topic123")) 600 in
  let h := w_int16 3 ++ w_int16 1 ++ w_int32 7 ++ w_int16 (-1) in
  let b := w_int32 600 ++ concat bs in
  let m := h ++ b ++ [] in
  serving 9092 [] (demo_trace m) 0 m (demo_state m) /\ is_header h 3 1 7 /\
  layout 3 1 = Some (SRec [SArr SStr]) /\ parses (SRec [SArr SStr]) b /\ 4096 < zlen b.
Proof.
  cbv zeta. split; [apply demo_serving; vm_compute; reflexivity|]. split.
  { exists (w_int16 (-1)). split; [reflexivity|]. split; [now apply p_null|]. auto. }
  split; [reflexivity|]. split; [|vm_compute; reflexivity].
  replace (w_int32 600 ++ concat (repeat (w_string (w_text "topic123")) 600))
    with (concat [w_int32 (zlen (repeat (w_string (w_text "topic123")) 600)) ++ concat (repeat (w_string (w_text "topic123")) 600)])
    by (vm_compute; reflexivity).
  constructor. constructor; [|constructor]. constructor; [vm_compute; reflexivity|].
  generalize 600%nat as n. induction n as [|n IH]; cbn [repeat]; constructor; [now apply p_str|exact IH].
Qed.

(** ** C06 *)
Theorem C06_null_array port ch A c m s h b key ver corr sh :
  serving port ch A c m s -> m = h ++ b ->
  is_header h key ver corr -> layout key ver = Some sh -> null_at sh b ->
  rejects c s 0.
Proof. exact (null_rejected port ch A c m s h b key ver corr sh). Qed.
Print Assumptions C06_null_array.

(** Metadata v1 for all topics; a JoinGroup whose first protocol has no metadata. *)
Example C06_ex :
  let h := w_int16 3 ++ w_int16 1 ++ w_int32 7 ++ w_string (w_text "me") in
  let m := h ++ w_int32 (-1) in
  serving 9092 [] (demo_trace m) 0 m (demo_state m) /\ is_header h 3 1 7 /\
  null_at (SRec [SArr SStr]) (w_int32 (-1)) /\ snd (demo_run m 1) = [].
Proof.
  cbv zeta. split; [apply demo_serving; vm_compute; reflexivity|]. split.
  { exists (w_string (w_text "me")). split; [reflexivity|]. split; [now apply p_str|]. auto. }
  split; [|vm_compute; reflexivity].
  apply (n_field [] [] (SArr SStr) [] (w_int32 (-1))); [constructor|].
  apply (n_here SStr (-1) []); [reflexivity|lia].
Qed.
Example C06_ex_join :
  let sh := SRec [SStr; SInt 4; SInt 4; SStr; SStr; SArr (SRec [SStr; SArr (SInt 1)])] in
  layout 11 1 = Some sh /\
  null_at sh (concat [w_string groupA; w_int32 1; w_int32 2; w_string []; w_string (w_text "consumer")] ++
              w_int32 1 ++ concat [] ++ concat [w_string (w_text "range")] ++ w_int32 (-5) ++ [1; 2]).
Proof.
  split; [reflexivity|].
  apply (n_field [SStr; SInt 4; SInt 4; SStr; SStr] _ _ []).
  { repeat (constructor; [try (now apply p_str); now constructor|]). constructor. }
  apply (n_elem _ 1 []); [reflexivity|reflexivity|constructor|].
  apply (n_field [SStr] _ _ []).
  { constructor; [now apply p_str|constructor]. }
  apply n_here; [reflexivity|lia].
Qed.

(** ** C09 *)
Theorem C09_requests_are_frames c port ch evs s os :
  run (init port ch) evs = (s, os) -> exists rest, framed_with c os rest.
Proof. exact (framing_any c port ch evs s os). Qed.
Print Assumptions C09_requests_are_frames.

(** Two runs that read from the same stream take up the same requests, as far
    as both have come. *)
Theorem C09_chunking_irrelevant c1 c2 port1 ch1 evs1 s1 os1 port2 ch2 evs2 s2 os2 S :
  run (init port1 ch1) evs1 = (s1, os1) -> reads c1 os1 `prefix_of` S ->
  run (init port2 ch2) evs2 = (s2, os2) -> reads c2 os2 `prefix_of` S ->
  frames c1 os1 `prefix_of` frames c2 os2 \/ frames c2 os2 `prefix_of` frames c1 os1.
Proof. exact (chunking_any c1 c2 port1 ch1 evs1 s1 os1 port2 ch2 evs2 s2 os2 S). Qed.
Print Assumptions C09_chunking_irrelevant.

(** A complete frame is taken up as soon as the requests before it are answered. *)
Theorem C09_complete_frame_taken_up c port ch evs s os m rest :
  run (init port ch) evs = (s, os) -> sends_ok c evs ->
  crashed os = false -> wcount c os = (3 * length (frames c os))%nat ->
  zlen m < 2 ^ 32 - 4 -> reads c os = concat (map w_frame (frames c os)) ++ w_frame m ++ rest ->
  forall ch', exists s' o, step s (EvConn c ch') = (s', OFrame c m :: o).
Proof. exact (taken_up c port ch evs s os m rest). Qed.
Print Assumptions C09_complete_frame_taken_up.

(** A frame whose size field holds one of the last four 32-bit numbers (adding 4
    to it overflows) ends the process once it has arrived. *)
Theorem C09_huge_frame_ends_process c port ch evs s os m rest :
  run (init port ch) evs = (s, os) -> sends_ok c evs ->
  crashed os = false -> wcount c os = (3 * length (frames c os))%nat ->
  2 ^ 32 - 4 <= zlen m < 2 ^ 32 -> reads c os = concat (map w_frame (frames c os)) ++ w_frame m ++ rest ->
  forall ch', exists s', step s (EvConn c ch') = (s', [OCrash c]) /\ sCrash s' = true.
Proof. exact (huge_frame c port ch evs s os m rest). Qed.
Print Assumptions C09_huge_frame_ends_process.
Example C09_ex_huge : exists m evs s os, 2 ^ 32 - 4 <= zlen m < 2 ^ 32 /\
  run (init 9092 []) evs = (s, os) /\ sends_ok 0 evs /\ crashed os = false /\
  wcount 0 os = (3 * length (frames 0 os))%nat /\ reads 0 os = concat (map w_frame (frames 0 os)) ++ w_frame m ++ [].
Proof.
  destruct huge_exists as (m & Hb & Hz). destruct (huge_possible 9092 [] m Hb (proj2 Hz)) as (evs & s & os & H).
  exact (ex_intro _ m (ex_intro _ evs (ex_intro _ s (ex_intro _ os (conj Hz H))))).
Qed.

(** Two ApiVersions requests arrive in three pieces that cut both frames. *)
Example C09_ex :
  let m1 := w_request 18 0 5 clientA [] in
  let m2 := w_request 18 0 6 clientA [] in
  let S := w_frame m1 ++ w_frame m2 in
  let evs := [EvAccept; EvConn 0 ch0; EvRecv 0 (firstn 3 S); EvConn 0 ch0; EvRecv 0 (firstn 20 (skipn 3 S));
              EvConn 0 ch0; EvConn 0 ch0; EvConn 0 ch0; EvConn 0 ch0; EvConn 0 ch0; EvConn 0 ch0;
              EvConn 0 ch0; EvConn 0 ch0; EvRecv 0 (skipn 23 S)] in
  let r := run (init 9092 []) evs in
  frames 0 (snd r) = [m1] /\ reads 0 (snd r) = w_frame m1 ++ w_frame m2 ++ [] /\
  wcount 0 (snd r) = 3%nat /\ crashed (snd r) = false /\
  snd (step (fst r) (EvConn 0 ch0)) = [OFrame 0 m2].
Proof. vm_compute. auto. Qed.

(** ** C10 *)
Theorem C10_replies_in_order c port ch evs s os :
  run (init port ch) evs = (s, os) -> sends_ok c evs -> in_order c os.
Proof. intros H Hok. exact (proj1 (proj2 (flow_reach c port ch evs s os H Hok))). Qed.
Print Assumptions C10_replies_in_order.

(** The smallest and the largest correlation id, in one connection. *)
Example C10_ex :
  let S := w_frame (w_request 18 0 (- 2 ^ 31) clientA []) ++ w_frame (w_request 12 0 (2 ^ 31 - 1) None (w_heartbeat_req groupA 1 [])) in
  let evs := [EvAccept; EvConn 0 ch0; EvRecv 0 S] ++ repeat (EvConn 0 ch0) 12 in
  let os := snd (run (init 9092 []) evs) in
  length (frames 0 os) = 2%nat /\ firstn 8 (writes 0 os) = w_int32 76 ++ w_int32 (- 2 ^ 31) /\
  skipn 80 (writes 0 os) = w_int32 6 ++ w_int32 (2 ^ 31 - 1) ++ w_int16 0.
Proof. vm_compute. auto. Qed.

(** ** C11 *)
Theorem C11_malformed_not_answered port ch A c m s :
  serving port ch A c m s -> ~ well_formed m ->
  forall evs s' B, run s evs = (s', B) -> writes c B = [] /\ frames c B = [].
Proof. exact (malformed_silent port ch A c m s). Qed.
Print Assumptions C11_malformed_not_answered.

(** Only a Fetch request followed by more bytes may wait before the process ends. *)
Theorem C11_malformed_ends_process port ch A c m s :
  serving port ch A c m s -> ~ well_formed m -> ~ fetch_with_more m -> exists K, rejects c s K.
Proof. exact (malformed_rejected port ch A c m s). Qed.
Print Assumptions C11_malformed_ends_process.

Theorem C11_unsupported_ends_process port ch A c m s h rest key ver corr :
  serving port ch A c m s -> m = h ++ rest -> is_header h key ver corr -> layout key ver = None ->
  rejects c s 0.
Proof. exact (unsupported_rejected port ch A c m s h rest key ver corr). Qed.
Print Assumptions C11_unsupported_ends_process.

(** A frame of three bytes; an ApiVersions request with one byte too many, which
    ends the process at the third step; Produce, which is not supported. *)
Example C11_ex_short : let m := [0; 18; 0] in
  serving 9092 [] (demo_trace m) 0 m (demo_state m) /\ ~ well_formed m.
Proof. cbv zeta. split; [apply demo_serving; vm_compute; reflexivity|]. now apply short_malformed. Qed.
Example C11_ex_trailing : let m := w_request 18 0 5 clientA [7] in
  serving 9092 [] (demo_trace m) 0 m (demo_state m) /\ ~ well_formed m /\
  sCrash (fst (demo_run m 1)) = false /\ sCrash (fst (demo_run m 2)) = true /\ demo_reply m 9 = [].
Proof.
  cbv zeta. split; [apply demo_serving; vm_compute; reflexivity|]. split; [|vm_compute; auto].
  intros Hw. eapply (well_formed_rest 9092) in Hw; [|vm_compute; reflexivity]. discriminate.
Qed.
Example C11_ex_unsupported : let h := w_int16 0 ++ w_int16 3 ++ w_int32 1 ++ w_string (w_text "me") in
  let m := h ++ [1; 2; 3] in
  serving 9092 [] (demo_trace m) 0 m (demo_state m) /\ is_header h 0 3 1 /\ layout 0 3 = None.
Proof.
  cbv zeta. split; [apply demo_serving; vm_compute; reflexivity|]. split; [|reflexivity].
  exists (w_string (w_text "me")). split; [reflexivity|]. split; [now apply p_str|]. auto.
Qed.

(** The converse: a well-formed request other than Fetch is answered, after a
    bounded number of steps and under its own correlation number; SyncGroup only
    if it brings no assignments.  (Fetch: C23 to C26.) *)
Theorem C11_well_formed_answered port ch A c m s key ver corr h b :
  serving port ch A c m s -> is_request m key ver corr h b [] ->
  key <> 1 -> (key = 14 -> sync_body b 0) ->
  exists K, answers c s (fun _ r => exists payload, r = w_reply corr payload) K.
Proof. exact (well_formed_answered port ch A c m s key ver corr h b). Qed.
Print Assumptions C11_well_formed_answered.

Theorem C11_sync_assignments_end_process port ch A c m s corr h b :
  serving port ch A c m s -> is_request m 14 0 corr h b [] ->
  exists n, 0 <= n /\ sync_body b n /\ (n <> 0 -> rejects c s 0).
Proof. exact (sync_assigning_cases port ch A c m s corr h b). Qed.
Print Assumptions C11_sync_assignments_end_process.

(** FindCoordinator with a client name and a group of negative length, which no
    client writes that way; SyncGroup with one assignment. *)
Example C11_ex_odd : let h := w_int16 10 ++ w_int16 0 ++ w_int32 9 ++ w_int16 (-7) in
  let b := w_int16 (-300) in let m := h ++ b ++ [] in
  serving 9092 [] (demo_trace m) 0 m (demo_state m) /\ is_request m 10 0 9 h b [] /\
  demo_reply m 9 <> [].
Proof.
  cbv zeta. split; [apply demo_serving; vm_compute; reflexivity|]. split; [|vm_compute; discriminate].
  split; [reflexivity|]. split.
  { exists (w_int16 (-7)). split; [reflexivity|]. split; [now apply p_null|]. auto. }
  split; [vm_compute; discriminate|]. eexists. split; [reflexivity|]. split; [|vm_compute; discriminate].
  rewrite <- (app_nil_r (w_int16 (-300))). apply (p_rec [SStr] [w_int16 (-300)]).
  constructor; [now apply p_null|constructor].
Qed.
Example C11_ex_sync : let h := w_int16 14 ++ w_int16 0 ++ w_int32 9 ++ w_string (w_text "me") in
  let b := w_string (w_text "g") ++ w_int32 1 ++ w_string (w_text "m") ++ w_int32 1 ++ concat [w_string (w_text "m") ++ w_int32 0] in
  sync_body b 1 /\ sync_body (w_string (w_text "g") ++ w_int32 1 ++ w_string (w_text "m") ++ w_int32 0 ++ concat []) 0 /\
  sCrash (fst (demo_run (h ++ b) 0)) = true.
Proof.
  cbv zeta. split; [|split; [|vm_compute; reflexivity]].
  - exists (w_string (w_text "g")), (w_int32 1), (w_string (w_text "m")), [w_string (w_text "m") ++ w_int32 0].
    split; [reflexivity|]. split; [reflexivity|]. split; [reflexivity|]. split; [now apply p_str|].
    split; [reflexivity|]. split; [now apply p_str|]. constructor; [|constructor].
    apply (p_rec [SStr; SArr (SInt 1)] [w_string (w_text "m"); w_int32 0]).
    constructor; [now apply p_str|]. constructor; [|constructor].
    apply (p_arr (SInt 1) []); [reflexivity|constructor].
  - exists (w_string (w_text "g")), (w_int32 1), (w_string (w_text "m")), [].
    split; [reflexivity|]. split; [reflexivity|]. split; [reflexivity|]. split; [now apply p_str|].
    split; [reflexivity|]. split; [now apply p_str|]. constructor.
Qed.

(** ** C37 *)
Theorem C37_answered_before_close c port ch evs s A D :
  run (init port ch) evs = (s, A ++ OClosed c :: D) -> sends_ok c evs ->
  all_answered c A /\ (exists rest, framed_with c A rest /\ no_frame rest) /\
  reads c D = [] /\ writes c D = [] /\ frames c D = [].
Proof. exact (closing c port ch evs s A D). Qed.
Print Assumptions C37_answered_before_close.

Theorem C37_no_new_reads port ch e1 s1 A e2 s2 B :
  run (init port ch) e1 = (s1, A) -> tr_cancelled A = true ->
  run s1 e2 = (s2, B) -> ~ In ORestart B ->
  forall c, (nreads c B <= 1)%nat /\
    ((length (sConns s1) <= c)%nat -> reads c B = [] /\ frames c B = [] /\ writes c B = []).
Proof. exact (after_cancel port ch e1 s1 A e2 s2 B). Qed.
Print Assumptions C37_no_new_reads.

Theorem C37_idle_connection_closes c port ch evs s os rest :
  run (init port ch) evs = (s, os) -> sends_ok c evs ->
  crashed os = false -> tr_cancelled os = true -> (c < length (sConns s))%nat ->
  wcount c os = (3 * length (frames c os))%nat ->
  framed_with c os rest -> no_frame rest -> zlen rest < 2 ^ 32 ->
  forall ch', exists s' o, run s [EvTimeout c; EvConn c ch'] = (s', o) /\
    sConns s' !! c = Some (Conn rest CClosed) /\ crashed o = false.
Proof. exact (finish_closes c port ch evs s os rest). Qed.
Print Assumptions C37_idle_connection_closes.

(** Two requests arrive, the server is told to finish while the first is being
    handled, both are answered, the connection is closed, later bytes and a new
    client are ignored. *)
Example C37_ex :
  let S := w_frame (w_request 18 0 1 clientA []) ++ w_frame (w_request 18 0 2 clientA []) in
  let evs := [EvAccept; EvConn 0 ch0; EvRecv 0 S; EvConn 0 ch0; EvCancel] ++ repeat (EvConn 0 ch0) 13 ++
             [EvRecv 0 [1]; EvAccept; EvConn 1 ch0; EvRecv 1 S] in
  let os := snd (run (init 9092 []) evs) in
  exists A D, os = A ++ OClosed 0 :: D /\ length (frames 0 A) = 2%nat /\ wcount 0 A = 6%nat /\ reads 1 os = [].
Proof.
  cbv zeta. set (os := snd _). exists (removelast os), []. vm_compute. auto.
Qed.
