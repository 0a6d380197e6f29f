(** * PropsSeen: C66, replies show at least what was there before *)
From Verif Require Import SeenProofs Demo.
From stdpp Require Import gmap list.
Open Scope Z_scope.
Open Scope list_scope.

(** Fetch comes past every record that had been posted when it was taken up. *)
Theorem C66_fetch port ch A c corr client r w mb ts s :
  let m := w_request 1 2 corr client (w_fetch_req r w mb ts) in
  l_header 1 2 corr client = true -> l_fetch r w mb ts = true -> zlen (w_fetch_req r w mb ts) <= 4096 ->
  nonneg_offsets ts -> (length ts <= length (flat ts))%nat ->
  serving port ch A c m s -> answers_right c s (fetch_sees (A ++ [OFrame c m]) corr ts).
Proof. exact (fetch_seen port ch A c corr client r w mb ts s). Qed.
Print Assumptions C66_fetch.

(** ListOffsets, asked for the latest offset, counts them all. *)
Theorem C66_list_offsets port ch A c corr client replica ts s :
  let m := w_request 2 1 corr client (w_list_req replica ts) in
  l_header 2 1 corr client = true -> l_list replica ts = true -> zlen (w_list_req replica ts) <= 4096 ->
  serving port ch A c m s -> answers c s (list_sees (A ++ [OFrame c m]) corr ts) (2 * entries ts + 5).
Proof. exact (list_seen port ch A c corr client replica ts s). Qed.
Print Assumptions C66_list_offsets.

(** OffsetFetch shows what had been committed, or more. *)
Theorem C66_offset_fetch port ch A c corr client g ts s :
  let m := w_request 9 1 corr client (w_off_req g ts) in
  l_header 9 1 corr client = true -> l_off g ts = true -> zlen (w_off_req g ts) <= 4096 ->
  serving port ch A c m s -> answers c s (off_sees (A ++ [OFrame c m]) corr g ts) (3 * entries ts + 6).
Proof. exact (off_seen port ch A c corr client g ts s). Qed.
Print Assumptions C66_offset_fetch.

(** A Fetch taken up after another has been answered, by whichever connection, does
    not show less of a partition than the other did. *)
Theorem C66_not_back port ch A1 c1 corr1 client1 r1 w1 mb1 ts1 s1 :
  let m1 := w_request 1 2 corr1 client1 (w_fetch_req r1 w1 mb1 ts1) in
  l_header 1 2 corr1 client1 = true -> l_fetch r1 w1 mb1 ts1 = true -> zlen (w_fetch_req r1 w1 mb1 ts1) <= 4096 ->
  nonneg_offsets ts1 -> (length ts1 <= length (flat ts1))%nat ->
  serving port ch A1 c1 m1 s1 ->
  answers_right c1 s1 (fun B1 rep1 => posts_small ((A1 ++ [OFrame c1 m1]) ++ B1) ->
    exists res1, rep1 = w_reply corr1 (w_fetch_resp 0 (fetch_ents ts1 res1)) /\ length res1 = length (flat ts1) /\
    forall A2 c2 corr2 client2 r2 w2 mb2 ts2 s2,
    let m2 := w_request 1 2 corr2 client2 (w_fetch_req r2 w2 mb2 ts2) in
    l_header 1 2 corr2 client2 = true -> l_fetch r2 w2 mb2 ts2 = true -> zlen (w_fetch_req r2 w2 mb2 ts2) <= 4096 ->
    nonneg_offsets ts2 -> (length ts2 <= length (flat ts2))%nat ->
    serving port ch A2 c2 m2 s2 -> ((A1 ++ [OFrame c1 m1]) ++ B1) `prefix_of` A2 ->
    answers_right c2 s2 (fun B2 rep2 => posts_small ((A2 ++ [OFrame c2 m2]) ++ B2) ->
      exists res2, rep2 = w_reply corr2 (w_fetch_resp 0 (fetch_ents ts2 res2)) /\ length res2 = length (flat ts2) /\
        not_back (flat ts1) res1 (flat ts2) res2)).
Proof. exact (fetch_not_back port ch A1 c1 corr1 client1 r1 w1 mb1 ts1 s1). Qed.
Print Assumptions C66_not_back.

(** One client fetches (orders, 2), a record is posted, another client fetches from
    offset 1: 2 records seen, then up to 3. *)
Definition seen_m1 : bytes := w_request 1 2 6 clientA (w_fetch_req (-1) 0 1 [(topicA, [(2, 0, 1000)])]).
Definition seen_m2 : bytes := w_request 1 2 7 clientA (w_fetch_req (-1) 0 1 [(topicA, [(2, 1, 1000)])]).
Definition seen_evs : list event := (demo_setup ++ demo_send seen_m1) ++ [EvConn 0 ch0] ++ repeat (EvConn 0 ch0) 20 ++
  EvCall (CallPost topicA 2 None (Some [9]) [] (Some 5)) :: repeat (EvApi 4) 4 ++
  [EvAccept; EvConn 1 ch0; EvRecv 1 (w_frame seen_m2)].
Example C66_ex : let A1 := demo_trace seen_m1 in let A2 := snd (run (init 9092 []) seen_evs) in
  let s2 := fst (step (fst (run (init 9092 []) seen_evs)) (EvConn 1 ch0)) in
  let B1 := snd (run (demo_state seen_m1) (repeat (EvConn 0 ch0) 20)) in let B2 := snd (run s2 (repeat (EvConn 1 ch0) 20)) in
  serving 9092 [] A1 0 seen_m1 (demo_state seen_m1) /\ serving 9092 [] A2 1 seen_m2 s2 /\
  ((A1 ++ [OFrame 0 seen_m1]) ++ B1) `prefix_of` A2 /\
  tr_has topicA 2 A1 = true /\ zlen (tr_log topicA 2 A1) = 2 /\ zlen (tr_log topicA 2 A2) = 3 /\
  writes 0 B1 = w_reply 6 (w_fetch_resp 0 (fetch_ents [(topicA, [(2, 0, 1000)])] [(2, w_records 0 (tr_log topicA 2 A1))])) /\
  writes 1 B2 = w_reply 7 (w_fetch_resp 0 (fetch_ents [(topicA, [(2, 1, 1000)])] [(3, w_records 1 (skipn 1 (tr_log topicA 2 A2)))])).
Proof.
  cbv zeta. split; [apply demo_serving; vm_compute; reflexivity|]. split; [apply serving_run; vm_compute; reflexivity|].
  split; [exists (skipn (length ((demo_trace seen_m1 ++ [OFrame 0 seen_m1]) ++ snd (run (demo_state seen_m1) (repeat (EvConn 0 ch0) 20)))) (snd (run (init 9092 []) seen_evs)));
    vm_compute; reflexivity|]. repeat split; vm_compute; reflexivity.
Qed.
(** ListOffsets and OffsetFetch in the same store: 2 records, offset 1. *)
Example C66_ex2 :
  let lm := w_request 2 1 0 clientA (w_list_req (-1) [(topicA, [(2, -1)])]) in
  let om := w_request 9 1 3 clientA (w_off_req groupA [(topicA, [2])]) in
  serving 9092 [] (demo_trace lm) 0 lm (demo_state lm) /\ zlen (tr_log topicA 2 (demo_trace lm)) = 2 /\
  demo_reply lm 20 = w_reply 0 (w_list_resp [(topicA, [(2, 0, 77, 2)])]) /\
  serving 9092 [] (demo_trace om) 0 om (demo_state om) /\ tr_off topicA 2 groupA (demo_trace om) = 1 /\
  demo_reply om 20 = w_reply 3 (w_off_resp [(topicA, [(2, 1, None, 0)])]).
Proof.
  cbv zeta. split; [apply demo_serving; vm_compute; reflexivity|]. split; [vm_compute; reflexivity|]. split; [vm_compute; reflexivity|].
  split; [apply demo_serving; vm_compute; reflexivity|]. split; vm_compute; reflexivity.
Qed.
