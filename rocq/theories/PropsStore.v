(** * PropsStore: the data store under any schedule (C13, C14, C15, C17, C28) *)
From Verif Require Import CallProofs StateProofs Demo.
From stdpp Require Import gmap list.
Open Scope Z_scope.
Open Scope list_scope.

(** ** C13 *)

(** In every reachable state a partition holds the records posted to it. *)
Theorem C13_log_is_the_posts port ch evs s os :
  run (init port ch) evs = (s, os) -> forall t p, records_of s t p = tr_log t p os.
Proof. exact (reach_records port ch evs s os). Qed.
Print Assumptions C13_log_is_the_posts.

(** Whatever happens next, the log is only appended to, by the posts. *)
Theorem C13_append_only port ch e1 s1 A e2 s2 B :
  run (init port ch) e1 = (s1, A) -> run s1 e2 = (s2, B) ->
  forall t p, records_of s2 t p = records_of s1 t p ++ tr_log t p B.
Proof. exact (append_only port ch e1 s1 A e2 s2 B). Qed.
Print Assumptions C13_append_only.

(** A call posts one record, once, to its partition, with the given timestamp,
    key, value and headers; in the order of its effects, before it returns. *)
Theorem C13_call_effect port ch evs s os i A c :
  run (init port ch) evs = (s, os) -> calls (init port ch) [] evs !! i = Some (A, c) ->
  A `prefix_of` os /\ effect i A os c.
Proof. exact (calls_effect port ch evs s os i A c). Qed.
Print Assumptions C13_call_effect.

(** There are no other effects: whatever is posted was posted by a call. *)
Theorem C13_only_calls_post port ch evs s os o i :
  run (init port ch) evs = (s, os) -> In o os -> by_call i o = true ->
  (i < length (calls (init port ch) [] evs))%nat.
Proof. exact (calls_only port ch evs s os o i). Qed.
Print Assumptions C13_only_calls_post.

(** And a call that is given the processor returns. *)
Theorem C13_call_returns port ch e1 s1 A1 i A c e2 s2 B :
  run (init port ch) e1 = (s1, A1) -> calls (init port ch) [] e1 !! i = Some (A, c) ->
  run s1 e2 = (s2, B) -> crashed (A1 ++ B) = false ->
  (call_steps c <= api_steps i e2)%nat -> In (OReturn i) (A1 ++ B).
Proof. exact (call_returns port ch e1 s1 A1 i A c e2 s2 B). Qed.
Print Assumptions C13_call_returns.

(** Two posts to the same partition, interleaved; the second one wins. *)
Definition two_posts : list event :=
  [EvCall (CallPost topicA 2 None (Some [1]) [] (Some 5)); EvCall (CallPost topicA 2 None (Some [2]) [] None);
   EvWall 40; EvApi 0; EvApi 1; EvApi 1; EvApi 0; EvApi 1; EvApi 1; EvApi 0; EvApi 0].
Example C13_ex : let '(s, os) := run (init 9092 []) two_posts in
  records_of s topicA 2 = [Rec 0 40 None (Some [2]) []; Rec 0 5 None (Some [1]) []] /\
  map fst (calls (init 9092 []) [] two_posts) = [[]; []] /\
  done_by 1 os = [OTopic 1 topicA; OMade 1 topicA 2; OPosted 1 topicA 2 (Rec 0 40 None (Some [2]) []); OReturn 1].
Proof. vm_compute. auto. Qed.

(** ** C14 *)
Theorem C14_created_stays port ch evs s A B i t p :
  run (init port ch) evs = (s, A ++ OMade i t p :: B) -> has_part s t p /\ has_topic s t.
Proof. exact (made_kept port ch evs s A B i t p). Qed.
Print Assumptions C14_created_stays.

Theorem C14_nothing_else_creates port ch evs s os :
  run (init port ch) evs = (s, os) ->
  (forall t p, has_part s t p -> exists i, In (OMade i t p) os) /\
  (forall t, has_topic s t -> exists i, In (OTopic i t) os).
Proof. exact (nothing_else_made port ch evs s os). Qed.
Print Assumptions C14_nothing_else_creates.

Theorem C14_nondestructive port ch evs s A ev s' o i t p :
  run (init port ch) evs = (s, A) -> step s ev = (s', o) ->
  In (OTopic i t) o \/ In (OMade i t p) o ->
  (forall t' p', records_of s' t' p' = records_of s t' p') /\
  (forall t' p' g, offset_of s' t' p' g = offset_of s t' p' g) /\
  (forall t' p', has_part s' t' p' -> has_part s t' p' \/ (t', p') = (t, p)) /\
  (forall t' p', has_part s t' p' -> has_part s' t' p').
Proof. exact (creating port ch evs s A ev s' o i t p). Qed.
Print Assumptions C14_nondestructive.

(** When CreatePartitionTopics has returned, all its topics have the partition
    (the number taken modulo 2^32). *)
Theorem C14_create_call port ch evs s os i A ts p :
  run (init port ch) evs = (s, os) -> calls (init port ch) [] evs !! i = Some (A, CallCreate ts p) ->
  In (OReturn i) os -> forall t, In t ts -> has_part s t (as_int32 p) /\ has_topic s t.
Proof. exact (created_by_call port ch evs s os i A ts p). Qed.
Print Assumptions C14_create_call.

(** Creating an existing partition again, next to a new one. *)
Example C14_ex :
  let evs := demo_setup ++ [EvCall (CallCreate [topicA; topicB; groupA] 4294967298); EvApi 4; EvApi 4; EvApi 4;
    EvApi 4; EvApi 4; EvApi 4; EvApi 4] in
  let '(s, os) := run (init 9092 []) evs in
  length (records_of s topicA 2) = 2%nat /\ offset_of s topicA 2 groupA = 1 /\
  In (OReturn 4) os /\ bool_decide (is_Some (sDs s !! groupA)) = true /\
  option_map snd (calls (init 9092 []) [] evs !! 4%nat) = Some (CallCreate [topicA; topicB; groupA] 4294967298).
Proof. vm_compute. repeat split; auto 60. Qed.

(** ** C15 *)
Theorem C15_commit_is_max port ch evs s A ev s' o c t p g x :
  run (init port ch) evs = (s, A) -> step s ev = (s', o) -> In (OCommit c t p g x) o ->
  offset_of s' t p g = Z.max (offset_of s t p g) x /\ only_offset t p g s s'.
Proof. exact (committing port ch evs s A ev s' o c t p g x). Qed.
Print Assumptions C15_commit_is_max.

Theorem C15_at_least_committed port ch evs s A B c t p g x :
  run (init port ch) evs = (s, A ++ OCommit c t p g x :: B) ->
  (forall i y, ~ In (OSet i t p g y) B) -> x <= offset_of s t p g.
Proof. exact (at_least port ch evs s A B c t p g x). Qed.
Print Assumptions C15_at_least_committed.

Theorem C15_never_lower port ch e1 s1 A e2 s2 B t p g :
  run (init port ch) e1 = (s1, A) -> run s1 e2 = (s2, B) ->
  (forall i y, ~ In (OSet i t p g y) B) -> offset_of s1 t p g <= offset_of s2 t p g.
Proof. exact (never_lower port ch e1 s1 A e2 s2 B t p g). Qed.
Print Assumptions C15_never_lower.

Theorem C15_only_supplied_values port ch evs s os t p g :
  run (init port ch) evs = (s, os) ->
  offset_of s t p g = 0 \/ (exists i, In (OSet i t p g (offset_of s t p g)) os) \/
  (exists c, In (OCommit c t p g (offset_of s t p g)) os).
Proof. exact (supplied port ch evs s os t p g). Qed.
Print Assumptions C15_only_supplied_values.

(** Group g stands at 1 on (orders, 2): committing 5 takes effect, committing -3
    does not lower it. *)
Example C15_ex (m := w_request 8 2 7 clientA (w_commit_req groupA 0 [] 0 [(topicA, [(2, 5, None); (2, -3, None)])])) :
  let '(s, os) := demo_run m 10 in
  offset_of (demo_state m) topicA 2 groupA = 1 /\ offset_of s topicA 2 groupA = 5 /\
  In (OCommit 0 topicA 2 groupA 5) os /\ In (OCommit 0 topicA 2 groupA (-3)) os.
Proof. vm_compute. auto 20. Qed.

(** ** C17 *)
Theorem C17_sets_exactly_one port ch evs s A ev s' o i t p g x :
  run (init port ch) evs = (s, A) -> step s ev = (s', o) -> In (OSet i t p g x) o ->
  offset_of s' t p g = x /\ only_offset t p g s s'.
Proof. exact (setting port ch evs s A ev s' o i t p g x). Qed.
Print Assumptions C17_sets_exactly_one.

(** The call does this one thing if the partition exists when it is looked at,
    and nothing at all otherwise. *)
Theorem C17_call port ch evs s os i A t p g x :
  run (init port ch) evs = (s, os) -> calls (init port ch) [] evs !! i = Some (A, CallSet t p g x) ->
  In (OReturn i) os ->
  (done_by i os = [OSet i t (as_int32 p) g x; OReturn i] /\ tr_has t (as_int32 p) os = true) \/
  (done_by i os = [OReturn i] /\ since A os (fun A1 => tr_has t (as_int32 p) A1 = false)).
Proof. exact (set_by_call port ch evs s os i A t p g x). Qed.
Print Assumptions C17_call.

Theorem C17_existing port ch evs s os i A t p g x :
  run (init port ch) evs = (s, os) -> calls (init port ch) [] evs !! i = Some (A, CallSet t p g x) ->
  In (OReturn i) os -> tr_has t (as_int32 p) A = true -> In (OSet i t (as_int32 p) g x) os.
Proof. exact (set_existing port ch evs s os i A t p g x). Qed.
Print Assumptions C17_existing.

(** A step of a call that does none of these things changes nothing. *)
Theorem C17_C28_no_effect_no_change port ch evs s A ev s' o :
  run (init port ch) evs = (s, A) -> step s ev = (s', o) ->
  (forall x, In x o -> ~ changes_store x) ->
  (forall t p, records_of s' t p = records_of s t p) /\
  (forall t p g, offset_of s' t p g = offset_of s t p g) /\
  (forall t p, has_part s' t p <-> has_part s t p) /\ (forall t, has_topic s' t <-> has_topic s t).
Proof. exact (unchanged port ch evs s A ev s' o). Qed.
Print Assumptions C17_C28_no_effect_no_change.

(** Restart is such a step. *)
Theorem C31_restart_keeps_store port ch evs s A s' :
  run (init port ch) evs = (s, A) -> step s EvRestart = (s', [ORestart]) ->
  (forall t p, records_of s' t p = records_of s t p) /\
  (forall t p g, offset_of s' t p g = offset_of s t p g) /\
  (forall t p, has_part s' t p <-> has_part s t p) /\ (forall t, has_topic s' t <-> has_topic s t).
Proof. intros H1 H2. apply (unchanged port ch evs s A EvRestart s' [ORestart] H1 H2). intros x [<-|[]] H. exact H. Qed.
Print Assumptions C31_restart_keeps_store.

(** Back from 1 to -2 on an existing partition, nothing on a missing one. *)
Example C17_ex :
  let evs := demo_setup ++ [EvCall (CallSet topicA 2 groupA (-2)); EvApi 4; EvApi 4; EvApi 4;
                            EvCall (CallSet topicA 3 groupA 9); EvApi 5; EvApi 5; EvApi 5] in
  let '(s, os) := run (init 9092 []) evs in
  offset_of s topicA 2 groupA = -2 /\ done_by 5 os = [OReturn 5] /\
  done_by 4 os = [OSet 4 topicA 2 groupA (-2); OReturn 4] /\
  option_map snd (calls (init 9092 []) [] evs !! 5%nat) = Some (CallSet topicA 3 groupA 9).
Proof. vm_compute. auto. Qed.

(** ** C28 *)

(** A request whose api key is not 8 (OffsetCommit): nothing its connection does
    before the next request changes the store. *)
Theorem C28_reading_requests port ch A c m s :
  serving port ch A c m s -> (forall rest, m <> w_int16 8 ++ rest) ->
  forall evs s' B, run s evs = (s', B) ->
  forall x, In x (until_frame c B) -> obs_conn x = Some c -> ~ changes_store x.
Proof. exact (reading_only port ch A c m s). Qed.
Print Assumptions C28_reading_requests.

(** OffsetFetch of a group never seen, which makes the mock create an entry. *)
Example C28_ex (m := w_request 9 1 7 clientA (w_off_req topicB [(topicA, [2])])) :
  serving 9092 [] (demo_trace m) 0 m (demo_state m) /\ (forall rest, m <> w_int16 8 ++ rest) /\
  writes 0 (snd (demo_run m 9)) <> [] /\
  offset_of (demo_state m) topicA 2 topicB = 0 /\ offset_of (fst (demo_run m 9)) topicA 2 topicB = 0.
Proof.
  split; [apply demo_serving; vm_compute; reflexivity|]. split; [intros rest; vm_compute; discriminate|].
  split; [vm_compute; discriminate|]. vm_compute. auto.
Qed.
