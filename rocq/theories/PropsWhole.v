(** * PropsWhole: serving, starting and stopping together *)
From Verif Require Import WholeDemo.
From stdpp Require Import gmap list.
Open Scope Z_scope.
Open Scope list_scope.

(** ** C45 *)
(** Of every execution of the whole mock the start/stop part and the serving part
    are executions of their own machines: all that is proved about these holds
    here. *)
Theorem C45_parts port ch w A : wreach port ch w A ->
  lreach (wL w) (lpart A) /\ exists evs, run (init port ch) evs = (wS w, spart A).
Proof. exact (whole_parts port ch w A). Qed.
Print Assumptions C45_parts.
(** Connections see the lane of the current server. *)
Theorem C45_same_lane port ch w A : wreach port ch w A -> crashed (spart A) = false ->
  tr_cancelled (spart A) = lane_done (lG (wL w)).
Proof. exact (same_lane port ch w A). Qed.
Print Assumptions C45_same_lane.
(** A new server finds every connection of the one before closed. *)
Theorem C45_restart_possible port ch w A B i g C : wreach port ch w A -> A = B ++ WL (LLane i g) :: C ->
  crashed (spart B) = false -> exists C', C = WS ORestart :: C'.
Proof. exact (restart_possible port ch w A B i g C). Qed.
Print Assumptions C45_restart_possible.
(** When WaitForTermination gets through, when the server is down, when another one
    comes up: every connection ever let in has been closed; *)
Theorem C45_all_closed port ch w A B x C c : wreach port ch w A -> A = B ++ WL x :: C -> ends x = true ->
  crashed (spart B) = false -> In (WAccept c) B -> In (OClosed c) (spart B).
Proof. exact (served_before port ch w A B x C c). Qed.
Print Assumptions C45_all_closed.
(** each request it sent in full had been answered by then, and nothing happens on
    it any more. *)
Theorem C45_answered_before_end port ch es w A B x C c : wrun (winit port ch) es = (w, A) -> A = B ++ WL x :: C -> ends x = true ->
  crashed (spart B) = false -> In (WAccept c) B -> no_send_failure c es ->
  exists P Q, spart B = P ++ OClosed c :: Q /\ all_answered c P /\ (exists rest, framed_with c P rest /\ no_frame rest) /\
    reads c (Q ++ spart C) = [] /\ writes c (Q ++ spart C) = [] /\ frames c (Q ++ spart C) = [].
Proof. exact (answered_before port ch es w A B x C c). Qed.
Print Assumptions C45_answered_before_end.
(** From the moment a request is taken up until something of its reply is written
    the server does not end. *)
Theorem C45_request_holds port ch w0 A0 e w1 c m o es w2 B1 x B2 :
  wreach port ch w0 A0 -> wstep w0 e = (w1, WS (OFrame c m) :: o) -> wrun w1 es = (w2, B1 ++ WL x :: B2) -> ends x = true ->
  crashed (spart (o ++ B1)) = false -> no_send_failure c es -> writes c (spart B1) <> [].
Proof. exact (request_holds port ch w0 A0 e w1 c m o es w2 B1 x B2). Qed.
Print Assumptions C45_request_holds.
(** Hence one Fetch request whose next record does not fit makes the server
    unstoppable: no wait for termination ends unless the process crashes. *)
Theorem C45_too_big_blocks port ch w0 A0 e w1 c corr client r w mb ts extra t idx off max o es w2 B1 x B2 :
  let m := w_request 1 2 corr client (w_fetch_req r w mb ts ++ extra) in
  l_header 1 2 corr client = true -> l_fetch r w mb ts = true -> zlen (w_fetch_req r w mb ts) <= 4096 ->
  nonneg_offsets ts ->
  wreach port ch w0 A0 -> wstep w0 e = (w1, WS (OFrame c m) :: o) ->
  In (t, (idx, off, max)) (flat ts) -> tr_has t idx (spart A0) = true ->
  Z.max 0 max < log_size (skipn (Z.to_nat off) (tr_log t idx (spart A0))) ->
  wrun w1 es = (w2, B1 ++ WL x :: B2) -> ends x = true -> no_send_failure c es -> posts_small (spart A0 ++ spart B1) ->
  crashed (spart B1) = true.
Proof. exact (too_big_blocks port ch w0 A0 e w1 c corr client r w mb ts extra t idx off max o es w2 B1 x B2). Qed.
Print Assumptions C45_too_big_blocks.
(** While no request is in hand, the clients hanging up is enough for everything to
    come to rest (what that means: C33_rest_calls, C33_rest_server, C33_stop_wins). *)
Theorem C45_drains port ch es w A : wrun (winit port ch) es = (w, A) -> no_socket_error es -> crashed (spart A) = false ->
  (forall c, no_send_failure c es) -> (forall c, In (WAccept c) A -> quiet_conn c (spart A)) ->
  exists es' w' B, wrun w es' = (w', B) /\ Forall hanging_up es' /\ crashed (spart (A ++ B)) = false /\ lCrash (wL w') = false /\ at_rest (wL w').
Proof. exact (drains port ch es w A). Qed.
Print Assumptions C45_drains.

(** A request is answered, the server is stopped, the wait ends, another server
    starts. *)
Example C45_ex : exists B C D,
  whole_tr whole_events = B ++ WL (LFree 4) :: C ++ WL (LLane 5 1) :: D /\
  In (WAccept 0) B /\ crashed (spart (whole_tr whole_events)) = false /\
  length (frames 0 (spart B)) = 1%nat /\ wcount 0 (spart B) = 3%nat /\ D = [WS ORestart; WL (LReturn 5); WL (LListen 1)].
Proof.
  exists (firstn 40 (whole_tr whole_events)), (firstn 5 (skipn 41 (whole_tr whole_events))), (skipn 47 (whole_tr whole_events)).
  split; [vm_compute; reflexivity|]. split; [|vm_compute; auto].
  apply accepted_in. vm_compute. reflexivity.
Qed.
(** The same with a Fetch request for records that do not fit, the hypotheses of
    C45_too_big_blocks: RequestStop returns, WaitForTermination does not. *)
Example C45_ex_big :
  let w0 := whole_st (whole_setup w_big) in let A0 := whole_tr (whole_setup w_big) in
  let w1 := fst (wstep w0 (WServe (EvConn 0 ch0))) in
  let B := snd (wrun w1 (map WServe (repeat (EvConn 0 ch0) 40) ++ whole_stop ++ whole_again)) in
  wreach 9092 [] w0 A0 /\ snd (wstep w0 (WServe (EvConn 0 ch0))) = [WS (OFrame 0 w_big)] /\
  tr_has topicA 2 (spart A0) = true /\ Z.max 0 36 < log_size (skipn (Z.to_nat 0) (tr_log topicA 2 (spart A0))) /\
  In (WL (LReturn 3)) B /\ last B = Some (WL (LPanic 5 PStarted)) /\ existsb ends (lpart B) = false.
Proof.
  cbv zeta. split; [apply whole_reach|]. split; [vm_compute; reflexivity|]. split; [vm_compute; reflexivity|].
  split; [vm_compute; reflexivity|]. split; [vm_compute; tauto|]. split; vm_compute; reflexivity.
Qed.
(** The hypotheses of C45_drains, a client being connected. *)
Example C45_ex_drains :
  let es := whole_served w_ask in let A := whole_tr es in
  no_socket_error es /\ crashed (spart A) = false /\ (forall c, no_send_failure c es) /\ In (WAccept 0) A /\
  forall c, In (WAccept c) A -> quiet_conn c (spart A).
Proof.
  cbv zeta. split; [|split; [|split; [|split]]].
  - unfold no_socket_error, whole_served, whole_setup, ev_start, ev_conn, go. repeat (apply Forall_cons; split; [exact I|]). constructor.
  - vm_compute. reflexivity.
  - intros c g Hin. assert (E : forallb (fun e => match e with WServe (EvSendFail _ _) => false | _ => true end) (whole_served w_ask) = true) by (vm_compute; reflexivity).
    rewrite forallb_forall in E. specialize (E _ Hin). discriminate E.
  - apply accepted_in. vm_compute. reflexivity.
  - intros c Hin. assert (E : accepts (whole_tr (whole_served w_ask)) = [0%nat]) by (vm_compute; reflexivity).
    pose proof (accepts_only 0 c _ E Hin) as ->. split; [vm_compute; reflexivity|]. exists []. split; [|split; [|vm_compute; reflexivity]].
    + assert (F : frames 0 (spart (whole_tr (whole_served w_ask))) = [w_ask]) by (vm_compute; reflexivity). unfold framed_with. rewrite F.
      split; [vm_compute; reflexivity|]. repeat constructor.
    + intros m rest _ H. discriminate H.
Qed.
