(** * PropsLife: starting, stopping, restarting (C31-C34, C41) *)
From Verif Require Import LifeDemo.
From stdpp Require Import gmap list.
Open Scope Z_scope.
Open Scope list_scope.

(** ** C31: the calls *)
(** Start panics only because the server is up, *)
Theorem C31_start_panics s A B i p C : lreach s A -> A = B ++ LPanic i p :: C -> In (LBegin i CStart) B ->
  p = PStarted /\ up B = true.
Proof. exact (start_panics s A B i p C). Qed.
Print Assumptions C31_start_panics.
(** a call that returns has brought it up, *)
Theorem C31_start_returns s A B i C : lreach s A -> A = B ++ LReturn i :: C ->
  In (LBegin i CStart) B \/ In (LBegin i CRestart) B -> In (LUp i) B.
Proof. exact (start_returns s A B i C). Qed.
Print Assumptions C31_start_returns.
(** and it comes up only when it is down and nothing is left of any server
    before it. *)
Theorem C31_C32_up_alone s A B i C : lreach s A -> A = B ++ LUp i :: C -> up B = false /\ all_gone B /\ all_down B.
Proof. exact (up_alone s A B i C). Qed.
Print Assumptions C31_C32_up_alone.

(** FinishRequests panics if there was no Start, and cancels a lane otherwise. *)
Theorem C31_finish_panics s A B i p C : lreach s A -> A = B ++ LPanic i p :: C -> In (LBegin i CFinish) B ->
  p = PNil /\ forall j g, ~ In (LLane j g) B.
Proof. exact (finish_panics s A B i p C). Qed.
Print Assumptions C31_finish_panics.
Theorem C31_finish_returns s A B i C : lreach s A -> A = B ++ LReturn i :: C -> In (LBegin i CFinish) B ->
  exists g, In (LCancel i g) B.
Proof. exact (finish_returns s A B i C). Qed.
Print Assumptions C31_finish_returns.

(** Between two stop requests that take effect there is a Start, and only a stop
    request that takes effect touches the listener. *)
Theorem C31_stop_once s A B i M j C : lreach s A -> A = B ++ LStop i :: M ++ LStop j :: C -> exists k, In (LReset k) M.
Proof. exact (stop_once s A B i M j C). Qed.
Print Assumptions C31_stop_once.
Theorem C31_stop_touches s A B x C : lreach s A -> A = B ++ x :: C ->
  match x with
  | LClose i g => In (LStop i) B
  | LCancel i g => In (LStop i) B \/ In (LBegin i CFinish) B
  | _ => True
  end.
Proof. exact (stop_touches s A B x C). Qed.
Print Assumptions C31_stop_touches.

(** Without a Start nothing happens but calls, their return, and the panic of
    FinishRequests; RequestStop and WaitForTermination return after four steps of
    their own; and a Start then does the same as on a new mock. *)
Theorem C31_before_start s A : lreach s A -> no_start A -> lCrash s = false /\ Forall quiet_obs A.
Proof. intros R H. destruct (early_inv s A R H) as (_ & H1 & _ & H2). exact (conj H1 H2). Qed.
Print Assumptions C31_before_start.
Theorem C31_before_start_returns s A i : lreach s A -> no_start A -> In (LBegin i CStop) A \/ In (LBegin i CWait) A ->
  In (LReturn i) (A ++ snd (lrun s (repeat (LRun i XGo) 4))).
Proof. exact (early_returns s A i). Qed.
Print Assumptions C31_before_start_returns.
Theorem C31_first_start s A : lreach s A -> no_start A -> hParent (lG s) = false ->
  lG (fst (lrun s (start_alone (length (lT s))))) = lG (fst (lrun linit (start_alone 0))) /\
  In (LReturn (length (lT s))) (snd (lrun s (start_alone (length (lT s))))).
Proof. exact (early_start s A). Qed.
Print Assumptions C31_first_start.

(** When WaitForTermination returns and no Start overlapped it, the server is
    down. *)
Theorem C31_C32_wait_returns s A B i C : lreach s A -> A = B ++ LReturn i :: C -> In (LBegin i CWait) B ->
  In (LFree i) B /\ ((exists j, start_overlaps B i j) \/ (up B = false /\ all_gone B /\ all_down B)).
Proof. exact (wait_returns s A B i C). Qed.
Print Assumptions C31_C32_wait_returns.

(** When Restart returns, the server it made listens.  (That the store is kept:
    C31_restart_keeps_store in PropsStore.v.) *)
Theorem C31_restart_listens s A B i C : lreach s A -> A = B ++ LReturn i :: C -> In (LBegin i CRestart) B ->
  exists g, In (LLane i g) B /\ In (LListen g) B.
Proof. exact (restart_listens s A B i C). Qed.
Print Assumptions C31_restart_listens.

(** Short of socket and protocol errors no call and no schedule ends the
    process. *)
Theorem C31_no_crash es s A : Forall no_fail es -> lrun linit es = (s, A) -> lCrash s = false /\ forall p, ~ In (LDie p) A.
Proof. exact (no_crash es s A). Qed.
Print Assumptions C31_no_crash.
Theorem C31_dies_other s A p : lreach s A -> In (LDie p) A -> p = POther.
Proof. exact (dies_other s A p). Qed.
Print Assumptions C31_dies_other.

(** Start, two connections, stop, both end, WaitForTermination, Restart. *)
Example C31_ex : lreach (st full_events) (tr full_events) /\
  tr full_events =
   [LBegin 0 CStart; LUp 0; LFresh 0; LReset 0; LLane 0 0; LReturn 0; LListen 0; LConn 0 1; LConn 0 2; LGone 0 1;
    LBegin 4 CStop; LStop 4; LClose 4 0; LCancel 4 0; LReturn 4; LGone 0 2; LDown 0;
    LBegin 5 CWait; LFree 5; LReturn 5;
    LBegin 6 CRestart; LFree 6; LUp 6; LFresh 6; LReset 6; LLane 6 1; LListen 1; LReturn 6].
Proof. split; [exists full_events; apply surjective_pairing|vm_compute; reflexivity]. Qed.
(** A second Start panics, FinishRequests cancels the lane. *)
Example C31_ex_twice : lreach (st twice_events) (tr twice_events) /\
  tr twice_events =
   [LBegin 0 CStart; LUp 0; LFresh 0; LReset 0; LLane 0 0; LReturn 0; LListen 0;
    LBegin 2 CStart; LPanic 2 PStarted; LBegin 3 CFinish; LCancel 3 0; LReturn 3].
Proof. split; [exists twice_events; apply surjective_pairing|vm_compute; reflexivity]. Qed.
Example C31_ex_early :
  tr [LCall CFinish; LRun 0 XGo; LCall CStop; LRun 1 XGo; LRun 1 XGo; LRun 1 XGo; LCall CStop; LRun 2 XGo; LRun 2 XGo] =
  [LBegin 0 CFinish; LPanic 0 PNil; LBegin 1 CStop; LStop 1; LReturn 1; LBegin 2 CStop; LReturn 2].
Proof. vm_compute. reflexivity. Qed.
(** Listen fails. *)
Example C31_ex_dies : In (LDie POther) (tr (LCall CStart :: go 0 10 ++ [LRun 1 XFail])).
Proof. vm_compute. tauto. Qed.

(** ** C32: the counters *)
Theorem C32_no_negative s A : lreach s A -> ~ In (LDie PNegative) A /\ forall i, ~ In (LPanic i PNegative) A.
Proof. exact (no_negative s A). Qed.
Print Assumptions C32_no_negative.
(** Whoever gets through [wg.Wait()] does so when every connection has ended and
    every server is down. *)
Theorem C32_released s A B i C : lreach s A -> A = B ++ LFree i :: C -> all_gone B /\ all_down B.
Proof. exact (released_all s A B i C). Qed.
Print Assumptions C32_released.
(** Whenever nobody holds the mutex, [active] counts the client goroutines and
    [wg] these and the accept loops. *)
Theorem C32_counters s A : lreach s A -> hMu (lG s) = None ->
  hAct (lG s) = number client_live (lT s) /\ hWg (lG s) = number client_live (lT s) + number run_live (lT s).
Proof. exact (counters s A). Qed.
Print Assumptions C32_counters.
Example C32_ex : let s := st (ev_start ++ ev_conn ++ ev_conn) in
  lreach s (tr (ev_start ++ ev_conn ++ ev_conn)) /\ hMu (lG s) = None /\
  number client_live (lT s) = 2 /\ number run_live (lT s) = 1 /\ hWg (lG s) = 3.
Proof. split; [exists (ev_start ++ ev_conn ++ ev_conn); apply surjective_pairing|vm_compute; auto]. Qed.

(** ** C33: stop requests *)
(** When a stop request that takes effect returns, and no Start overlaps it, the
    server was down or its listener has been closed and its lane cancelled. *)
Theorem C33_stop_closes s A B i C : lreach s A -> A = B ++ LReturn i :: C -> In (LBegin i CStop) B -> In (LStop i) B ->
  (exists j, start_overlaps B i j) \/ up B = false \/
  exists g k, server B = Some g /\ In (LClose k g) B /\ In (LCancel i g) B.
Proof. exact (stop_closes s A B i C). Qed.
Print Assumptions C33_stop_closes.
(** Every execution can go on until all is at rest, by whatever choice of steps:
    the number of steps is bounded by the number of calls and connections. *)
Theorem C33_comes_to_rest s : exists es, Forall goes_on es /\ at_rest (fst (lrun s es)).
Proof. exact (comes_to_rest s). Qed.
Print Assumptions C33_comes_to_rest.
Theorem C33_bounded_work es : working linit es ->
  Z.of_nat (length es) <= 1 + 14 * tally is_xconn es + 46 * tally is_lcall es + tally is_lparent es.
Proof. exact (work_bound es linit). Qed.
Print Assumptions C33_bounded_work.
(** At rest no call hangs, unless it waits for a server that is up; and the server
    is down with nothing left of it, or it listens. *)
Theorem C33_rest_calls s A i cl : lreach s A -> lCrash s = false -> at_rest s -> In (LBegin i cl) A ->
  call_ended A i \/ (up A = true /\ (cl = CWait \/ cl = CRestart)).
Proof. exact (rest_calls s A i cl). Qed.
Print Assumptions C33_rest_calls.
Theorem C33_rest_server s A : lreach s A -> lCrash s = false -> at_rest s ->
  all_gone A /\
  ((up A = false /\ all_down A /\ forall i cl, In (LBegin i cl) A -> call_ended A i) \/
   (up A = true /\ exists g, server A = Some g /\ In (LListen g) A /\ forall k, ~ In (LClose k g) A)).
Proof. exact (rest_server s A). Qed.
Print Assumptions C33_rest_server.
(** A stop request that takes effect, all Starts having ended before it, wins. *)
Theorem C33_stop_wins s A i : lreach s A -> lCrash s = false -> at_rest s -> In (LBegin i CStop) A -> In (LStop i) A ->
  (forall j, ~ start_overlaps A i j) ->
  up A = false /\ all_gone A /\ all_down A /\ forall j cl, In (LBegin j cl) A -> call_ended A j.
Proof. exact (stop_wins s A i). Qed.
Print Assumptions C33_stop_wins.
(** But one that overlaps Start may be lost, for good. *)
Theorem C33_lost_stop : exists s A,
  lreach s A /\ In (LBegin 0 CStart) A /\ In (LReturn 0) A /\ In (LBegin 1 CStop) A /\ In (LStop 1) A /\ In (LReturn 1) A /\
  up A = true /\ server A = Some 0%nat /\ In (LListen 0) A /\ at_rest s /\
  forall es s' o, Forall no_fail es -> lrun s es = (s', o) ->
    up (A ++ o) = true /\
    Forall (fun x => match x with LBegin _ _ | LReturn _ | LPanic _ PStarted | LCancel _ _ => True | _ => False end) o /\
    forall i cl, cl = CWait \/ cl = CRestart -> In (LBegin i cl) (A ++ o) -> ~ call_ended (A ++ o) i.
Proof. exact lost_stop. Qed.
Print Assumptions C33_lost_stop.
(** The hypotheses of C33_stop_wins met, with two clients connected. *)
Example C33_ex : exists es, let s := st es in let A := tr es in
  lreach s A /\ lCrash s = false /\ at_rest s /\ In (LBegin 4 CStop) A /\ In (LStop 4) A /\
  (forall j, ~ start_overlaps A 4 j) /\ In (LConn 0 2) A /\ working linit es.
Proof. exact stop_demo. Qed.

(** ** C34: the table of clients *)
(** Number n is in the table iff a connection got it since the last Start and since
    then none ended before another was registered. *)
Theorem C34_table s A : lreach s A -> forall n, n ∈ hTable (lG s) <->
  exists A1 g C, A = A1 ++ LConn g n :: C /\ (forall i, ~ In (LFresh i) C) /\
    forall C1 g' m C2, C = C1 ++ LGone g' m :: C2 -> exists g'' k, In (LConn g'' k) C1.
Proof. exact (table_is s A). Qed.
Print Assumptions C34_table.
(** The table has been right all along iff only the connection registered last
    ever ended. *)
Theorem C34_exact_iff s A : lreach s A ->
  (newest_ends A <-> forall s1 B, lreach s1 B -> B `prefix_of` A -> forall n, n ∈ hTable (lG s1) <-> connected B n).
Proof. exact (exact_iff s A). Qed.
Print Assumptions C34_exact_iff.
(** Of two connections the first ends, and the second is struck off. *)
Example C34_ex : lreach (st two_events) (tr two_events) /\ hTable (lG (st two_events)) = {[1%nat]} /\
  connected (tr two_events) 2 /\ ~ connected (tr two_events) 1.
Proof. exact table_demo. Qed.

(** ** C41: reuse of the wait groups *)
(** RequestStop, WaitForTermination and Restart panic only because of an
    overlapping Start or Restart. *)
Theorem C41_stop_panics s A B i p C cl : lreach s A -> A = B ++ LPanic i p :: C -> In (LBegin i cl) B ->
  cl = CStop \/ cl = CWait -> p = PReuse /\ exists j, start_overlaps B i j.
Proof. exact (stop_panics s A B i p C cl). Qed.
Print Assumptions C41_stop_panics.
Theorem C41_restart_panics s A B i p C : lreach s A -> A = B ++ LPanic i p :: C -> In (LBegin i CRestart) B ->
  ((p = PStarted /\ up B = true) \/ p = PReuse) /\ exists j, start_overlaps B i j.
Proof. exact (restart_panics s A B i p C). Qed.
Print Assumptions C41_restart_panics.
(** And that happens: a WaitForTermination that is about to return panics because
    Start is called. *)
Example C41_ex : lreach (st reuse_events) (tr reuse_events) /\
  tr reuse_events =
   [LBegin 0 CStart; LUp 0; LFresh 0; LReset 0; LLane 0 0; LReturn 0; LListen 0;
    LBegin 2 CWait; LBegin 3 CStop; LStop 3; LClose 3 0; LCancel 3 0; LReturn 3; LDown 0;
    LBegin 4 CStart; LUp 4; LFresh 4; LReset 4; LLane 4 1; LPanic 2 PReuse].
Proof. split; [exists reuse_events; apply surjective_pairing|vm_compute; reflexivity]. Qed.
