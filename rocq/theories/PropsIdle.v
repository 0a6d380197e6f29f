(** * PropsIdle: a Read that times out is not noticed (C64) *)
From Verif Require Import IdleProofs Demo StreamSpec.
From stdpp Require Import gmap list.
Open Scope Z_scope.
Open Scope list_scope.

(** Whatever happens could have happened, with the same trace and the same store,
    if no Read had timed out but those that let a mock told to stop close a
    connection; calls, clients, clocks and stops as before. *)
Theorem C64_timeouts_unnoticed port ch evs s os : run (init port ch) evs = (s, os) ->
  exists evs' s', run (init port ch) evs' = (s', os) /\ sDs s' = sDs s /\ elsewhere evs' = elsewhere evs /\
    only_to_close port ch evs'.
Proof. exact (idle_unnoticed port ch evs s os). Qed.
Print Assumptions C64_timeouts_unnoticed.

(** A request that comes in two parts, with Reads timing out before, between and
    after; then the mock is told to stop.  Without the time-outs the trace is the
    same, but the last is needed. *)
Example C64_ex : let m := w_request 12 0 5 clientA (w_heartbeat_req groupA 1 []) in
  let a := firstn 15 (w_frame m) in let b := skipn 15 (w_frame m) in
  let E := EvConn 0 ch0 in let T := EvTimeout 0 in
  let evs := [EvAccept; E; T; E; EvRecv 0 a; E; T; E; T; E; EvRecv 0 b; E; E; E; E; E; E; E; E; T; EvCancel; E] in
  let evs' := [EvAccept; E; EvRecv 0 a; E; EvRecv 0 b; E; E; E; E; E; E; E; E; EvCancel; T; E] in
  snd (run (init 9092 []) evs) = snd (run (init 9092 []) evs') /\
  In (OClosed 0) (snd (run (init 9092 []) evs)) /\ wcount 0 (snd (run (init 9092 []) evs)) = 3%nat /\
  elsewhere evs = elsewhere evs' /\
  ~ In (OClosed 0) (snd (run (init 9092 []) [EvAccept; E; EvRecv 0 a; E; EvRecv 0 b; E; E; E; E; E; E; E; E; EvCancel; E])).
Proof.
  cbv zeta. split; [vm_compute; reflexivity|]. split; [vm_compute; repeat (first [left; reflexivity|right])|].
  split; [vm_compute; reflexivity|]. split; [reflexivity|]. vm_compute. intuition discriminate.
Qed.
