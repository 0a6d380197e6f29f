(** * PropsNet: errors of the sockets (C48) *)
From Verif Require Import Server NetErrors NetSpec NetProofs.
From stdpp Require Import gmap.
Open Scope Z_scope.
Open Scope list_scope.

(** Every error value is judged in exactly one way. *)
Theorem C48_judged e : exists v, judged e v /\ forall w, judged e w -> w = v.
Proof. exact (net_judged e). Qed.
Print Assumptions C48_judged.

(** A Read that returns an error: with a passed deadline in it the goroutine goes
    on with what it has; with EOF or a closed socket in it, or when it is a reset
    reported directly, the goroutine ends; anything else ends the process.  The
    store, the callers and the other connections are not touched. *)
Theorem C48_read_error s c inb e v : sCrash s = false -> sConns s !! c = Some (Conn inb CRead) -> judged e v ->
  let s' := fst (step s (readError c e)) in
  sDs s' = sDs s /\ sThreads s' = sThreads s /\ (forall d, d <> c -> sConns s' !! d = sConns s !! d) /\
  match v with
  | VAgain => sCrash s' = false /\ sConns s' !! c = Some (Conn inb CLoop) /\ snd (step s (readError c e)) = []
  | VEnd => sCrash s' = false /\ sConns s' !! c = Some (Conn inb CClosed) /\ snd (step s (readError c e)) = [OClosed c]
  | VPanic => sCrash s' = true /\ snd (step s (readError c e)) = [OCrash c]
  end.
Proof. exact (net_read s c inb e v). Qed.
Print Assumptions C48_read_error.

(** Of what Read returns on a TCP connection, every errno but ECONNRESET ends the
    process. *)
Theorem C48_tcp_panics r : judged (tcpRead r) VPanic <-> exists n, r = ReadErrno n /\ n <> 104.
Proof. exact (net_tcp_panics r). Qed.
Print Assumptions C48_tcp_panics.

(** A reset wrapped once more, in whatever makes no claim of its own, is not
    recognised and ends the process. *)
Theorem C48_wrapped_reset k n : (forall f, k = KOther f -> forall t, f t = false) -> (forall t, k <> KSent t) ->
  judged (GErr k [tcpRead (ReadErrno n)]) VPanic.
Proof. exact (net_wrapped_reset k n). Qed.
Print Assumptions C48_wrapped_reset.

(** An Accept that returns an error: the loop is left for the same errors. *)
Theorem C48_accept_error e : acceptError e = true <-> holds e SEof \/ holds e SClosed \/ direct_reset e.
Proof. exact (net_accept e). Qed.
Print Assumptions C48_accept_error.

(** A reply that cannot be written ends the process exactly when the socket can be
    examined and looking for input on it gives an error (such as: nothing there).
    Otherwise the rest of the reply is dropped and the connection goes on. *)
Theorem C48_send_error s c inb chunks file peek :
  sCrash s = false -> sConns s !! c = Some (Conn inb (CSend chunks)) ->
  let s' := fst (step s (sendError c file peek)) in
  sDs s' = sDs s /\ sThreads s' = sThreads s /\ (forall d, d <> c -> sConns s' !! d = sConns s !! d) /\
  (sCrash s' = true <-> file = true /\ peek <> None) /\
  (sCrash s' = false -> sConns s' !! c = Some (Conn inb CLoop) /\ snd (step s (sendError c file peek)) = []).
Proof. exact (net_send s c inb chunks file peek). Qed.
Print Assumptions C48_send_error.

(** A client is gone without a word: Read reports a timeout of the connection
    (ETIMEDOUT, 110), which is no passed deadline, and the process ends. *)
Example C48_vanished_client :
  let s := fst (run (init 9092 []) [EvAccept; EvConn 0 (Ch [] []); EvAccept]) in
  sCrash s = false /\ sConns s !! 0%nat = Some (Conn [] CRead) /\
  judged (tcpRead (ReadErrno 110)) VPanic /\ judged (tcpRead (ReadErrno 104)) VEnd /\ judged (tcpRead ReadDeadline) VAgain /\
  sCrash (fst (step s (readError 0 (tcpRead (ReadErrno 110))))) = true /\
  sConns (fst (step s (readError 0 (tcpRead (ReadErrno 104))))) = [Conn [] CClosed; Conn [] CLoop].
Proof.
  cbv zeta. repeat split; try (vm_compute; reflexivity).
  - apply net_tcp_panics. exists 110. split; [reflexivity|discriminate].
  - apply (net_tcp (ReadErrno 104)).
  - apply (net_tcp ReadDeadline).
Qed.

(** A reply (to LeaveGroup) is due and cannot be written. *)
Example C48_reply_fails :
  let frame := [0; 0; 0; 17; 0; 13; 0; 0; 0; 0; 0; 5; 0; 1; 99; 0; 1; 103; 0; 1; 109] in
  let s := fst (run (init 9092 []) [EvAccept; EvConn 0 (Ch [] []); EvRecv 0 frame; EvConn 0 (Ch [] []); EvConn 0 (Ch [] [])]) in
  (exists chunks, sConns s !! 0%nat = Some (Conn [] (CSend chunks))) /\ sCrash s = false /\
  sCrash (fst (step s (sendError 0 true (Some 11)))) = true /\
  sConns (fst (step s (sendError 0 true None))) = [Conn [] CLoop] /\
  sConns (fst (step s (sendError 0 false (Some 11)))) = [Conn [] CLoop].
Proof. cbv zeta. split; [eexists; vm_compute; reflexivity|]. repeat split; vm_compute; reflexivity. Qed.
