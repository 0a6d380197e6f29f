(** * Closing: kafkaClient.Close beside the machine of [Server.v].

    [kafkaClient.Close] (kafka-client.go:142-158) closes one connection from
    another goroutine.  Nothing in the repository calls it; this file says what
    it would do.  One connection [c] is singled out; any number of calls of
    Close on it may be under way.  One step of a call is one access to the
    [stopping] flag, to a wait group or to the socket.

    The two wait groups are read off the connection's state:
    [requestWg] (kafka-client.go:31,131-138) counts 1 while a request is in the
    dispatcher, else 0; [wg] (kafka-client.go:30,73,79) counts 1 until handle
    ends.  Both counters are changed by one goroutine only, so a Done that
    releases waiters is one step here: between its parts no Add can happen, and
    a Wait finds the counter at zero and returns without counting itself. *)
From Verif Require Export Server.
From stdpp Require Import list.
Open Scope Z_scope.
Open Scope list_scope.

(** How far a call of Close has got. *)
Inductive kphase :=
| KStore   (* before kc.stopping.Store(true), kafka-client.go:144 *)
| KWait    (* before requestWg.Wait, kafka-client.go:148 *)
| KSleep   (* asleep in requestWg.Wait *)
| KWoken   (* released, about to check the counter once more (sync.WaitGroup.Wait) *)
| KShut    (* before conn.Close, kafka-client.go:151 *)
| KJoin    (* in wg.Wait, kafka-client.go:155 *)
| KDone.   (* returned *)

(** [kFd]: Close has closed the socket (kafka-client.go:151). *)
Record ksys := KSys { kS : sys; kStop : bool; kFd : bool; kCl : list kphase }.

Definition kinit (port : Z) (ch : list nat) : ksys := KSys (init port ch) false false [].

Inductive kobs :=
| KSrv (o : obs)            (* something [Server.v] observes *)
| KDropped (chunk : bytes)  (* bytes read and thrown away, kafka-client.go:119-123 *)
| KStopped (i : nat)        (* call i has set the flag *)
| KClosedFd (i : nat)       (* call i has closed the socket *)
| KReturned (i : nat)       (* call i has returned *)
| KPanicked (i : nat).      (* call i panics: "WaitGroup is reused before previous Wait has returned" *)

Inductive kevent :=
| KEv (ev : event)   (* the server goes on *)
| KClose             (* Close is called *)
| KStep (i : nat).   (* call i takes a step *)

(** A request of c is in the dispatcher: requestWg is not zero. *)
Definition busy (c : nat) (s : sys) : bool :=
  match sConns s !! c with
  | Some (Conn _ (CBusy _ _ _)) | Some (Conn _ (CSend _)) => true
  | _ => false
  end.
(** handle has ended: wg is zero. *)
Definition ended (c : nat) (s : sys) : bool :=
  match sConns s !! c with Some k => closed k | None => false end.
(** handle waits in conn.Read. *)
Definition in_read (c : nat) (s : sys) : bool :=
  match sConns s !! c with Some (Conn _ CRead) => true | _ => false end.
Definition in_send (c : nat) (s : sys) : bool :=
  match sConns s !! c with Some (Conn _ (CSend _)) => true | _ => false end.

(** What event [ev] turns into on connection [c], given the flag and the socket.
    - With the flag set, bytes read are dropped and the loop goes on
      (kafka-client.go:119-123), as after a time-out.
    - On a closed socket Read reports net.ErrClosed, which ends handle
      (kafka-client.go:109-116, net-utils.go:12): only [EvPeerClose] is left.
    - On a closed socket Write fails and isConnected, whose File() fails, says
      false (kafka-client.go:238-254): the error is ignored. *)
Definition allowed (c : nat) (k : ksys) (ev : event) : option event :=
  match ev with
  | EvRecv d _ =>
      if (d =? c)%nat then
        if kFd k then None else if kStop k then Some (EvTimeout c) else Some ev
      else Some ev
  | EvTimeout d | EvReadErr d => if (d =? c)%nat && kFd k then None else Some ev
  | EvConn d _ => if (d =? c)%nat && (kFd k && in_send c (kS k)) then Some (EvSendFail c true) else Some ev
  | EvSendFail d _ => if (d =? c)%nat && kFd k then Some (EvSendFail c true) else Some ev
  | _ => Some ev
  end.

Definition dropped (c : nat) (k : ksys) (ev : event) : list kobs :=
  match ev with
  | EvRecv d chunk => if (d =? c)%nat && (kStop k && in_read c (kS k)) then [KDropped chunk] else []
  | _ => []
  end.

(** requestWg.Done (kafka-client.go:134) releases those asleep. *)
Definition wake (p : kphase) : kphase := match p with KSleep => KWoken | _ => p end.

Definition set_call (k : ksys) (i : nat) (p : kphase) : ksys :=
  KSys (kS k) (kStop k) (kFd k) (<[i := p]> (kCl k)).

Definition kstep (c : nat) (k : ksys) (e : kevent) : ksys * list kobs :=
  if sCrash (kS k) then (k, []) else
  match e with
  | KEv ev =>
      match allowed c k ev with
      | Some ev' =>
          let '(s', os) := step (kS k) ev' in
          (KSys s' (kStop k) (kFd k)
             (if busy c (kS k) && negb (busy c s') then map wake (kCl k) else kCl k),
           dropped c k ev ++ map KSrv os)
      | None => (k, [])
      end
  | KClose =>
      match sConns (kS k) !! c with
      | Some _ => (KSys (kS k) (kStop k) (kFd k) (kCl k ++ [KStore]), [])
      | None => (k, [])
      end
  | KStep i =>
      match kCl k !! i with
      | Some KStore => (KSys (kS k) true (kFd k) (<[i := KWait]> (kCl k)), [KStopped i])
      | Some KWait => (set_call k i (if busy c (kS k) then KSleep else KShut), [])
      | Some KWoken =>
          if busy c (kS k) then (KSys (crash (kS k)) (kStop k) (kFd k) (kCl k), [KPanicked i])
          else (set_call k i KShut, [])
      | Some KShut => (KSys (kS k) (kStop k) true (<[i := KJoin]> (kCl k)), [KClosedFd i])
      | Some KJoin => if ended c (kS k) then (set_call k i KDone, [KReturned i]) else (k, [])
      | Some KSleep | Some KDone | None => (k, [])
      end
  end.

Fixpoint krun (c : nat) (k : ksys) (es : list kevent) : ksys * list kobs :=
  match es with
  | [] => (k, [])
  | e :: es' =>
      let '(k1, o1) := kstep c k e in
      let '(k2, o2) := krun c k1 es' in
      (k2, o1 ++ o2)
  end.
