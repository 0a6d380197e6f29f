(** * Whole: Server.v and Lifecycle.v put together

    The two machines run side by side.  They share: the lane of the current server
    ([sCancel] there, [lane_done] here), the connections the accept loop lets in,
    the client goroutines, which serve one connection each, and the crash of a
    connection.  Everything else interleaves freely. *)
From Verif Require Export Server Lifecycle.
From stdpp Require Import gmap list.
Open Scope Z_scope.
Open Scope list_scope.

(** The goroutine that has connection c: until it is registered
    (kafka-mock.go:145-158) the accept loop, then its client goroutine. *)
Record whole := Whole { wL : lsys; wS : sys; wOwner : list nat }.

Inductive wobs :=
| WL (x : lobs)
| WS (x : obs)
| WAccept (c : nat).       (* the accept loop let in connection c *)

(** [WLife]: a step of the start/stop machine, with what it means for the
    connections.  [WServe]: a step of a connection, an API call or a clock. *)
Inductive wevent := WLife (e : levent) | WServe (e : event).

Definition conn_of (e : event) : option nat :=
  match e with
  | EvConn c _ | EvRecv c _ | EvTimeout c | EvPeerClose c | EvReadErr c | EvSendFail c _ => Some c
  | _ => None
  end.
(** Goroutine i is serving (kafka-client.go:85-142). *)
Definition at_work (l : lsys) (i : nat) : bool :=
  match lT l !! i with Some (Gor (KClient _ _) (Work _ :: _)) => true | _ => false end.
Definition may_serve (w : whole) (e : event) : bool :=
  match e with
  | EvAccept | EvCancel | EvRestart => false      (* these come with a [WLife] step *)
  | _ => match conn_of e with
         | Some c => match wOwner w !! c with Some i => at_work (wL w) i | None => false end
         | None => true
         end
  end.

(** The operation an event performs. *)
Definition op_of (l : lsys) (e : levent) : option op :=
  match e with
  | LRun i _ => match lT l !! i with Some (Gor _ (o :: _)) => Some o | _ => None end
  | _ => None
  end.
(** A client goroutine ends once its connection is closed, and panics only if
    serving it did. *)
Definition may_end (w : whole) (i : nat) (x : oracle) : bool :=
  match x with
  | XEnd => forallb (fun ck : nat * conn => negb (fst ck =? i)%nat || closed (snd ck)) (combine (wOwner w) (sConns (wS w)))
  | XFail => sCrash (wS w)
  | _ => true
  end.
(** What a step of the start/stop machine is for the connections. *)
Definition effect (l : lsys) (e : levent) : list event :=
  match e with
  | LParent => [EvCancel]
  | _ =>
      match op_of l e with
      | Some CancelFn => match hLane (lG l) with Some _ => [EvCancel] | None => [] end
      | Some NewLane => EvRestart :: (if hParent (lG l) then [EvCancel] else [])
      | Some (CheckLane _) => if lane_done (lG l) then [] else [EvAccept]
      | _ => []
      end
  end.
Definition owners (w : whole) (e : levent) : list nat :=
  match e with
  | LRun i _ =>
      match op_of (wL w) e with
      | Some (CheckLane _) => if lane_done (lG (wL w)) then wOwner w else wOwner w ++ [i]
      | Some (Register _) => map (fun j => if (j =? i)%nat then length (lT (wL w)) else j) (wOwner w)
      | _ => wOwner w
      end
  | _ => wOwner w
  end.
Definition accepted (w : whole) (e : levent) : list wobs :=
  match op_of (wL w) e with
  | Some (CheckLane _) => if lane_done (lG (wL w)) then [] else [WAccept (length (wOwner w))]
  | _ => []
  end.
Definition allowed (w : whole) (e : levent) : bool :=
  match e with
  | LRun i x => match op_of (wL w) e with Some (Work _) => may_end w i x | _ => true end
  | _ => true
  end.

(** Once the process has panicked nothing happens any more; while a client
    goroutine that panicked runs its deferred functions ([sCrash]), the start/stop
    machine goes on, and the connections do not. *)
Definition wstep (w : whole) (e : wevent) : whole * list wobs :=
  if lCrash (wL w) then (w, []) else
  match e with
  | WLife e =>
      if allowed w e then
        let '(l', o) := lstep (wL w) e in
        if sCrash (wS w) then (Whole l' (wS w) (wOwner w), map WL o) else
        let '(s', o') := run (wS w) (effect (wL w) e) in
        (Whole l' s' (owners w e), accepted w e ++ map WL o ++ map WS o')
      else (w, [])
  | WServe e =>
      if may_serve w e then
        let '(s', o) := step (wS w) e in (Whole (wL w) s' (wOwner w), map WS o)
      else (w, [])
  end.
Fixpoint wrun (w : whole) (es : list wevent) : whole * list wobs :=
  match es with
  | [] => (w, [])
  | e :: es' => let '(w1, o1) := wstep w e in let '(w2, o2) := wrun w1 es' in (w2, o1 ++ o2)
  end.
Definition winit (port : Z) (ch : list nat) : whole := Whole linit (init port ch) [].
