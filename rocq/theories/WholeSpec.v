(** * WholeSpec: vocabulary for the whole mock *)
From Verif Require Export Whole TraceSpec StreamSpec LifeSpec.
From stdpp Require Import gmap list.
Open Scope Z_scope.
Open Scope list_scope.

(** A is the trace of an execution from a new mock, w the state it ends in. *)
Definition wreach (port : Z) (ch : list nat) (w : whole) (A : list wobs) : Prop := exists es, wrun (winit port ch) es = (w, A).

(** The two traces in it. *)
Definition lpart (A : list wobs) : list lobs := omap (fun x => match x with WL y => Some y | _ => None end) A.
Definition spart (A : list wobs) : list obs := omap (fun x => match x with WS y => Some y | _ => None end) A.

(** What says that a server is at its end, or that there is none: a waiter got
    through [wg.Wait()], a call brought up a new server or made its lane, [run]
    reported the server down. *)
Definition ends (x : lobs) : bool := match x with LFree _ | LUp _ | LLane _ _ | LDown _ => true | _ => false end.
(** No write on connection c fails. *)
Definition no_send_failure (c : nat) (es : list wevent) : Prop := forall gone, ~ In (WServe (EvSendFail c gone)) es.
(** No Accept and no Listen fails. *)
Definition no_socket_error (es : list wevent) : Prop := Forall (fun e => match e with WLife e => no_fail e | _ => True end) es.
(** All requests that arrived on c have been answered. *)
Definition quiet_conn (c : nat) (os : list obs) : Prop :=
  wcount c os = (3 * length (frames c os))%nat /\ exists rest, framed_with c os rest /\ no_frame rest /\ zlen rest < 2 ^ 32.
(** Clients hang up and the goroutines of the mock go on; nothing else happens. *)
Definition hanging_up (e : wevent) : Prop :=
  match e with
  | WLife e => goes_on e
  | WServe (EvConn _ _) | WServe (EvPeerClose _) => True
  | _ => False
  end.
