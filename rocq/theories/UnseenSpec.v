(** * UnseenSpec: connections that only read *)
From Verif Require Export TraceSpec.
From stdpp Require Import gmap list.
Open Scope Z_scope.
Open Scope list_scope.

(** [Q] says which connections are meant.  What they read, take up and write. *)
Definition by_some (Q : nat -> bool) (o : obs) : bool :=
  match o with ORead c _ | OFrame c _ | OWrite c _ => Q c | _ => false end.
(** A trace without that. *)
Definition without (Q : nat -> bool) (A : list obs) : list obs :=
  List.filter (fun o => negb (by_some Q o)) A.

(** That one of them is closed. *)
Definition ending (Q : nat -> bool) (o : obs) : bool := match o with OClosed c => Q c | _ => false end.

Definition seen_by_others (Q : nat -> bool) (A : list obs) : list obs :=
  List.filter (fun o => negb (ending Q o)) (without Q A).

(** They commit no offset and do not bring the process down. *)
Definition only_read (Q : nat -> bool) (A : list obs) : Prop :=
  forall c, Q c = true -> ~ In (OCrash c) A /\ forall t p g o, ~ In (OCommit c t p g o) A.

(** The events that do not concern them. *)
Definition of_some (Q : nat -> bool) (e : event) : bool :=
  match e with
  | EvConn c _ | EvRecv c _ | EvTimeout c | EvPeerClose c | EvReadErr c | EvSendFail c _ => Q c
  | _ => false
  end.
Definition remaining (Q : nat -> bool) (evs : list event) : list event :=
  List.filter (fun e => negb (of_some Q e)) evs.

(** They are sent nothing. *)
Definition silent (Q : nat -> bool) (evs : list event) : Prop :=
  forall c chunk, Q c = true -> ~ In (EvRecv c chunk) evs.
