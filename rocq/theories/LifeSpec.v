(** * LifeSpec: vocabulary for starting and stopping, in terms of traces *)
From Verif Require Export Lifecycle.
From stdpp Require Import gmap list.
Open Scope Z_scope.
Open Scope list_scope.

(** A is the trace of an execution from a new mock, s the state it ends in. *)
Definition lreach (s : lsys) (A : list lobs) : Prop := exists es, lrun linit es = (s, A).

(** Whether the server is up after trace A: it went up and has not gone down. *)
Fixpoint up_from (b : bool) (A : list lobs) : bool :=
  match A with
  | [] => b
  | LUp _ :: A' => up_from true A'
  | LDown _ :: A' => up_from false A'
  | _ :: A' => up_from b A'
  end.
Definition up (A : list lobs) : bool := up_from false A.

(** Every connection has ended (its callback ran), every server is down. *)
Definition all_gone (A : list lobs) : Prop := forall g n, In (LConn g n) A -> In (LGone g n) A.
Definition all_down (A : list lobs) : Prop := forall g, In (LListen g) A -> In (LDown g) A.

(** x occurs in A, and y after it. *)
Definition then_ (A : list lobs) (x y : lobs) : Prop := exists B C, A = B ++ x :: C /\ In y C.
(** j is a call of Start or Restart in A that had neither returned nor panicked
    when call i began. *)
Definition start_overlaps (A : list lobs) (i j : nat) : Prop :=
  j <> i /\ (In (LBegin j CStart) A \/ In (LBegin j CRestart) A) /\
  forall c, ~ then_ A (LReturn j) (LBegin i c) /\ forall p, ~ then_ A (LPanic j p) (LBegin i c).

(** Goroutines not yet finished: a client until its callback has done
    [km.wg.Done()], [run] until its deferred function has. *)
Definition owes (c : list op) : bool :=
  existsb (fun o => match o with Work _ | Accept _ | CheckLane _ | DoneW WWg => true | _ => false end) c.
Definition client_live (t : gor) : bool := match gKind t with KClient _ _ => owes (gCode t) | _ => false end.
Definition run_live (t : gor) : bool := match gKind t with KRun _ => owes (gCode t) | _ => false end.

(** The server made last. *)
Fixpoint server_from (m : option nat) (A : list lobs) : option nat :=
  match A with
  | [] => m
  | LLane _ g :: A' => server_from (Some g) A'
  | _ :: A' => server_from m A'
  end.
Definition server (A : list lobs) : option nat := server_from None A.
(** Call i has come to an end. *)
Definition call_ended (A : list lobs) (i : nat) : Prop := In (LReturn i) A \/ exists p, In (LPanic i p) A.

(** An event that does something. *)
Definition effective (s : lsys) (e : levent) : Prop := lstep s e <> (s, []).
Fixpoint working (s : lsys) (es : list levent) : Prop :=
  match es with [] => True | e :: es' => effective s e /\ working (fst (lstep s e)) es' end.
(** Nothing is left to be done, once every connected client hangs up and nobody
    connects, calls the API or cancels the parent lane. *)
Definition at_rest (s : lsys) : Prop := forall i x, x = XGo \/ x = XEnd -> lstep s (LRun i x) = (s, []).
Definition goes_on (e : levent) : Prop := exists i x, e = LRun i x /\ (x = XGo \/ x = XEnd).
Definition is_xconn (e : levent) : bool := match e with LRun _ XConn => true | _ => false end.
Definition is_lcall (e : levent) : bool := match e with LCall _ => true | _ => false end.
Definition is_lparent (e : levent) : bool := match e with LParent => true | _ => false end.
Definition no_fail (e : levent) : Prop := match e with LRun _ XFail => False | _ => True end.
