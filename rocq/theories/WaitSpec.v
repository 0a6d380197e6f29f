(** * WaitSpec: vocabulary for the wait groups taken apart *)
From Verif Require Export WaitGroups LifeSpec.
From stdpp Require Import gmap list.
Open Scope Z_scope.
Open Scope list_scope.

(** A is the trace of an execution from a new mock, f the state it ends in. *)
Definition freach (f : fsys) (A : list fobs) : Prop := exists es, frun finit es = (f, A).
(** The observations of Lifecycle.v in a trace. *)
Definition seen (A : list fobs) : list lobs := flat_map (fun y => match y with FL x => [x] | _ => [] end) A.
(** No wait group panicked with "misuse". *)
Definition no_misuse (A : list fobs) : Prop := forall y, In y A -> exists x, y = FL x.

(** The calls that wait, and those that start a server. *)
Definition waiting_call (c : lcall) : Prop := c = CStop \/ c = CWait \/ c = CRestart.
Definition starting_call (c : lcall) : Prop := c = CStart \/ c = CRestart.
(** No Start or Restart overlaps a RequestStop, WaitForTermination or Restart:
    of two such calls the one that begins later begins after the other ended. *)
Definition apart (A : list lobs) : Prop := forall B i ci C j cj,
  A = B ++ LBegin j cj :: C -> In (LBegin i ci) B -> (waiting_call ci /\ starting_call cj \/ starting_call ci /\ waiting_call cj) -> call_ended B i.

(** Nothing is left to be done, as [at_rest]. *)
Definition f_at_rest (f : fsys) : Prop := forall i x, x = XGo \/ x = XEnd -> fstep f (LRun i x) = (f, []).
