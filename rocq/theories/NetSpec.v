(** * NetSpec: errors within errors *)
From Coq Require Import List ZArith.
From Verif Require Import NetErrors.
Import ListNotations.
Open Scope Z_scope.
Open Scope list_scope.

(** [x] is [e], or wrapped in it at whatever depth. *)
Inductive within : gerr -> gerr -> Prop :=
| within_self e : within e e
| within_under k l y x : In y l -> within y x -> within (GErr k l) x.

(** The error variable [t] is in [e], or something in [e] declares itself to be [t]. *)
Definition holds (e : gerr) (t : sentinel) : Prop :=
  exists x l, within e x /\ (x = GErr (KSent t) l \/ exists f, x = GErr (KOther f) l /\ f t = true).

(** A connection reset reported by a system call of the connection itself. *)
Definition direct_reset (e : gerr) : Prop := exists l, e = GErr KOp [GErr KSys [GErr (KErrno 104) l]].

(** What the goroutine of a connection in Read does. *)
Inductive verdict := VAgain | VEnd | VPanic.
Inductive judged : gerr -> verdict -> Prop :=
| j_again e : holds e SDeadline -> judged e VAgain
| j_end e : ~ holds e SDeadline -> holds e SEof \/ holds e SClosed \/ direct_reset e -> judged e VEnd
| j_panic e : ~ holds e SDeadline -> ~ holds e SEof -> ~ holds e SClosed -> ~ direct_reset e -> judged e VPanic.
