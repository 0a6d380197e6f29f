(** * AtomSpec: runs in which every critical section is one step.

    [Race.frun] interleaves single memory accesses; here a thread goes from Lock
    to the matching Unlock in one step, and there are no mutexes. *)
From Verif Require Import Race.
From stdpp Require Import gmap.
Open Scope Z_scope.
Open Scope list_scope.

(** The code of one thread, alone, up to and including the next Unlock. *)
Inductive section : store -> list mop -> store -> list mop -> Prop :=
| sec_unlock s m c : section s (MUnlock m :: c) s c
| sec_read s l k c s' c' : section s (k s ++ c) s' c' -> section s (Rd l k :: c) s' c'
| sec_write s l u c s' c' : section (u s) c s' c' -> section s (Wr l u :: c) s' c'
| sec_init s l c s' c' : section s c s' c' -> section s (Init l :: c) s' c'.

(** One step: some thread does a whole critical section, or one read outside. *)
Inductive bstep : store * list (list mop) -> store * list (list mop) -> Prop :=
| b_section s th i m c s' c' :
    th !! i = Some (MLock m :: c) -> section s c s' c' -> bstep (s, th) (s', <[i := c']> th)
| b_read s th i l k c :
    th !! i = Some (Rd l k :: c) -> bstep (s, th) (s, <[i := k s ++ c]> th).
Notation brun := (rtc bstep).

(** ** The same operations in Server.v *)

(** Where an operation runs there: as an API call or on a connection. *)
Inductive place := PCall (i : nat) | PConn (c : nat).

(** The operation is about to start / has finished at that place.  Fetch,
    ListOffsets and SyncGroup do not change the store and have no place. *)
Definition starts_at (s : sys) (o : dsop) (p : place) : Prop :=
  match o, p with
  | DCall _ c, PCall i => sThreads s !! i = Some (startCall c)
  | DCommit rq, PConn c => exists inb corr extra,
      sConns s !! c = Some (Conn inb (CBusy corr extra (TkCommit rq (plan (cqTopics rq)) None None [])))
  | DOffset rq _, PConn c => exists inb corr extra,
      sConns s !! c = Some (Conn inb (CBusy corr extra (TkOffOpen rq (plan (oqTopics rq)) None [])))
  | DFetch _ _, _ | DList _, _ | DSync _ _, _ => True
  | _, _ => False
  end.
Definition ends_at (s : sys) (o : dsop) (p : place) : Prop :=
  match o, p with
  | DCall _ _, PCall i => sThreads s !! i = Some AReturned
  | DCommit _, PConn c | DOffset _ _, PConn c => exists inb corr extra t v,
      sConns s !! c = Some (Conn inb (CBusy corr extra (TkRet t v)))
  | DFetch _ _, _ | DList _, _ | DSync _ _, _ => True
  | _, _ => False
  end.

(** ** Progress *)

(** Thread [i] can move. *)
Definition can_move (s : fsys) (i : nat) : Prop := exists s' e, fstep s i = (s', [e]).
Definition moves (s' s : fsys) : Prop := exists i e, fstep s i = (s', [e]).
(** It panicked inside a critical section: nothing left to do, mutex not released. *)
Definition died_holding (s : fsys) (i : nat) (m : mutex) : Prop := fTh s !! i = Some [] /\ fMu s m = Some i.
(** The operation is a Fetch that asks for a negative offset. *)
Definition fetches_negative (o : dsop) : Prop :=
  exists rq n t ps p, o = DFetch rq n /\ In (t, ps) (fqTopics rq) /\ In p ps /\ fpOffset p < 0.
