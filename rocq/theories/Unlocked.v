(** * Unlocked: the two readers that take no lock, access by access.

    [Server.v] lets ListOffsets read a partition's records, and SyncGroup the
    maps of topics and partitions, in one step.  The code does it in many steps
    and without a lock (C35).  Here the server goes on between any two of them.

    Simplifications: a read sees the latest write (sequential consistency), and
    the Go runtime does not notice that a map is written while it is iterated
    (if it does, the process ends). *)
From Verif Require Export CallSpec.
From stdpp Require Import gmap list.
Open Scope Z_scope.
Open Scope list_scope.

(** Where a reader stands.
    - [UTime t p T]: list_offsets.go:73-82 before the first access; [ULoop n ts]:
      before the access to [kp.Records[n-1]], [ts] as in the code.
    - [UFirst]: list_offsets.go:66 before [len]; [UFirst1]: list_offsets.go:69.
    - [ULast]: list_offsets.go:64; the language does not say whether the clock or
      the length is read first.
    - [USync]: sync_group.go:58-59 before the iteration over the topics begins.
      [UTopics must seen]: in it; [must] are the keys there were at its
      beginning, [seen] those produced so far.  [UParts]: the same for the
      partitions of topic [t], sync_group.go:61-63.
    - [UList tm o], [UAssign asg]: done.  [UPanic]: index out of range. *)
Definition assignment : Type := list (bytes * list Z).
Inductive ureader :=
| UTime (t : bytes) (p T : Z)
| ULoop (t : bytes) (p T : Z) (n : nat) (ts : Z)
| UFirst (t : bytes) (p : Z)
| UFirst1 (t : bytes) (p : Z)
| ULast (t : bytes) (p : Z) (tm o : option Z)
| USync
| UTopics (must seen : list bytes) (acc : assignment)
| UParts (must seen : list bytes) (acc : assignment) (t : bytes) (pmust pseen pars : list Z)
| UList (tm o : Z)
| UAssign (asg : assignment)
| UPanic.

(** What a step of the reader does where there is a choice. *)
Inductive uchoice :=
| UGo                (* the next access *)
| UClock             (* read the clock *)
| UTopic (t : bytes) (* the iteration produces topic t *)
| UPart (p : Z)      (* the iteration produces partition p *)
| UEnd.              (* the iteration ends *)

Definition inb {A} `{EqDecision A} (x : A) (l : list A) : bool := bool_decide (x ∈ l).
Definition utopics (s : sys) : list bytes := map fst (map_to_list (sDs s)).
Definition uparts (s : sys) (t : bytes) : list Z :=
  match sDs s !! t with Some kt => map fst (map_to_list kt) | None => [] end.

(** The Go specification on iterating a map: entries there from the beginning
    are produced, entries added meanwhile may be, none is produced twice.
    sync_group.go:59-66 and list_offsets.go:62-84, one access. *)
Definition rstep (s : sys) (r : ureader) (c : uchoice) : ureader :=
  match r, c with
  | UTime t p T, UGo => ULoop t p T (length (records_of s t p)) 0
  | ULoop t p T O ts, UGo => UList ts 0
  | ULoop t p T (S i) ts, UGo =>
      match nth_error (records_of s t p) i with
      | Some x => if rTs x <? T then UList (rTs x) (Z.of_nat i + 1) else ULoop t p T i (rTs x)
      | None => UPanic
      end
  | UFirst t p, UGo => match records_of s t p with [] => UList 0 0 | _ => UFirst1 t p end
  | UFirst1 t p, UGo => match records_of s t p with [] => UPanic | x :: _ => UList (rTs x) 0 end
  | ULast t p None o, UClock =>
      match o with Some o => UList (sWall s) o | None => ULast t p (Some (sWall s)) None end
  | ULast t p tm None, UGo =>
      let o := zlen (records_of s t p) in
      match tm with Some tm => UList tm o | None => ULast t p None (Some o) end
  | USync, UGo => UTopics (utopics s) [] []
  | UTopics must seen acc, UTopic t =>
      if inb t (utopics s) && negb (inb t seen) then UParts must (t :: seen) acc t (uparts s t) [] [] else r
  | UTopics must seen acc, UEnd => if forallb (fun t => inb t seen) must then UAssign acc else r
  | UParts must seen acc t pmust pseen pars, UPart p =>
      if negb (inb p pseen) then
        match lookupPart (sDs s) t p with
        | Some kp => UParts must seen acc t pmust (p :: pseen) (pars ++ [pIndex kp])
        | None => r
        end
      else r
  | UParts must seen acc t pmust pseen pars, UEnd =>
      if forallb (fun p => inb p pseen) pmust then UTopics must seen (acc ++ [(t, pars)]) else r
  | _, _ => r
  end.

Inductive uevent := UServer (ev : event) | URead (c : uchoice).

(** The server and one reader, interleaved. *)
Definition ustep (s : sys) (r : ureader) (e : uevent) : sys * ureader * list obs :=
  match e with
  | UServer ev => let '(s', o) := step s ev in (s', r, o)
  | URead c => (s, if sCrash s then r else rstep s r c, [])
  end.
Fixpoint urun (s : sys) (r : ureader) (es : list uevent) : sys * ureader * list obs :=
  match es with
  | [] => (s, r, [])
  | e :: es' =>
      let '(s1, r1, o1) := ustep s r e in
      let '(s2, r2, o2) := urun s1 r1 es' in
      (s2, r2, o1 ++ o2)
  end.
