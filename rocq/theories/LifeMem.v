(** * LifeMem: the plain memory that starting and stopping touches.

    Fields of KafkaMock that are neither atomic nor locks, and the variable the
    accept loop shares with the callbacks of its connections.  [serverPort], [ds],
    [latency] and [parentLane] are written by NewKafkaMock only and left out. *)
From Verif Require Export LifeSpec.
From stdpp Require Import gmap list.
Open Scope Z_scope.
Open Scope list_scope.

Inductive field :=
| FListener          (* km.listener, kafka-mock.go:25 *)
| FClients           (* km.clients and the map, kafka-mock.go:26 *)
| FLane              (* km.l, kafka-mock.go:18 *)
| FCancel            (* km.cancelFn, kafka-mock.go:20 *)
| FNumber (g : nat). (* cxnNumber of the run of server g, kafka-mock.go:123 *)

(** What a goroutine with the operations [c] ahead of it touches next, and whether
    it writes.  Traces read km.l; one made between two operations counts as part
    of the second.  Written from the code once more, as [Lifecycle.v] leaves
    traces out.  [CloseL] counts as a write even if the listener is nil already. *)
Definition touches (k : kind) (c : list op) : list (field * bool) :=
  match k, c with
  | KCall _, ClearServer :: _ => [(FListener, true); (FClients, true)]     (* kafka-mock.go:53-54 *)
  | KCall _, NewLane :: _ => [(FLane, true); (FCancel, true)]              (* kafka-mock.go:57-59 *)
  | KCall _, Wait WInit :: Lock :: _ => [(FLane, false)]                   (* kafka-mock.go:71 *)
  | KCall _, CloseL :: _ => [(FListener, true); (FLane, false)]            (* kafka-mock.go:76-80 *)
  | KCall _, CancelFn :: _ => [(FCancel, false)]                           (* kafka-mock.go:84, 168 *)
  | KCall _, Wait WWg :: _ => [(FLane, false)]                             (* kafka-mock.go:90 *)
  | KCall CWait, Ret :: _ => [(FLane, false)]                              (* kafka-mock.go:93 *)
  | KCall CRestart, Lock :: SwapStarted :: _ => [(FLane, false)]           (* kafka-mock.go:93 *)
  | KRun _, SetListener _ :: _ => [(FListener, true)]                      (* kafka-mock.go:122 *)
  | KRun _, DoneW WInit :: _ => [(FLane, false)]                           (* kafka-mock.go:125 *)
  | KRun _, CheckLane _ :: _ => [(FLane, false)]                           (* kafka-mock.go:138 *)
  | KRun _, Lock :: _ => [(FLane, false)]                                  (* kafka-mock.go:146 *)
  | KRun _, Register g :: _ =>                                             (* kafka-mock.go:149-158 *)
      [(FLane, false); (FNumber g, true); (FClients, true)]
  | KClient _ _, Lock :: _ => [(FLane, false)]                             (* kafka-mock.go:151 *)
  | KClient _ _, Forget g :: _ => [(FClients, true); (FNumber g, false)]   (* kafka-mock.go:153 *)
  | _, _ => []
  end.

(** Two goroutines of which either may be the next to touch [f], and one writes:
    nothing orders the two accesses. *)
Definition lraces (s : lsys) (i j : nat) (f : field) : Prop :=
  i <> j /\ lCrash s = false /\
  exists k c k' c' w, lT s !! i = Some (Gor k c) /\ In (f, w) (touches k c) /\
                      lT s !! j = Some (Gor k' c') /\ In (f, true) (touches k' c').

(** Calls that overlap: both have begun and neither had come to an end when the
    other began.  (That one call returns before another begins says nothing about
    memory by itself: that callers order such calls is assumed.) *)
Definition before_call (A : list lobs) (i j : nat) : Prop :=
  exists c, then_ A (LReturn i) (LBegin j c) \/ exists p, then_ A (LPanic i p) (LBegin j c).
Definition overlap (A : list lobs) (i j : nat) : Prop :=
  i <> j /\ (exists c, In (LBegin i c) A) /\ (exists c, In (LBegin j c) A) /\ ~ before_call A i j /\ ~ before_call A j i.

(** Field f has the same contents in both; km.l and km.cancelFn are one component
    of the machine's state. *)
Definition keeps (f : field) (h h' : glob) : Prop :=
  match f with
  | FListener => hListener h' = hListener h
  | FClients => hTable h' = hTable h
  | FLane | FCancel => hLane h' = hLane h
  | FNumber g => num g h' = num g h
  end.
(** The two states differ in field f at most. *)
Definition same_but (f : field) (h h' : glob) : Prop :=
  (forall f', keeps f' h h' \/ f' = f \/ (f = FLane \/ f = FCancel) /\ (f' = FLane \/ f' = FCancel)) /\
  hStarted h' = hStarted h /\ hStopped h' = hStopped h /\ hMu h' = hMu h /\
  hInit h' = hInit h /\ hWg h' = hWg h /\ hAct h' = hAct h /\ hClosed h' = hClosed h /\
  hCancelled h' = hCancelled h /\ hParent h' = hParent h /\ hGen h' = hGen h.
(** The step that goroutine i takes does not access f. *)
Definition untouched (f : field) (k : kind) (c : list op) : Prop :=
  forall f' w, In (f', w) (touches k c) -> f' <> f /\ ((f = FLane \/ f = FCancel) -> f' <> FLane /\ f' <> FCancel).
