(** * PropsLifeRace: C49, data races of starting and stopping *)
From Verif Require Import LifeRaceDemo.
From stdpp Require Import gmap list.
Open Scope Z_scope.
Open Scope list_scope.

(** Whenever two goroutines may touch the same plain field next and one of them
    writes: the field is the lane or its cancel function, written by a Start or
    Restart that overlaps the other, a call that is not Start; or it is the
    listener, touched by a call and by the accept loop of a server made by a Start
    or Restart that overlaps this call. *)
Theorem C49_races s A i j f : lreach s A -> lraces s i j f ->
  ((f = FLane \/ f = FCancel) /\ exists ci cj, In (LBegin i ci) A /\ ci <> CStart /\ In (LBegin j cj) A /\ (cj = CStart \/ cj = CRestart) /\ overlap A i j) \/
  (f = FListener /\ exists a b g, (a = i /\ b = j \/ a = j /\ b = i) /\ (exists r, lT s !! b = Some (Gor (KRun g) r)) /\
    exists ca m cm, In (LBegin a ca) A /\ In (LLane m g) A /\ In (LBegin m cm) A /\ (cm = CStart \/ cm = CRestart) /\ overlap A a m).
Proof. exact (life_races s A i j f). Qed.
Print Assumptions C49_races.

(** So the table of connections and the connection numbers never race, *)
Theorem C49_table s A i j f : lreach s A -> lraces s i j f -> f <> FClients /\ forall g, f <> FNumber g.
Proof. exact (races_table s A i j f). Qed.
Print Assumptions C49_table.

(** and nothing does as long as no Start or Restart overlaps another call. *)
Theorem C49_no_overlap s A i j f : lreach s A ->
  (forall a b cb, In (LBegin b cb) A -> cb = CStart \/ cb = CRestart -> ~ overlap A a b) -> ~ lraces s i j f.
Proof. exact (no_overlap_no_race s A i j f). Qed.
Print Assumptions C49_no_overlap.

(** Otherwise they occur: FinishRequests while Start is under way; WaitForTermination
    while Start is under way; RequestStop while Start is under way, if it gets past
    its wait for the start-up before Start has announced it. *)
Theorem C49_races_refuted :
  (exists s A, lreach s A /\ lraces s 1 0 FCancel /\ In (LBegin 1 CFinish) A /\ In (LBegin 0 CStart) A) /\
  (exists s A, lreach s A /\ lraces s 1 0 FLane /\ In (LBegin 1 CWait) A /\ In (LBegin 0 CStart) A) /\
  (exists s A, lreach s A /\ lraces s 1 2 FListener /\ In (LBegin 1 CStop) A /\ exists g r, lT s !! 2%nat = Some (Gor (KRun g) r)).
Proof. exact races_refuted. Qed.
Print Assumptions C49_races_refuted.

(** The accesses meant here are all that the steps make: what a step changes is
    among what its goroutine was about to write, *)
Theorem C49_writes s A i k c x s' o f : lreach s A -> lT s !! i = Some (Gor k c) -> lstep s (LRun i x) = (s', o) ->
  ~ keeps f (lG s) (lG s') -> In (f, true) (touches k c).
Proof. exact (step_writes s A i k c x s' o f). Qed.
Print Assumptions C49_writes.
(** and with a different value in a field its goroutine was not about to touch, the
    step does the same and leaves that value.  (The [go] of Start hands the lane
    just made to [run] by name.) *)
Theorem C49_reads s A i k c x f h2 : lreach s A -> lT s !! i = Some (Gor k c) -> untouched f k c ->
  (f = FLane \/ f = FCancel -> head c <> Some GoRun) -> same_but f (lG s) h2 ->
  exists h2', lstep (LSys h2 (lT s) (lCrash s)) (LRun i x) = (LSys h2' (lT (fst (lstep s (LRun i x)))) (lCrash (fst (lstep s (LRun i x)))), snd (lstep s (LRun i x))) /\
    same_but f (lG (fst (lstep s (LRun i x)))) h2'.
Proof. exact (step_reads s A i k c x f h2). Qed.
Print Assumptions C49_reads.

(** RequestStop about to close a listener; a connection's callback about to remove
    its entry, with another listener. *)
Example C49_ex_accesses :
  (lreach (st closing_events) (tr closing_events) /\ (exists r, lT (st closing_events) !! 4%nat = Some (Gor (KCall CStop) (CloseL :: r))) /\
   ~ keeps FListener (lG (st closing_events)) (lG (fst (lstep (st closing_events) (LRun 4 XGo))))) /\
  (lreach (st forget_events) (tr forget_events) /\ (exists r, lT (st forget_events) !! 2%nat = Some (Gor (KClient 0 1) (Forget 0 :: r)) /\ untouched FListener (KClient 0 1) (Forget 0 :: r)) /\
   ~ keeps FClients (lG (st forget_events)) (lG (fst (lstep (st forget_events) (LRun 2 XGo)))) /\
   exists h2, same_but FListener (lG (st forget_events)) h2 /\ ~ keeps FListener (lG (st forget_events)) h2).
Proof. exact foot_demo. Qed.
(** Start, two connections, RequestStop, WaitForTermination and Restart, one call
    after the other. *)
Example C49_ex_no_overlap : lreach (st full_events) (tr full_events) /\
  (exists i cl, In (LBegin i cl) (tr full_events) /\ cl = CRestart) /\
  (forall a b cb, In (LBegin b cb) (tr full_events) -> cb = CStart \/ cb = CRestart -> ~ overlap (tr full_events) a b).
Proof. exact race_quiet. Qed.
