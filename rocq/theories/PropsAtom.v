(** * PropsAtom: critical sections are atomic (C42), nothing waits for ever (C43) *)
From Verif Require Import Race AtomSpec AtomProofs AtomServer Demo.
From stdpp Require Import gmap.
Open Scope Z_scope.
Open Scope list_scope.

(** Whatever the interleaving of single memory accesses, the store is one that
    is reached by running whole critical sections one after the other, each
    thread in program order; threads outside a critical section have got equally
    far. *)
Theorem C42_sections_atomic ds os is_ s tr : frun (finit ds os) is_ = (s, tr) ->
  exists th, brun (ds, map dsop_code os) (fDs s, th) /\
    forall i, (forall m, fMu s m <> Some i) -> th !! i = fTh s !! i.
Proof. exact (sections_atomic ds os is_ s tr). Qed.
Print Assumptions C42_sections_atomic.

(** So Server.v, where a critical section is one step, misses nothing: started on
    the same operations, it has a run that reaches the same store, and in which
    the operations that are over have returned. *)
Theorem C42_server_covers S ps os is_ s tr :
  frun (finit (sDs S) os) is_ = (s, tr) -> sCrash S = false ->
  (forall w c, In (DCall w c) os -> swrap 64 w = w) ->
  NoDup ps -> length ps = length os ->
  (forall j o p, os !! j = Some o -> ps !! j = Some p -> starts_at S o p) ->
  exists evs, let S' := fst (run S evs) in
    sDs S' = fDs s /\ sCrash S' = false /\
    forall j o p, os !! j = Some o -> ps !! j = Some p ->
      fTh s !! j = Some [] -> (forall m, fMu s m <> Some j) -> ends_at S' o p.
Proof. exact (server_reaches S ps os is_ s tr). Qed.
Print Assumptions C42_server_covers.

(** A thread that cannot move waits for a mutex whose holder can, or whose holder
    panicked; *)
Theorem C43_waits_for_mover ds os is_ s tr i x c : frun (finit ds os) is_ = (s, tr) -> fTh s !! i = Some (x :: c) ->
  can_move s i \/ exists m j, x = MLock m /\ fMu s m = Some j /\ (can_move s j \/ died_holding s j m).
Proof. exact (no_wait ds os is_ s tr i x c). Qed.
Print Assumptions C43_waits_for_mover.
(** only a Fetch of a negative offset panics while holding a mutex; *)
Theorem C43_only_negative_fetch_dies ds os is_ s tr i m : frun (finit ds os) is_ = (s, tr) -> died_holding s i m ->
  exists o, os !! i = Some o /\ fetches_negative o.
Proof. exact (died_negative ds os is_ s tr i m). Qed.
Print Assumptions C43_only_negative_fetch_dies.
(** there is no endless run; *)
Theorem C43_no_endless_run s : Acc moves s.
Proof. exact (no_endless_run s). Qed.
Print Assumptions C43_no_endless_run.
(** and when nothing can move, every operation is over and every mutex free. *)
Theorem C43_rests_when_done ds os is_ s tr : frun (finit ds os) is_ = (s, tr) ->
  (forall o, In o os -> ~ fetches_negative o) ->
  (forall i, ~ can_move s i) -> (forall i c, fTh s !! i = Some c -> c = []) /\ forall m, fMu s m = None.
Proof. exact (rest_done ds os is_ s tr). Qed.
Print Assumptions C43_rests_when_done.

(** ** Examples *)
Definition post_a (v : Z) : call := CallPost topicA 0 (Some [1]) (Some [v]) [] None.
Definition two_posts : list dsop := [DCall 7 (post_a 5); DCall 8 (post_a 6)].
(** The two posts take turns as far as the mutexes let them. *)
Definition turns : list nat := concat (replicate 30 [0; 1]%nat).
Example C42_ex_turns :
  let '(s, tr) := frun (finit ∅ two_posts) turns in
  map (fun e => (evTid e, evAct e)) tr =
  [(0, ALock MDs); (0, ARead LTopics); (0, AInit (LParts topicA)); (0, AWrite LTopics); (0, AUnlock MDs); (1, ALock MDs);
   (0, ALock (MTopic topicA)); (1, ARead LTopics); (0, ARead (LParts topicA)); (1, AUnlock MDs); (0, AInit (LMade topicA 0));
   (0, AInit (LRecs topicA 0)); (0, AInit (LOffs topicA 0)); (0, AWrite (LParts topicA)); (0, AUnlock (MTopic topicA));
   (1, ALock (MTopic topicA)); (0, ALock (MPart topicA 0)); (1, ARead (LParts topicA)); (0, ARead (LRecs topicA 0)); (1, AUnlock (MTopic topicA));
   (0, AInit (LRec topicA 0 0)); (0, AWrite (LRecs topicA 0)); (0, AUnlock (MPart topicA 0));
   (1, ALock (MPart topicA 0)); (1, ARead (LRecs topicA 0)); (1, AInit (LRec topicA 0 1)); (1, AWrite (LRecs topicA 0)); (1, AUnlock (MPart topicA 0))]%nat /\
  map rVal (recs_of (fDs s) topicA 0) = [Some [5]; Some [6]] /\ fTh s = [[]; []].
Proof. vm_compute. repeat split. Qed.
(** Server.v with both calls made meets the hypotheses of [C42_server_covers]. *)
Definition two_calls : sys := fst (run (init 9092 []) [EvCall (post_a 5); EvCall (post_a 6)]).
Example C42_ex_server : exists evs,
  map rVal (recs_of (sDs (fst (run two_calls evs))) topicA 0) = [Some [5]; Some [6]] /\
  sThreads (fst (run two_calls evs)) !! 0%nat = Some AReturned /\ sThreads (fst (run two_calls evs)) !! 1%nat = Some AReturned.
Proof.
  assert (fTh (fst (frun (finit (sDs two_calls) two_posts) turns)) = [[]; []]) as Th by (vm_compute; reflexivity).
  assert (map rVal (recs_of (fDs (fst (frun (finit (sDs two_calls) two_posts) turns))) topicA 0) = [Some [5]; Some [6]]) as Rs
    by (vm_compute; reflexivity).
  destruct (frun (finit (sDs two_calls) two_posts) turns) as [s tr] eqn:E. cbn [fst] in Th, Rs.
  destruct (C42_server_covers two_calls [PCall 0; PCall 1] two_posts turns s tr E) as (evs & D & _ & H).
  - reflexivity.
  - intros w c [[= <- _]|[[= <- _]|[]]]; vm_compute; reflexivity.
  - apply NoDup_ListNoDup. repeat constructor; cbn; intuition discriminate.
  - reflexivity.
  - intros [|[|j]] o p [= <-] [= <-]; vm_compute; reflexivity.
  - exists evs. rewrite D. split; [exact Rs|].
    assert (forall j m, fMu s m <> Some j) as Hm.
    { intros j m. assert (fMu s m = None) as ->; [|discriminate].
      destruct (C43_rests_when_done _ _ _ _ _ E) as [_ Hf]; [| |apply Hf].
      - intros o [<-|[<-|[]]] (rq & n & t & ps & p & [=] & _).
      - intros i (s' & e & M). unfold fstep in M. rewrite Th in M. destruct i as [|[|i]]; discriminate M. }
    split; [apply (H 0%nat (DCall 7 (post_a 5)) (PCall 0))|apply (H 1%nat (DCall 8 (post_a 6)) (PCall 1))];
      try reflexivity; try (rewrite Th; reflexivity); apply Hm.
Qed.

(** A Fetch of offset -1 of an existing partition leaves the mutex locked: a post
    would wait for ever, if the panic did not end the process. *)
Definition negative_fetch : dsop := DFetch (FetchReq 0 0 0 [(topicA, [FetchPart 0 (-1) 1000])]) 1.
Example C43_ex_dies :
  let s := fst (frun (finit {[topicA := {[0 := new_part 0]}]} [negative_fetch; DCall 7 (post_a 5)]) (replicate 20 0 ++ replicate 20 1)%nat) in
  fTh s !! 0%nat = Some [] /\ fMu s (MPart topicA 0) = Some 0%nat /\
  snd (fstep s 1%nat) = [] /\ fTh s !! 1%nat <> Some [].
Proof. vm_compute. repeat split. discriminate. Qed.
(** Both posts waiting in turn: one can always move. *)
Example C43_ex_waits :
  let s := fst (frun (finit ∅ two_posts) [0%nat]) in
  snd (fstep s 1%nat) = [] /\ snd (fstep s 0%nat) <> [].
Proof. vm_compute. split; [reflexivity|discriminate]. Qed.
