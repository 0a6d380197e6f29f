(** * PropsWait: the wait groups taken apart (C46) *)
From Verif Require Import WaitMore.
From stdpp Require Import gmap list.
Open Scope Z_scope.
Open Scope list_scope.

(** If no Start or Restart overlaps a RequestStop, WaitForTermination or Restart,
    no wait group reports misuse, and what is seen is what is seen of an execution
    of Lifecycle.v: all that is proved about the traces of that machine holds. *)
Theorem C46_refines f A : freach f A -> apart (seen A) -> no_misuse A /\ exists s, lreach s (seen A).
Proof. exact (refines f A). Qed.
Print Assumptions C46_refines.
(** Then too the process ends by socket and protocol errors only. *)
Theorem C46_no_crash es f A : frun finit es = (f, A) -> apart (seen A) -> Forall no_fail es ->
  lCrash (fS f) = false /\ ~ In FMisuseDies A /\ forall p, ~ In (FL (LDie p)) A.
Proof. exact (no_misuse_crash es f A). Qed.
Print Assumptions C46_no_crash.
(** Then too no waiter is left asleep: when nothing is left to be done, nothing is
    in the machine of Lifecycle.v, in the same state. *)
Theorem C46_rest f A : freach f A -> apart (seen A) -> lCrash (fS f) = false -> f_at_rest f ->
  lreach (fS f) (seen A) /\ at_rest (fS f).
Proof. exact (rest_same f A). Qed.
Print Assumptions C46_rest.
(** Conversely every execution of Lifecycle.v is one of the finer machine. *)
Theorem C46_contains s A : lreach s A -> exists f, freach f (map FL A) /\ fS f = s.
Proof. exact (lreach_fine s A). Qed.
Print Assumptions C46_contains.

(** Without the condition both fail.  A Start between the end of the accept loop
    and its last Done, while WaitForTermination waits, panics and makes that Done
    panic: the process ends, with no socket or protocol error. *)
Theorem C46_overlap_refuted : exists es f A, Forall no_fail es /\ frun finit es = (f, A) /\ lCrash (fS f) = true /\
  In (FMisuse 4) A /\ In FMisuseDies A /\ forall p, ~ In (FL (LDie p)) A.
Proof. exact crash_run. Qed.
Print Assumptions C46_overlap_refuted.
(** Or only the Start panics, and leaves [started] set without a server: whatever
    is called afterwards, no server listens and no Start returns. *)
Theorem C46_dead_refuted : exists es f A, Forall no_fail es /\ frun finit es = (f, A) /\ lCrash (fS f) = false /\
  In (FMisuse 4) A /\ hStarted (lG (fS f)) = true /\ In (FL (LReturn 2)) A /\
  forall es' f' A', frun f es' = (f', A') ->
    (forall g, ~ In (FL (LListen g)) A') /\ (forall i, In (FL (LBegin i CStart)) A' -> ~ In (FL (LReturn i)) A').
Proof. exact dead_run. Qed.
Print Assumptions C46_dead_refuted.

(** A WaitForTermination that sleeps, a stop, and a Start afterwards. *)
Example C46_ex : let '(f, A) := frun finit ev_apart in
  freach f A /\ apart (seen A) /\ Forall no_fail ev_apart /\ In (LReturn 2) (seen A) /\ In (LReturn 4) (seen A) /\ In (LListen 1) (seen A).
Proof.
  destruct (frun finit ev_apart) as [f A] eqn:E. split; [exists ev_apart; exact E|].
  assert (EA : A = snd (frun finit ev_apart)) by (rewrite E; reflexivity). subst A.
  split; [apply apart_ok; vm_compute; reflexivity|]. split; [apply no_failb_ok; vm_compute; reflexivity|]. vm_compute. tauto.
Qed.
(** The WaitForTermination does sleep, *)
Example C46_ex_asleep : exists f A, frun finit (firstn 17 ev_apart) = (f, A) /\ fW f WWg = 1%nat /\ count WWg (lG (fS f)) = 1.
Proof. exists (fst (frun finit (firstn 17 ev_apart))), (snd (frun finit (firstn 17 ev_apart))). split; [apply surjective_pairing|]. vm_compute. auto. Qed.
(** and in the end nothing is left to be done, with the second server up. *)
Example C46_ex_rest : let f := fst (frun finit ev_apart) in f_at_rest f /\ lCrash (fS f) = false /\ hStarted (lG (fS f)) = true.
Proof.
  split; [|vm_compute; auto]. intros i x Hx. do 6 (destruct i as [|i]; [destruct Hx as [->| ->]; vm_compute; reflexivity|]).
  set (f := fst (frun finit ev_apart)). assert (E : lT (fS f) !! S (S (S (S (S (S i))))) = None) by (apply lookup_ge_None; vm_compute; lia).
  assert (Ec : lCrash (fS f) = false) by (vm_compute; reflexivity). unfold fstep. rewrite Ec, E. reflexivity.
Qed.
