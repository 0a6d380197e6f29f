(** * LifeDemo: executions of the start/stop machine used in the examples *)
From Verif Require Export LifeRestart.
From stdpp Require Import gmap list.
Open Scope list_scope.

Definition go (i n : nat) : list levent := repeat (LRun i XGo) n.
(** Start (goroutine 0) with its accept loop (1); the n-th connection. *)
Definition ev_start : list levent := LCall CStart :: go 0 10 ++ go 1 3.
Definition ev_conn : list levent := LRun 1 XConn :: go 1 6.
Definition ev_hangup (i : nat) : list levent := LRun i XEnd :: go i 5.
(** Two connections (2, 3), the first one ends. *)
Definition two_events : list levent := ev_start ++ ev_conn ++ ev_conn ++ ev_hangup 2.
(** A stop request (4), the second connection ends, so does the accept loop;
    WaitForTermination (5); Restart (6) with the next accept loop (7). *)
Definition stop_events : list levent := two_events ++ LCall CStop :: go 4 8 ++ ev_hangup 3 ++ go 1 4.
Definition full_events : list levent := stop_events ++ LCall CWait :: go 5 3 ++ LCall CRestart :: go 6 13 ++ go 7 3 ++ go 6 2.
(** Start on a server that is up (2), FinishRequests (3). *)
Definition twice_events : list levent := ev_start ++ LCall CStart :: go 2 3 ++ LCall CFinish :: go 3 2.
(** WaitForTermination (2) waits; stop (3), the loop ends, Start (4) before the
    waiter runs. *)
Definition reuse_events : list levent :=
  ev_start ++ LCall CWait :: go 2 1 ++ LCall CStop :: go 3 8 ++ go 1 4 ++ LCall CStart :: go 4 7 ++ go 2 1.
Definition tr (es : list levent) : list lobs := snd (lrun linit es).
Definition st (es : list levent) : lsys := fst (lrun linit es).

Lemma st_tr es : lreach (st es) (tr es).
Proof. exists es. apply surjective_pairing. Qed.
Fixpoint working_b (s : lsys) (es : list levent) : bool :=
  match es with
  | [] => true
  | e :: es' => negb (bool_decide ((lstep s e).1 = s) && match (lstep s e).2 with [] => true | _ => false end) && working_b (lstep s e).1 es'
  end.
Lemma working_ok es : forall s, working_b s es = true -> working s es.
Proof.
  induction es as [|e es IH]; intros s H; [exact I|]. cbn [working_b] in H. apply andb_true_iff in H as [H1 H2]. split; [|now apply IH].
  intros E. rewrite E in H1. cbn in H1. rewrite bool_decide_eq_true_2 in H1 by reflexivity. discriminate H1.
Qed.
Lemma rest_ok s : lCrash s = false -> (forall i t, lT s !! i = Some t -> gCode t = []) -> at_rest s.
Proof.
  intros Hc H i x _. unfold lstep. rewrite Hc. destruct (lT s !! i) as [[k c]|] eqn:E; [|reflexivity]. specialize (H _ _ E). cbn in H. now subst c.
Qed.
Lemma codes_done ts : forallb (fun t => match gCode t with [] => true | _ => false end) ts = true -> forall i t, ts !! i = Some t -> gCode t = [].
Proof.
  intros H i t Hi. rewrite forallb_forall in H. specialize (H t (proj1 (elem_of_list_In _ _) (elem_of_list_lookup_2 _ _ _ Hi))). now destruct (gCode t).
Qed.
Lemma stop_demo : exists es, let s := st es in let A := tr es in
  lreach s A /\ lCrash s = false /\ at_rest s /\ In (LBegin 4 CStop) A /\ In (LStop 4) A /\
  (forall j, ~ start_overlaps A 4 j) /\ In (LConn 0 2) A /\ working linit es.
Proof.
  exists stop_events. cbn zeta. split; [apply st_tr|]. split; [vm_compute; reflexivity|]. split.
  { apply rest_ok; [vm_compute; reflexivity|]. apply codes_done. vm_compute. reflexivity. }
  assert (E : tr stop_events = [LBegin 0 CStart; LUp 0; LFresh 0; LReset 0; LLane 0 0; LReturn 0; LListen 0; LConn 0 1; LConn 0 2; LGone 0 1;
    LBegin 4 CStop; LStop 4; LClose 4 0; LCancel 4 0; LReturn 4; LGone 0 2; LDown 0]) by (vm_compute; reflexivity).
  rewrite E. split; [cbn; auto 20|]. split; [cbn; auto 20|]. split; [|split; [cbn; auto 20|apply working_ok; vm_compute; reflexivity]].
  intros j (Hj & Hb & Hn). assert (j = 0%nat) as ->.
  { destruct Hb as [Hb|Hb]; cbn in Hb; repeat destruct Hb as [Hb|Hb]; try discriminate Hb; try contradiction; now injection Hb. }
  destruct (Hn CStop) as [H _]. apply H. exists [LBegin 0 CStart; LUp 0; LFresh 0; LReset 0; LLane 0 0], [LListen 0; LConn 0 1; LConn 0 2; LGone 0 1;
    LBegin 4 CStop; LStop 4; LClose 4 0; LCancel 4 0; LReturn 4; LGone 0 2; LDown 0]. split; [reflexivity|cbn; auto 20].
Qed.
Lemma table_demo : lreach (st two_events) (tr two_events) /\ hTable (lG (st two_events)) = {[1%nat]} /\
  connected (tr two_events) 2 /\ ~ connected (tr two_events) 1.
Proof.
  split; [apply st_tr|]. split; [apply (bool_decide_unpack (hTable (lG (st two_events)) = {[1%nat]})); vm_compute; exact I|].
  assert (E : tr two_events = [LBegin 0 CStart; LUp 0; LFresh 0; LReset 0; LLane 0 0; LReturn 0; LListen 0; LConn 0 1; LConn 0 2; LGone 0 1]) by (vm_compute; reflexivity).
  rewrite E. split.
  - exists [LBegin 0 CStart; LUp 0; LFresh 0; LReset 0; LLane 0 0; LReturn 0; LListen 0; LConn 0 1], 0%nat, [LGone 0 1]. split; [reflexivity|]. split.
    + intros i [H|[]]; discriminate H.
    + intros [H|[]]; discriminate H.
  - intros (A1 & g & C & HA & _ & Hn). apply Hn.
    do 7 (destruct A1 as [|? A1]; [discriminate HA|]; injection HA as _ HA). destruct A1 as [|? A1]; [injection HA as <- <-; cbn; auto|].
    injection HA as _ HA. destruct A1 as [|? A1]; [discriminate HA|]. injection HA as _ HA. destruct A1 as [|? A1]; [discriminate HA|]. injection HA as _ HA. destruct A1; discriminate HA.
Qed.
