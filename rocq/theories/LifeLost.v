(** * LifeLost: the stop request that is lost *)
From Verif Require Export LifeEnd.
From stdpp Require Import gmap list.
From Coq Require Import ZifyBool.
Open Scope Z_scope.
Open Scope list_scope.

(** Start and RequestStop overlap: the stop request comes after [stopped] was
    cleared and before [initializing] is counted up, and finds no listener. *)
Definition lost_events : list levent :=
  LCall CStart :: repeat (LRun 0 XGo) 4 ++
  LCall CStop :: repeat (LRun 1 XGo) 3 ++
  repeat (LRun 0 XGo) 6 ++
  repeat (LRun 1 XGo) 5 ++
  repeat (LRun 2 XGo) 3.
Definition lost_state : lsys := fst (lrun linit lost_events).
Definition lost_trace : list lobs := snd (lrun linit lost_events).

Definition stray (t : gor) : Prop :=
  match gKind t with
  | KCall CStart => gCode t ∈ [lcall_code CStart; tl (lcall_code CStart); [Unlock]; []]
  | KCall CStop => gCode t ∈ [lcall_code CStop; [Ret]; []]
  | KCall CWait => gCode t ∈ [lcall_code CWait; Sleep WWg :: tl (lcall_code CWait)]
  | KCall CFinish => gCode t ∈ [lcall_code CFinish; [Ret]; []]
  | KCall CRestart => gCode t ∈ [lcall_code CRestart; tl (lcall_code CRestart); Sleep WWg :: tl (tl (lcall_code CRestart))]
  | KRun g => gCode t ∈ [[Accept g]; [CheckLane g]]
  | KClient _ _ => False
  end.
Definition doomed (g : nat) (s : lsys) : Prop :=
  lCrash s = false /\ hStarted (lG s) = true /\ hStopped (lG s) = true /\ 0 < hWg (lG s) /\ hLane (lG s) = Some g /\ g ∈ hCancelled (lG s) /\ hClosed (lG s) = ∅ /\
  forall i t, lT s !! i = Some t -> stray t.
Definition vain (A : lobs) : Prop :=
  match A with
  | LBegin _ _ | LReturn _ | LPanic _ PStarted | LCancel _ _ => True
  | _ => False
  end.
Lemma doomed_step g s e s' o : doomed g s -> no_fail e -> lstep s e = (s', o) -> doomed g s' /\ Forall vain o.
Proof.
  intros (Hc & Hs & Hp & Hw & Hl & Hca & Hcl & Ht) Hf H.
  assert (Hsame : forall h, hStarted h = hStarted (lG s) -> hStopped h = hStopped (lG s) -> hWg h = hWg (lG s) -> hLane h = hLane (lG s) -> hCancelled (lG s) ⊆ hCancelled h -> hClosed h = hClosed (lG s) ->
    forall ts, (forall i t, ts !! i = Some t -> stray t) -> doomed g (LSys h ts false)).
  { intros h E1 E2 E3 E4 E5 E6 ts Hts. unfold doomed. cbn [lG lT lCrash]. rewrite E1, E2, E3, E4, E6. repeat split; auto. }
  assert (Hins : forall i t', stray t' -> forall j t, <[i := t']> (lT s) !! j = Some t -> stray t).
  { intros i t' Ht' j t Hj. apply list_lookup_insert_Some in Hj as [(-> & <- & _)|[_ Hj]]; eauto. }
  unfold lstep in H. rewrite Hc in H. destruct e as [cl|i x|].
  - injection H as <- <-. split; [|repeat constructor]. apply Hsame; try reflexivity. intros i t Hi. apply lookup_call in Hi as [Hi|[_ ->]]; [eauto|].
    destruct cl; left.
  - destruct (lT s !! i) as [[k [|op c]]|] eqn:Hi; try (injection H as <- <-; split; [destruct s; cbn in *; unfold doomed; cbn; auto 10|constructor]).
    assert (Hsv : doomed g s) by (unfold doomed; auto 10).
    pose proof (Ht _ _ Hi) as Hst. unfold stray in Hst. cbn [gKind gCode] in Hst.
    destruct k as [[]|g'|g' n]; [| | | | | |contradiction].
    all: repeat (apply elem_of_cons in Hst as [Hst|Hst]); try (apply elem_of_nil in Hst; contradiction); try discriminate Hst; cbn in Hst; injection Hst as -> ->; cbn in H.
    all: rewrite ?Hs, ?Hp, ?Hl in H.
    all: try (destruct (hMu (lG s))).
    all: try (destruct (hWg (lG s) =? 0) eqn:Ez; [lia|]).
    all: try (injection H as <- <-; split; [assumption|constructor]).
    all: cbn [wake app] in H; rewrite ?app_nil_r in H.
    all: try (case_bool_decide as Hb; [rewrite Hcl in Hb; now apply not_elem_of_empty in Hb|]).
    all: try (unfold lane_done in H; rewrite Hl, (bool_decide_eq_true_2 _ Hca), orb_true_r in H).
    all: try (destruct x; try contradiction).
    all: cbn [wake app] in H; rewrite ?app_nil_r in H; injection H as <- <-.
    all: try (split; [assumption|constructor]).
    all: split; [|repeat constructor].
    all: clear Hsv Ht Hs Hp Hw Hl Hca Hcl.
    all: apply Hsame; clear Hsame; [destruct (lG s); reflexivity|destruct (lG s); reflexivity|destruct (lG s); reflexivity|destruct (lG s); reflexivity|destruct (lG s); cbn; first [reflexivity|apply union_subseteq_r]|destruct (lG s); reflexivity|].
    all: apply Hins; unfold stray; cbn [gKind gCode]; apply elem_of_list_In; cbn; auto.
  - injection H as <- <-. split; [|constructor]. apply Hsame; [destruct (lG s); reflexivity ..|exact Ht].
Qed.
Lemma doomed_run g es : forall s s' o, doomed g s -> Forall no_fail es -> lrun s es = (s', o) -> doomed g s' /\ Forall vain o.
Proof.
  induction es as [|e es IH]; intros s s' o Hd Hf H; cbn [lrun] in H; [injection H as <- <-; auto|].
  destruct (lstep s e) as [s1 o1] eqn:E1. destruct (lrun s1 es) as [s2 o2] eqn:E2. injection H as <- <-. apply Forall_cons in Hf as [Hf1 Hf2].
  destruct (doomed_step _ _ _ _ _ Hd Hf1 E1) as [Hd1 Ho1]. destruct (IH _ _ _ Hd1 Hf2 E2) as [Hd2 Ho2].
  split; [assumption|]. apply Forall_app. auto.
Qed.
Lemma lost_run : lrun linit lost_events = (lost_state, lost_trace).
Proof. reflexivity. Qed.
Lemma lost_doomed : doomed 0 lost_state.
Proof.
  unfold doomed. do 4 (split; [vm_compute; reflexivity|]). split; [vm_compute; reflexivity|].
  split; [vm_compute; reflexivity|]. split; [vm_compute; reflexivity|].
  intros i t Hi. replace (lT lost_state) with [Gor (KCall CStart) []; Gor (KCall CStop) []; Gor (KRun 0) [Accept 0]] in Hi by (vm_compute; reflexivity).
  destruct i as [|[|[|i]]]; [| | |discriminate Hi]; injection Hi as <-; unfold stray; cbn [gKind gCode]; apply elem_of_list_In; cbn; auto.
Qed.

Lemma lost_rest : at_rest lost_state.
Proof.
  intros i x Hx. unfold lstep.
  replace (lT lost_state) with [Gor (KCall CStart) []; Gor (KCall CStop) []; Gor (KRun 0) [Accept 0]] by (vm_compute; reflexivity).
  replace (lCrash lost_state) with false by (vm_compute; reflexivity).
  destruct i as [|[|[|i]]]; try reflexivity. cbn [lookup list_lookup]. cbn [exec].
  replace (hClosed (lG lost_state)) with (∅ : gset nat) by (vm_compute; reflexivity). rewrite bool_decide_eq_false_2 by apply not_elem_of_empty.
  destruct Hx as [-> | ->]; reflexivity.
Qed.
(** Both calls have returned and nothing is left to be done, but the server
    listens; and whatever happens next, short of an error of the socket, no call
    of WaitForTermination or Restart ends, no server starts and no connection is
    served. *)
Theorem lost_stop : exists s A,
  lreach s A /\ In (LBegin 0 CStart) A /\ In (LReturn 0) A /\ In (LBegin 1 CStop) A /\ In (LStop 1) A /\ In (LReturn 1) A /\
  up A = true /\ server A = Some 0%nat /\ In (LListen 0) A /\ at_rest s /\
  forall es s' o, Forall no_fail es -> lrun s es = (s', o) ->
    up (A ++ o) = true /\
    Forall (fun x => match x with LBegin _ _ | LReturn _ | LPanic _ PStarted | LCancel _ _ => True | _ => False end) o /\
    forall i cl, cl = CWait \/ cl = CRestart -> In (LBegin i cl) (A ++ o) -> ~ call_ended (A ++ o) i.
Proof.
  exists lost_state, lost_trace. assert (R : lreach lost_state lost_trace) by (exists lost_events; exact lost_run). split; [exact R|].
  replace lost_trace with [LBegin 0 CStart; LUp 0; LFresh 0; LReset 0; LBegin 1 CStop; LStop 1; LLane 0 0; LReturn 0; LCancel 1 0; LReturn 1; LListen 0] by (vm_compute; reflexivity).
  do 5 (split; [cbn; auto 12|]). do 2 (split; [reflexivity|]). split; [cbn; auto 15|]. split; [exact lost_rest|].
  intros es s' o Hf H. destruct (doomed_run _ _ _ _ _ lost_doomed Hf H) as [Hd Ho].
  assert (R' : lreach s' (lost_trace ++ o)) by (exists (lost_events ++ es); rewrite lrun_app, lost_run; cbn [fst snd]; rewrite H; reflexivity).
  replace lost_trace with [LBegin 0 CStart; LUp 0; LFresh 0; LReset 0; LBegin 1 CStop; LStop 1; LLane 0 0; LReturn 0; LCancel 1 0; LReturn 1; LListen 0] in R' by (vm_compute; reflexivity).
  destruct Hd as (_ & Hs & _ & _ & _ & _ & _ & Ht). split; [rewrite <- (up_started _ _ R'); exact Hs|]. split; [exact Ho|].
  intros i cl Hcl Hb He. destruct (begin_thread _ _ R' _ _ Hb) as [code Hi]. pose proof (Ht _ _ Hi) as Hst.
  assert (Hend : ended code = true).
  { destruct He as [He|[p He]].
    - destruct (ret_thread _ _ R' _ He) as [c' Hc']. rewrite Hi in Hc'. injection Hc' as _ ->. reflexivity.
    - destruct (panic_thread _ _ R' _ _ He) as (c' & code' & Hc' & Hen). rewrite Hi in Hc'. injection Hc' as _ <-. exact Hen. }
  unfold stray in Hst. cbn [gKind gCode] in Hst.
  destruct Hcl as [-> | ->]; cbn in Hst; repeat (apply elem_of_cons in Hst as [->|Hst]); try discriminate Hend; now apply elem_of_nil in Hst.
Qed.
