(** * LifeFoot: the accesses of LifeMem.v against the steps of Lifecycle.v *)
From Verif Require Export LifeRace.
From stdpp Require Import gmap list.
Open Scope Z_scope.
Open Scope list_scope.

Lemma exec_writes h i k o c x h' pre sp wk os f : In (o :: c) (codes k) -> exec h i k o x = Next h' pre sp wk os ->
  ~ keeps f h h' -> In (f, true) (touches k (o :: c)).
Proof.
  intros H Hx Hk. destruct h as [st sp0 mu hi hw ha li cl la ca pa ge nu ta].
  destruct k as [[]|g|g n]; cbn in H; repeat destruct H as [H|H]; try contradiction; (try discriminate H); injection H as <- <-; cbn in Hx;
    repeat match type of Hx with context [match ?b with _ => _ end] => destruct b eqn:? end; try discriminate Hx;
    injection Hx as <- <- <- <- <-; destruct f; cbn in Hk |- *; try (exfalso; apply Hk; reflexivity); auto.
  all: unfold num in Hk; cbn in Hk.
  all: destruct (decide (g0 = g)) as [->|Hne]; [auto|exfalso; apply Hk; now rewrite lookup_insert_ne by auto].
Qed.

(** The fields an operation's outcome depends on. *)
Definition op_reads (f : field) (o : op) : Prop :=
  match o with
  | CloseL => f = FListener
  | CancelFn | CheckLane _ | GoRun => f = FLane \/ f = FCancel
  | Register g | Forget g => f = FNumber g
  | _ => False
  end.
Lemma untouched_reads k o c f : In (o :: c) (codes k) -> untouched f k (o :: c) -> (f = FLane \/ f = FCancel -> o <> GoRun) -> ~ op_reads f o.
Proof.
  intros H Hu Hg Hr. unfold untouched in Hu.
  destruct k as [[]|g|g n]; cbn in H; repeat destruct H as [H|H]; try contradiction; (try discriminate H); injection H as <- <-; cbn in Hr, Hu; try contradiction;
    try (now apply (Hg Hr)).
  all: try subst f.
  all: try (match type of Hu with forall f' w, (?f0, ?w0) = _ \/ _ -> _ => destruct (Hu _ _ (or_introl eq_refl)) as [H1 H2]; first [now destruct (H2 Hr) | now apply H1] end).
  all: try (match type of Hu with forall f' w, _ \/ (?f0, ?w0) = _ \/ _ -> _ => destruct (Hu _ _ (or_intror (or_introl eq_refl))) as [H1 H2]; first [now destruct (H2 Hr) | now apply H1] end).
Qed.
Lemma exec_same f h h2 i k o x : same_but f h h2 -> ~ op_reads f o ->
  match exec h i k o x with
  | Next h' pre sp wk os => exists h2', exec h2 i k o x = Next h2' pre sp wk os /\ same_but f h' h2'
  | r => exec h2 i k o x = r
  end.
Proof.
  intros (Hk & E1 & E2 & E3 & E4 & E5 & E6 & E7 & E8 & E9 & E10) Hr.
  assert (L : hListener h2 = hListener h \/ f = FListener) by (destruct (Hk FListener) as [|[|[_ [|]]]]; auto; discriminate).
  assert (C : hTable h2 = hTable h \/ f = FClients) by (destruct (Hk FClients) as [|[|[_ [|]]]]; auto; discriminate).
  assert (A : hLane h2 = hLane h \/ f = FLane \/ f = FCancel) by (destruct (Hk FLane) as [|[|[? _]]]; auto).
  assert (N : forall g, num g h2 = num g h \/ f = FNumber g) by (intros g; destruct (Hk (FNumber g)) as [|[|[_ [|]]]]; auto; discriminate).
  clear Hk.
  assert (Out : forall h' h2', (hListener h2' = hListener h' \/ f = FListener) -> (hTable h2' = hTable h' \/ f = FClients) ->
    (hLane h2' = hLane h' \/ f = FLane \/ f = FCancel) -> (forall g, num g h2' = num g h' \/ f = FNumber g) ->
    hStarted h2' = hStarted h' /\ hStopped h2' = hStopped h' /\ hMu h2' = hMu h' /\
    hInit h2' = hInit h' /\ hWg h2' = hWg h' /\ hAct h2' = hAct h' /\ hClosed h2' = hClosed h' /\
    hCancelled h2' = hCancelled h' /\ hParent h2' = hParent h' /\ hGen h2' = hGen h' -> same_but f h' h2').
  { intros h' h2' L' C' A' N' R'. split; [|exact R']. intros [| | | |g]; cbn [keeps].
    - destruct L'; auto.
    - destruct C'; auto.
    - destruct A' as [|A']; [auto|]. right. right. auto.
    - destruct A' as [|A']; [auto|]. right. right. auto.
    - destruct (N' g); auto. }
  unfold num in *.
  destruct h as [st sp0 mu hi hw ha li cl la ca pa ge nu ta], h2 as [st2 sp2 mu2 hi2 hw2 ha2 li2 cl2 la2 ca2 pa2 ge2 nu2 ta2]. cbn in L, C, A, N, E1, E2, E3, E4, E5, E6, E7, E8, E9, E10. subst.
  unfold kpanic, lane_done, num.
  destruct o as [| | | | | |w|w|w|w|w| | | | | | |g|g|g|g|g| |g|g|]; cbn in Hr.
  all: try (destruct A as [->|A]; [|now destruct (Hr A)]).
  all: try (destruct L as [->|L]; [|now destruct (Hr L)]).
  all: cbn; try (destruct w; cbn).
  all: repeat match goal with |- context [match ?b with _ => _ end] => match b with context [match _ with _ => _ end] => fail 1 | _ => destruct b eqn:?; cbn end end.
  all: try reflexivity.
  all: try (eexists; split; [reflexivity|]; apply Out; cbn; auto 20; fail).
  1, 2: exfalso; unfold lane_done in *; cbn in *; congruence.
  all: unfold num; cbn; destruct (N g) as [->|Ng]; [|now destruct (Hr Ng)].
  all: eexists; split; [reflexivity|]; apply Out; cbn; auto 20.
  1, 3-5: destruct C as [->|C]; auto.
  intros g'. destruct (decide (g' = g)) as [->|Hne]; [rewrite !lookup_insert; auto|rewrite !lookup_insert_ne by auto; auto].
Qed.

(** ** Steps *)
Theorem step_writes s A i k c x s' o f : lreach s A -> lT s !! i = Some (Gor k c) -> lstep s (LRun i x) = (s', o) ->
  ~ keeps f (lG s) (lG s') -> In (f, true) (touches k c).
Proof.
  intros R Hi H Hk. pose proof (v_codes s (lreach_inv _ _ R) _ _ Hi) as Hc. cbn [gCode gKind] in Hc.
  assert (Same : forall h, h = lG s -> keeps f (lG s) h) by (intros ? ->; destruct f; reflexivity).
  unfold lstep in H. destruct (lCrash s); [injection H as <- <-; now destruct (Hk (Same _ eq_refl))|].
  rewrite Hi in H. destruct c as [|o' c]; [injection H as <- <-; now destruct (Hk (Same _ eq_refl))|].
  destruct (exec (lG s) i k o' x) as [|h pre sp wk os|pre p|p] eqn:Hx; injection H as <- <-; cbn [lG] in Hk;
    try now destruct (Hk (Same _ eq_refl)).
  eapply exec_writes; eauto.
Qed.
Theorem step_reads s A i k c x f h2 : lreach s A -> lT s !! i = Some (Gor k c) -> untouched f k c ->
  (f = FLane \/ f = FCancel -> head c <> Some GoRun) -> same_but f (lG s) h2 ->
  exists h2', lstep (LSys h2 (lT s) (lCrash s)) (LRun i x) = (LSys h2' (lT (fst (lstep s (LRun i x)))) (lCrash (fst (lstep s (LRun i x)))), snd (lstep s (LRun i x))) /\
    same_but f (lG (fst (lstep s (LRun i x)))) h2'.
Proof.
  intros R Hi Hu Hg Hs. pose proof (v_codes s (lreach_inv _ _ R) _ _ Hi) as Hc. cbn [gCode gKind] in Hc.
  unfold lstep. cbn [lCrash lG lT]. destruct (lCrash s) eqn:Ec; [exists h2; cbn; rewrite Ec; auto|].
  rewrite Hi. destruct c as [|o c]; [exists h2; cbn; rewrite Ec; auto|].
  assert (Hr : ~ op_reads f o) by (eapply untouched_reads; eauto; intros Hf ->; now apply (Hg Hf)).
  pose proof (exec_same f (lG s) h2 i k o x Hs Hr) as H.
  destruct (exec (lG s) i k o x) as [|h pre sp wk os|pre p|p] eqn:Hx.
  - rewrite H. exists h2. cbn. rewrite Ec. auto.
  - destruct H as (h2' & -> & Hs'). exists h2'. cbn. auto.
  - rewrite H. exists h2. cbn. auto.
  - rewrite H. exists h2. cbn. auto.
Qed.
