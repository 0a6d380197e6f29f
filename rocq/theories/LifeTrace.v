(** * LifeTrace: what the trace says about the state *)
From Verif Require Export LifeSpec LifeProofs.
From stdpp Require Import gmap list.
From Coq Require Import ZifyBool.
Open Scope Z_scope.
Open Scope list_scope.

Lemma lrun_app e1 : forall s e2, lrun s (e1 ++ e2) =
  (fst (lrun (fst (lrun s e1)) e2), snd (lrun s e1) ++ snd (lrun (fst (lrun s e1)) e2)).
Proof.
  induction e1 as [|e e1 IH]; intros s e2; cbn [app lrun fst snd]; [now destruct (lrun s e2)|].
  destruct (lstep s e) as [s1 o1]. rewrite IH. destruct (lrun s1 e1) as [s2 o2]. cbn [fst snd]. now rewrite app_assoc.
Qed.
Lemma lreach_inv s A : lreach s A -> linv s.
Proof. intros [es H]. eapply linv_run; [apply linv_init|exact H]. Qed.
Lemma lreach_ind (P : lsys -> list lobs -> Prop) : P linit [] ->
  (forall s A e s' o, lreach s A -> linv s -> P s A -> lstep s e = (s', o) -> P s' (A ++ o)) ->
  forall s A, lreach s A -> P s A.
Proof.
  intros H0 Hs s A [es H]. revert s A H. induction es as [|e es IH] using rev_ind; intros s A H.
  - injection H as <- <-. exact H0.
  - rewrite lrun_app in H. destruct (lrun linit es) as [s1 A1] eqn:E. cbn in H. destruct (lstep s1 e) as [s2 o] eqn:E2. injection H as <- <-.
    rewrite app_nil_r. assert (lreach s1 A1) by (exists es; exact E). eapply Hs; eauto using lreach_inv.
Qed.
Lemma lreach_step s A e s' o : lreach s A -> lstep s e = (s', o) -> lreach s' (A ++ o).
Proof. intros [es H] H1. exists (es ++ [e]). rewrite lrun_app, H. cbn. rewrite H1. cbn. now rewrite app_nil_r. Qed.
Lemma lreach_nil : lreach linit [].
Proof. now exists []. Qed.

(** A trace split at an observation: the step that made it. *)
Lemma lobs_step s A B x C : lreach s A -> A = B ++ x :: C ->
  exists s1 A1 e s2 o o1 o2, lreach s1 A1 /\ lstep s1 e = (s2, o) /\ o = o1 ++ x :: o2 /\ B = A1 ++ o1 /\ A1 ++ o `prefix_of` A.
Proof.
  intros H. revert s A H B C. apply (lreach_ind (fun s A => forall B C, A = B ++ x :: C -> exists s1 A1 e s2 o o1 o2, lreach s1 A1 /\ lstep s1 e = (s2, o) /\ o = o1 ++ x :: o2 /\ B = A1 ++ o1 /\ A1 ++ o `prefix_of` A)).
  - intros B C E. now destruct B.
  - intros s A e s' o R I IH Hstep B C E.
    destruct (decide (length B < length A)%nat) as [Hl|Hl].
    + assert (E' : A = B ++ x :: take (length A - length B - 1) C).
      { apply (f_equal (take (length A))) in E. rewrite take_app in E. rewrite E at 1. rewrite take_app_ge by lia. f_equal.
        destruct (length A - length B)%nat eqn:El; [lia|]. cbn. now rewrite Nat.sub_0_r. }
      destruct (IH _ _ E') as (s1 & A1 & e1 & s2 & o' & o1 & o2 & H1 & H2 & H3 & H4 & H5).
      exists s1, A1, e1, s2, o', o1, o2. repeat (split; [assumption|]). etransitivity; [exact H5|]. now exists o.
    + assert (HB : B = A ++ drop (length A) B).
      { apply (f_equal (take (length A))) in E. rewrite take_app, take_app_le in E by lia. rewrite E at 1. now rewrite take_drop. }
      exists s, A, e, s', o, (drop (length A) B), C. split; [assumption|]. split; [assumption|]. split; [|split; [assumption|reflexivity]].
      rewrite HB in E. rewrite <- app_assoc in E. now apply app_inv_head in E.
Qed.

(** Each step makes at most one observation. *)
Lemma lstep_one s e s' o : lstep s e = (s', o) -> o = [] \/ exists x, o = [x].
Proof.
  intros H. apply lstep_cases in H as [[_ ->]|[(p & _ & -> & _)|[(cl & _ & _ & _ & ->)|[(_ & _ & _ & ->)|(i & x & k & o' & c & _ & _ & _ & [(h & pre & sp & wk & Hx & _)|(pre & p & _ & _ & ->)])]]]]; eauto.
  destruct o'; cbn in Hx; exec_cases Hx k; injection Hx as <- <- <- <- <-; eauto.
Qed.
Lemma lobs_split s A B x C : lreach s A -> A = B ++ x :: C -> exists s1 e s2, lreach s1 B /\ lstep s1 e = (s2, [x]).
Proof.
  intros H E. destruct (lobs_step _ _ _ _ _ H E) as (s1 & A1 & e & s2 & o & o1 & o2 & H1 & H2 & H3 & H4 & _).
  destruct (lstep_one _ _ _ _ H2) as [->|[y ->]]; [now destruct o1|]. destruct o1 as [|z o1]; [|destruct o1; discriminate].
  injection H3 as -> <-. rewrite app_nil_r in H4. subst B. eauto.
Qed.

Lemma up_app A B : up (A ++ B) = up_from (up A) B.
Proof. unfold up. generalize false. induction A as [|[] A IH]; intros b; cbn; auto. Qed.
Lemma up_started s A : lreach s A -> hStarted (lG s) = up A.
Proof.
  revert s A. apply lreach_ind; [reflexivity|]. intros s A e s' o R I IH H. rewrite up_app, <- IH.
  apply lstep_cases in H as [[-> ->]|[(p & -> & -> & _)|[(cl & -> & _ & -> & ->)|[(-> & _ & -> & ->)|(i & x & k & o' & c & -> & _ & Hi & [(h & pre & sp & wk & Hx & ->)|(pre & p & Hx & -> & ->)])]]]]; try reflexivity.
  - now destruct (lG s).
  - destruct (lG s). destruct o'; cbn in Hx; exec_cases Hx k; injection Hx as <- <- <- <- <-; try reflexivity; try (destruct w; reflexivity); cbn; congruence.
Qed.

(** ** No counter goes negative *)
Lemma no_negative s A : lreach s A -> ~ In (LDie PNegative) A /\ forall i, ~ In (LPanic i PNegative) A.
Proof.
  revert s A. apply lreach_ind; [cbn; auto|]. intros s A e s' o R I [IH1 IH2] H.
  enough (~ In (LDie PNegative) o /\ forall i, ~ In (LPanic i PNegative) o) as [E1 E2].
  { split; [intros Hi; apply in_app_or in Hi as [?|?]; contradiction|]. intros i Hi. apply in_app_or in Hi as [?|?]; [now apply (IH2 i)|now apply (E2 i)]. }
  apply lstep_cases in H as [[_ ->]|[(p & _ & -> & _ & (i & x & k & o & c & _ & Hi & Hx))|[(cl & _ & _ & _ & ->)|[(_ & _ & _ & ->)|(i & x & k & o' & c & _ & _ & Hi & [(h & pre & sp & wk & Hx & _)|(pre & p & Hx & _ & ->)])]]]].
  - split; cbn; auto.
  - split; [|intros j [E|[]]; discriminate E]. intros [E|[]]. injection E as ->.
    destruct o; cbn in Hx; exec_cases Hx k. pose proof (done_pos _ _ _ _ _ I Hi). lia.
  - split; cbn; [intros [E|[]]; discriminate E|intros j [E|[]]; discriminate E].
  - split; cbn; auto.
  - destruct o'; cbn in Hx; exec_cases Hx k; injection Hx as <- <- <- <- <-; cbn; split; try tauto; try (intros [E|[]]; discriminate E); intros j [E|[]]; discriminate E.
  - split; [intros [E|[]]; discriminate E|]. intros j [E|[]]. injection E as -> ->.
    destruct o'; cbn in Hx; exec_cases Hx k. pose proof (done_pos _ _ _ _ _ I Hi). lia.
Qed.

(** ** Registering keeps its client *)
Definition midreg (c : list op) : bool := match c with AddW WAct :: AddW WWg :: _ | AddW WWg :: Unlock :: _ => true | _ => false end.
Lemma codes_midreg k c : In c (codes k) -> midreg c = true -> exists g, k = KRun g /\ in_cs c = true.
Proof.
  intros H Hm. destruct k as [cl|g|g n].
  - apply (call_check (fun c => negb (midreg c))) in H; [|intros []; vm_compute; reflexivity]. rewrite Hm in H. discriminate.
  - exists g. split; [reflexivity|]. codes_check (fun c => negb (midreg c) || in_cs c) H. rewrite Hm in H. exact H.
  - exfalso. cbn in H. repeat destruct H as [<-|H]; try discriminate; contradiction.
Qed.
Definition fresh_client (g : nat) (t : gor) : Prop := exists n, gKind t = KClient g n /\ (gCode t = [Work g] \/ exists r, gCode t = Lock :: r).
Lemma reg_client s A : lreach s A -> forall i g c, lT s !! i = Some (Gor (KRun g) c) -> midreg c = true ->
  exists j u, lT s !! j = Some u /\ fresh_client g u.
Proof.
  revert s A. apply (lreach_ind (fun s A => forall i g c, lT s !! i = Some (Gor (KRun g) c) -> midreg c = true -> exists j u, lT s !! j = Some u /\ fresh_client g u)); [intros i g c H; discriminate H|].
  intros s A e s' o R I IH H i g c Hi Hm.
  pose proof (linv_step _ _ _ _ I H) as I'.
  apply lstep_cases in H as [[-> ->]|[(p & -> & -> & _)|[(cl & -> & _ & -> & ->)|[(-> & _ & -> & ->)|(i0 & x & k & o' & c0 & -> & _ & Hi0 & [(h & pre & sp & wk & Hx & ->)|(pre & p & Hx & -> & ->)])]]]]; cbn [lT lG] in *.
  - eauto.
  - eauto.
  - assert (Hi' : lT s !! i = Some (Gor (KRun g) c)).
    { destruct (decide (i < length (lT s))%nat); [now rewrite lookup_app_l in Hi|]. rewrite lookup_app_r in Hi by lia.
      destruct (i - length (lT s))%nat as [|?]; [|discriminate Hi]. injection Hi as E _. discriminate E. }
    destruct (IH _ _ _ Hi' Hm) as (j & u & Hj & Hu). exists j, u. split; [now apply lookup_app_l_Some|assumption].
  - eauto.
  - assert (Keep : i <> i0 -> forall j u, lT s !! j = Some u -> fresh_client g u -> hMu (lG s) = Some i -> exists j u, (wake wk (<[i0:=Gor k (pre ++ c0)]> (lT s)) ++ sp) !! j = Some u /\ fresh_client g u).
    { intros Hne j u Hj (n & Hk & Hc) Hmu. destruct (decide (j = i0)) as [->|Hnj].
      - rewrite Hi0 in Hj. injection Hj as <-. cbn [gKind gCode] in *. subst k.
        destruct (after_self i0 _ (Gor (KClient g n) (pre ++ c0)) wk sp _ Hi0) as (u & Hu & Hk & Hc').
        exists i0, u. split; [assumption|]. exists n. split; [assumption|].
        destruct Hc as [[= -> ->]|[r [= -> ->]]].
        + cbn in Hx. exec_cases Hx (KClient g n); injection Hx as <- <- <- <- <-; cbn [gCode] in Hc'; destruct Hc' as [[-> _]|(w & c' & _ & E & _)]; try discriminate E; right; eexists; reflexivity.
        + cbn in Hx. rewrite Hmu in Hx. discriminate Hx.
      - destruct (after_other i0 (Gor k (pre ++ c0)) wk sp _ _ _ Hj Hnj) as (u' & Hu' & Hk' & Hc'). exists j, u'. split; [assumption|].
        exists n. split; [congruence|]. destruct Hc' as [[-> _]|(w & c' & _ & E & _)]; [assumption|]. destruct Hc as [E'|[r E']]; rewrite E' in E; discriminate E. }
    apply (after_lookup _ _ _ _ _ _ _ _ Hi0) in Hi as [(v & Hv & Hne & Ek & Hw)|[(-> & Ek & Hw)|(n & -> & Hsp)]].
    + cbn [gKind gCode] in *. destruct v as [kv cv]. cbn in Ek, Hw. subst kv.
      assert (c = cv) as -> by (destruct Hw as [[-> _]|(w & c' & _ & _ & ->)]; [reflexivity|discriminate Hm]).
      destruct (IH _ _ _ Hv Hm) as (j & u & Hj & Hu).
      destruct (codes_midreg _ _ (v_codes s I _ _ Hv) Hm) as (_ & _ & Hcs). apply (v_mu s I _ _ Hv) in Hcs.
      eapply Keep; eauto.
    + cbn [gKind gCode] in *. subst k. assert (c = pre ++ c0) as -> by (destruct Hw as [[-> _]|(w & c' & _ & _ & ->)]; [reflexivity|discriminate Hm]).
      pose proof (v_codes s I _ _ Hi0) as Hc. cbn in Hc.
      repeat destruct Hc as [Hc|Hc]; try discriminate Hc; try contradiction; injection Hc as <- <-; cbn in Hx; exec_cases Hx (KRun g); injection Hx as <- <- <- <- <-; try discriminate Hm.
      * exists (length (lT s) + 0)%nat. eexists. split; [apply (after_spawn i0 _ None); reflexivity|]. eexists. split; [reflexivity|]. left. reflexivity.
      * destruct (IH _ _ _ Hi0 eq_refl) as (j & u & Hj & (n & Hk & Hc)).
        assert (Hne : j <> i0) by (intros ->; rewrite Hi0 in Hj; injection Hj as <-; discriminate Hk).
        destruct (after_other i0 (Gor (KRun g) [AddW WWg; Unlock; Accept g]) None [] _ _ _ Hj Hne) as (u' & Hu' & Hk' & Hc'). exists j, u'. split; [assumption|].
        exists n. split; [congruence|]. destruct Hc' as [[-> _]|(w & c' & ? & _)]; [assumption|discriminate].
    + apply (exec_spawn _ _ _ _ _ _ _ _ _ _ _ _ Hx) in Hsp as [_ [(g' & _ & _ & [= -> ->])|(g' & _ & [= E _])]]; discriminate.
  - destruct (decide (i = i0)) as [->|Hne].
    + rewrite list_lookup_insert in Hi by (eapply lookup_lt_Some; eassumption). injection Hi as -> ->. destruct o'; cbn in Hx; exec_cases Hx (KRun g).
    + rewrite list_lookup_insert_ne in Hi by auto. destruct (IH _ _ _ Hi Hm) as (j & u & Hj & (n & Hk & Hc)).
      exists j, u. split; [|exists n; auto]. destruct (decide (j = i0)) as [->|Hnj]; [|now rewrite list_lookup_insert_ne by auto].
      rewrite Hi0 in Hj. injection Hj as <-. cbn in Hk. subst k. destruct o'; cbn in Hx; exec_cases Hx (KClient g n).
Qed.
