(** * LifeWait: waiting calls, and the panics of calls *)
From Verif Require Export LifeCalls.
From stdpp Require Import gmap list.
From Coq Require Import ZifyBool.
Open Scope Z_scope.
Open Scope list_scope.

Global Instance lcall_dec : EqDecision lcall.
Proof. solve_decision. Defined.
Definition to_wait (c : list op) : bool := existsb (fun o => match o with Wait WWg | Sleep WWg | Woken WWg => true | _ => false end) c.
(** The call got through [wg.Wait()] (and, for Restart, is not yet past the swap of [started]). *)
Definition settled (cl : lcall) (c : list op) : bool :=
  match cl with
  | CWait => negb (to_wait c)
  | CRestart => negb (to_wait c) && existsb (fun o => match o with SwapStarted => true | _ => false end) c
  | _ => false
  end.
(** What holds of call i unless a Start overlaps it. *)
Definition calm (h : glob) (t : gor) : Prop :=
  match gKind t with
  | KCall cl =>
      match gCode t with Woken w :: _ => count w h = 0 | _ => True end /\
      (settled cl (gCode t) = true -> hStarted h = false)
  | _ => True
  end.
Lemma codes_add k w c : In (AddW w :: c) (codes k) ->
  (exists cl, k = KCall cl /\ starter cl) \/ (exists g, k = KRun g /\ midreg (AddW w :: c) = true).
Proof.
  destruct k as [cl|g|g n]; intros H.
  - left. exists cl. split; [reflexivity|]. eapply starter_code; [exact H|reflexivity].
  - right. exists g. split; [reflexivity|]. cbn in H. repeat destruct H as [H|H]; try discriminate H; try contradiction; injection H as <- <-; reflexivity.
  - cbn in H. repeat destruct H as [H|H]; try discriminate H; contradiction.
Qed.
Lemma codes_swap k c : In (SwapStarted :: c) (codes k) -> exists cl, k = KCall cl /\ starter cl.
Proof.
  destruct k as [cl|g|g n]; intros H.
  - exists cl. split; [reflexivity|]. eapply starter_code; [exact H|reflexivity].
  - cbn in H. repeat destruct H as [H|H]; try discriminate H; contradiction.
  - cbn in H. repeat destruct H as [H|H]; try discriminate H; contradiction.
Qed.
Lemma call_woken cl w c : In (Woken w :: c) (call_codes cl) -> w = WInit \/ w = WWg.
Proof. intros H. apply (call_check (fun c => match c with Woken WAct :: _ => false | _ => true end)) in H; [|intros []; vm_compute; reflexivity]. destruct w; auto. discriminate. Qed.
Lemma exec_started h i k o x h' pre sp wk os : exec h i k o x = Next h' pre sp wk os -> o <> SwapStarted -> hStarted h' = true -> hStarted h = true.
Proof. intros H Hn. destruct h. destruct o; cbn in H; exec_cases H k; injection H as <- <- <- <- <-; try destruct w; cbn; auto; congruence. Qed.
Lemma exec_same h i k o x h' pre sp wk os w : exec h i k o x = Next h' pre sp wk os -> o <> AddW w -> o <> DoneW w -> count w h' = count w h.
Proof.
  intros H Hn Hd. destruct h. destruct o; cbn in H; exec_cases H k; injection H as <- <- <- <- <-; try destruct w0; destruct w; cbn; auto; congruence.
Qed.
Lemma no_woken h i cl o x h' pre sp wk os c w r : In (o :: c) (call_codes cl) -> exec h i (KCall cl) o x = Next h' pre sp wk os -> pre ++ c = Woken w :: r -> False.
Proof.
  intros H Hx E. assert (Hc : forall r', c = Woken w :: r' -> False).
  { intros r' ->. apply (call_check (fun c => match c with _ :: Woken _ :: _ => false | _ => true end)) in H; [discriminate H|intros []; vm_compute; reflexivity]. }
  destruct o; cbn in Hx; exec_cases Hx (KCall cl); injection Hx as <- <- <- <- <-; cbn in E; try discriminate E; eapply Hc; eassumption.
Qed.
Lemma settled_new h i cl o x h' pre sp wk os c : exec h i (KCall cl) o x = Next h' pre sp wk os -> settled cl (pre ++ c) = true -> settled cl (o :: c) = false ->
  o = Wait WWg \/ o = Woken WWg.
Proof.
  intros H E1 E2. destruct o; cbn in H; exec_cases H (KCall cl); injection H as <- <- <- <- <-; try destruct w; auto; exfalso;
    destruct cl; cbn in E1, E2; try discriminate; rewrite ?E1 in E2; try discriminate; apply andb_true_iff in E1 as [E1 E3]; unfold to_wait in E1; rewrite ?E1, ?E3 in E2; discriminate E2.
Qed.
Lemma calm_or s A : lreach s A -> forall i t, lT s !! i = Some t -> calm (lG s) t \/ exists j, start_overlaps A i j.
Proof.
  revert s A. apply (lreach_ind (fun s A => forall i t, lT s !! i = Some t -> calm (lG s) t \/ exists j, start_overlaps A i j)); [intros i t H; discriminate H|].
  intros s A e s' o R I IH H i t Hi. pose proof (lreach_step _ _ _ _ _ R H) as R'.
  destruct t as [[cl|g|g n] c]; [|left; exact Logic.I|left; exact Logic.I].
  assert (Hov : In (LBegin i cl) A -> (exists j, start_overlaps A i j) -> exists j, start_overlaps (A ++ o) i j).
  { intros Hb [j Hj]. exists j. eapply overlaps_step; eauto. }
  assert (Hlive : forall j cl' code, lT s !! j = Some (Gor (KCall cl') code) -> ended code = false -> starter cl' -> j <> i -> In (LBegin i cl) A -> exists j, start_overlaps (A ++ o) i j).
  { intros j cl' code Hj Hc Hs Hne Hb. apply Hov; [assumption|]. exists j. eapply live_overlaps; eauto. }
  pose proof H as H0.
  apply lstep_cases in H as [[-> ->]|[(p & -> & -> & _)|[(cl' & -> & _ & -> & ->)|[(-> & _ & -> & ->)|(i0 & x & k & o' & c0 & -> & _ & Hi0 & [(h & pre & sp & wk & Hx & ->)|(pre & p & Hx & -> & ->)])]]]]; cbn [lT lG] in *.
  - pose proof (thread_begin _ _ R _ _ _ Hi). destruct (IH _ _ Hi) as [?|?]; auto.
  - pose proof (thread_begin _ _ R _ _ _ Hi). destruct (IH _ _ Hi) as [?|?]; auto.
  - apply lookup_call in Hi as [Hi|[-> E]]; [pose proof (thread_begin _ _ R _ _ _ Hi); destruct (IH _ _ Hi) as [?|?]; auto|].
    left. injection E as <- ->. split; [destruct cl; exact Logic.I|]. destruct cl; discriminate.
  - pose proof (thread_begin _ _ R _ _ _ Hi). destruct (IH _ _ Hi) as [[H1 H2]|?]; [|auto]. left. split.
    + cbn [gCode] in *. destruct c as [|[] c]; auto. destruct (lG s), w; exact H1.
    + destruct (lG s). exact H2.
  - pose proof (v_codes s I _ _ Hi0) as Hc0. cbn [gCode gKind] in Hc0.
    pose proof (exec_started _ _ _ _ _ _ _ _ _ _ Hx) as Hst.
    apply (after_lookup _ _ _ _ _ _ _ _ Hi0) in Hi as [([kv cv] & Hv & Hne & Ek & Hw)|[(-> & Ek & Hw)|(m & -> & Hsp)]].
    + cbn [gKind gCode] in Ek, Hw. subst kv. pose proof (thread_begin _ _ R _ _ _ Hv) as Hb. pose proof (v_codes s I _ _ Hv) as Hcv. cbn [gCode gKind codes] in Hcv.
      destruct (IH _ _ Hv) as [[H1 H2]|Hj]; [|right; auto]. cbn [gCode] in H1, H2.
      assert (Hwok : (match c with Woken w :: _ => count w h = 0 | _ => True end) \/ exists j, start_overlaps (A ++ o) i j).
      { destruct Hw as [[-> _]|(w & c' & -> & -> & ->)].
        - destruct cv as [|[] cv]; auto. destruct (decide (o' = AddW w)) as [->|Hna].
          + destruct (codes_add _ _ _ Hc0) as [(cl' & -> & Hs)|(g & -> & Hm)]; [right; apply (Hlive i0 cl' _ Hi0); [reflexivity|assumption|auto|assumption]|].
            exfalso. apply call_woken in Hcv as [->| ->]; [destruct c0 as [|[] [|[] ?]]; discriminate Hm|].
            destruct (reg_client _ _ R _ _ _ Hi0 Hm) as (j & u & Hj & Hu). pose proof (fresh_wg _ _ Hu (v_codes s I _ _ Hj)).
            pose proof (v_cnt s I WWg) as Ec. cbn [weigh] in Ec. rewrite H1 in Ec.
            assert (wt w_wg (gCode u) <= tot w_wg (lT s)) by (apply (tot_ge w_wg (lT s) j); [intros; now apply (sum_nonneg s I j0)|assumption]). lia.
          + left. destruct (decide (o' = DoneW w)) as [->|Hnd]; [pose proof (done_pos _ _ _ _ _ I Hi0); lia|].
            rewrite <- H1. exact (exec_same _ _ _ _ _ _ _ _ _ _ w Hx Hna Hnd).
        - left. destruct (exec_wk _ _ _ _ _ _ _ _ _ _ w Hx eq_refl) as [-> E1]. cbn in Hx. exec_cases Hx k; injection Hx as <- <- <- <-. rewrite count_set, decide_True by reflexivity. lia. }
      destruct Hwok as [Hwok|Hj]; [|auto]. destruct (hStarted h) eqn:Esh; [|left; split; cbn; auto].
      destruct (decide (o' = SwapStarted)) as [->|Hns].
      * destruct (codes_swap _ _ Hc0) as (cl' & -> & Hs). right. apply (Hlive i0 cl' _ Hi0); [reflexivity|assumption|auto|assumption].
      * left. split; [assumption|]. intros Ha. cbn [gCode] in Ha. specialize (Hst Hns eq_refl). rewrite H2 in Hst; [discriminate|].
        destruct Hw as [[-> _]|(w & c' & _ & -> & ->)]; [assumption|]. destruct w, cl; auto.
    + cbn [gKind gCode] in Ek, Hw. subst k. pose proof (thread_begin _ _ R _ _ _ Hi0) as Hb. cbn [codes] in Hc0.
      assert (Hw2 : c = pre ++ c0).
      { destruct Hw as [[-> _]|(w & c' & -> & E & _)]; [reflexivity|]. exfalso. destruct (exec_wk _ _ _ _ _ _ _ _ _ _ w Hx eq_refl) as [-> _].
        apply (call_check (fun c => match c with DoneW _ :: _ => false | _ => true end)) in Hc0; [discriminate Hc0|intros []; vm_compute; reflexivity]. }
      subst c. clear Hw. destruct (IH _ _ Hi0) as [[H1 H2]|Hj]; [|right; auto]. cbn [gCode] in H1, H2.
      assert (Hsw : hStarted h = false \/ settled cl (pre ++ c0) = false \/ exists j, start_overlaps A i0 j).
      { destruct (settled cl (pre ++ c0)) eqn:Es; [|auto]. destruct (settled cl (o' :: c0)) eqn:Ea.
        - left. destruct (decide (o' = SwapStarted)) as [->|Hns]; [|destruct (hStarted h) eqn:Eh; [specialize (Hst Hns eq_refl); rewrite H2 in Hst by auto; discriminate|reflexivity]].
          exfalso. clear -Hc0 Es Ea Hx. cbn in Hx. exec_cases Hx (KCall cl). injection Hx as <- <- <- <- <-. cbn [app] in Es.
          destruct cl; try discriminate Es.
          + cbn in Hc0. repeat destruct Hc0 as [Hc0|Hc0]; try discriminate Hc0; contradiction.
          + apply (call_check (fun c => match c with SwapStarted :: c => negb (settled CRestart c) | _ => true end)) in Hc0; [rewrite Es in Hc0; discriminate Hc0|]. intros []; vm_compute; reflexivity.
        - assert (Hz : h = lG s /\ count WWg (lG s) = 0).
          { destruct (settled_new _ _ _ _ _ _ _ _ _ _ _ Hx Es Ea) as [Eo|Eo]; subst o'; cbn in Hx; exec_cases Hx (KCall cl); injection Hx as <- <- <- <- <-; try (cbn in *; split; [reflexivity|lia]).
            cbn in Es. destruct cl; discriminate Es. }
          destruct Hz as (-> & Hz).
          destruct (zero_wg _ _ R Hz) as [_ Hz2]. destruct (hStarted (lG s)); [|auto]. destruct (Hz2 eq_refl) as (j & cl' & cj & Hj & Hp).
          right. right. exists j. pose proof (v_codes s I _ _ Hj) as Hcj. cbn [gCode gKind codes] in Hcj. eapply live_overlaps; [exact R|exact Hj| | |].
          + destruct cj as [|[] [|? ?]]; try reflexivity; cbn in Hp; lia.
          + destruct cl'; [left; reflexivity| | | |right; reflexivity]; exfalso; clear - Hcj Hp; cbn in Hcj; repeat destruct Hcj as [<-|Hcj]; try contradiction; cbn in Hp; lia.
          + intros ->. rewrite Hi0 in Hj. injection Hj as <- <-. destruct (settled_new _ _ _ _ _ _ _ _ _ _ _ Hx Es Ea) as [Eo|Eo]; subst o'; clear -Hc0 Hp.
            * apply (call_check (fun c => match c with Wait WWg :: _ => wt w_up c <=? 0 | _ => true end)) in Hc0; [lia|intros []; vm_compute; reflexivity].
            * apply (call_check (fun c => match c with Woken WWg :: _ => wt w_up c <=? 0 | _ => true end)) in Hc0; [lia|intros []; vm_compute; reflexivity]. }
      assert (Hwk : match pre ++ c0 with Woken w :: _ => count w h = 0 | _ => True end) by (destruct (pre ++ c0) as [|[] r] eqn:Ep; auto; exfalso; eapply no_woken; eauto).
      destruct Hsw as [Hsw|[Hsw|Hsw]]; [| |right; auto]; left; (split; [assumption|]); cbn [gCode]; congruence.
    + apply (exec_spawn _ _ _ _ _ _ _ _ _ _ _ _ Hx) in Hsp as [_ [(g' & _ & _ & E)|(g' & _ & E)]]; discriminate E.
  - apply (insert_cases _ _ _ _ _ _ Hi0) in Hi as [[Hne Hi]|[-> E]].
    + pose proof (thread_begin _ _ R _ _ _ Hi). destruct (IH _ _ Hi) as [?|?]; auto.
    + injection E as <- ->. pose proof (thread_begin _ _ R _ _ _ Hi0) as Hb. pose proof (v_codes s I _ _ Hi0) as Hc0. cbn [gCode gKind codes] in Hc0.
      destruct (IH _ _ Hi0) as [[H1 H2]|Hj]; [|right; auto]. cbn [gCode] in H1, H2. left. split.
      * destruct o'; cbn in Hx; exec_cases Hx (KCall cl); injection Hx as <- <-; exact Logic.I.
      * intros Es. destruct cl; try discriminate Es; [|destruct o'; cbn in Hx; exec_cases Hx (KCall CRestart); injection Hx as <- <-; discriminate Es].
        apply H2. clear Hb. destruct o'; cbn in Hx; exec_cases Hx (KCall CWait); injection Hx as <- <-; try discriminate Es.
        -- exfalso. clear -Hc0. cbn in Hc0. repeat destruct Hc0 as [Hc0|Hc0]; try discriminate Hc0; contradiction.
        -- cbn in Hc0. repeat destruct Hc0 as [Hc0|Hc0]; try discriminate Hc0; try contradiction.
        -- apply Z.eqb_neq in Heqb. contradiction.
        -- cbn in Hc0. repeat destruct Hc0 as [Hc0|Hc0]; try discriminate Hc0; try contradiction. injection Hc0 as <-. reflexivity.
Qed.
