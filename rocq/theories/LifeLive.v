(** * LifeLive: no deadlock, bounded work *)
From Verif Require Export LifeStop.
From stdpp Require Import gmap list.
From Coq Require Import ZifyBool.
Open Scope Z_scope.
Open Scope list_scope.

(** ** The server that is up *)
Lemma client_up g n c : In c (codes (KClient g n)) -> wt w_up c = 0.
Proof. intros H. cbn in H. repeat destruct H as [<-|H]; try contradiction; reflexivity. Qed.
Lemma call_up cl c : In c (call_codes cl) -> 0 < wt w_up c -> starter cl /\ ended c = false.
Proof.
  intros H Hw. split.
  - destruct cl; [left; reflexivity| | | |right; reflexivity]; exfalso; cbn in H; repeat destruct H as [<-|H]; try contradiction; cbn in Hw; lia.
  - destruct c as [|[] [|? ?]]; try reflexivity; cbn in Hw; lia.
Qed.
Lemma up_run s A : lreach s A -> hStarted (lG s) = true ->
  (exists j g c, lT s !! j = Some (Gor (KRun g) c) /\ 0 < wt w_up c) \/
  (exists j cl c, lT s !! j = Some (Gor (KCall cl) c) /\ starter cl /\ ended c = false /\ 0 < wt w_up c).
Proof.
  intros R Hup. pose proof (lreach_inv _ _ R) as I. pose proof (v_up s I) as Hu. rewrite Hup in Hu. cbn in Hu.
  destruct (tot_pos w_up (lT s)) as (j & [[cl|g|g n] c] & Hj & Hw); [lia| | |]; cbn [gCode] in Hw; pose proof (v_codes s I _ _ Hj) as Hc; cbn [gCode gKind] in Hc.
  - right. destruct (call_up _ _ Hc Hw). eauto 10.
  - eauto 10.
  - rewrite (client_up _ _ _ Hc) in Hw. lia.
Qed.

(** ** A RequestStop that no Start overlaps *)
Lemma obs_thread s A : lreach s A -> forall i, In (LStop i) A -> exists t, lT s !! i = Some t.
Proof.
  revert s A. apply (lreach_ind (fun s A => forall i, In (LStop i) A -> exists t, lT s !! i = Some t)); [intros i []|].
  intros s A e s' o R I IH H i Hin. assert (Hold : exists t, lT s !! i = Some t).
  { apply in_app_or in Hin as [Hin|Hin]; [eauto|].
    apply lstep_cases in H as [[_ ->]|[(p & _ & -> & _)|[(cl & _ & _ & -> & ->)|[(_ & _ & _ & ->)|(i0 & x & k & o' & c0 & _ & _ & Hi & [(h & pre & sp & wk & Hx & _)|(pre & p & _ & _ & ->)])]]]];
      try contradiction; try (destruct Hin as [E|[]]; discriminate E).
    destruct o'; cbn in Hx; exec_cases Hx k; injection Hx as <- <- <- <- <-; try contradiction; destruct Hin as [E|[]]; try discriminate E. injection E as ->. eauto. }
  destruct Hold as [t Ht]. destruct (kind_stays _ _ _ _ _ _ H Ht); eauto.
Qed.
Inductive stage := SGoing | SReady | SClosed | SDone | SNot.
Definition stage_of (c : list op) : stage :=
  match c with
  | LoadStarted :: _ | Wait WInit :: _ | Sleep WInit :: _ | Woken WInit :: _ => SGoing
  | Lock :: _ | CloseL :: _ => SReady
  | Unlock :: _ | CancelFn :: _ => SClosed
  | SwapStopped :: _ => SNot
  | _ => SDone
  end.
Definition stopping (h : glob) (A : list lobs) (i : nat) (c : list op) : Prop :=
  match stage_of c with
  | SGoing => True
  | SReady => hInit h = 0
  | SClosed => exists g, hLane h = Some g /\ g ∈ hClosed h
  | SDone => exists g, hLane h = Some g /\ g ∈ hClosed h /\ In (LCancel i g) A
  | SNot => False
  end.
Lemma stopping_mono h h' A o i c : (hInit h = 0 -> hInit h' = 0) -> hLane h' = hLane h -> (forall g, g ∈ hClosed h -> g ∈ hClosed h') -> stopping h A i c -> stopping h' (A ++ o) i c.
Proof.
  intros E1 E2 E3. unfold stopping. rewrite E2. destruct (stage_of c); auto.
  - intros (g & ? & ?); exists g; auto.
  - intros (g & ? & ? & ?); exists g; split; [assumption|]; split; [auto|now apply in_mono].
Qed.
Lemma exec_closed h i k o x h' pre sp wk os g : exec h i k o x = Next h' pre sp wk os -> g ∈ hClosed h -> g ∈ hClosed h'.
Proof. intros H Hg. destruct h. destruct o; cbn in H; exec_cases H k; injection H as <- <- <- <- <-; try destruct w; cbn in *; set_solver. Qed.
Lemma exec_lane_same h i k o x h' pre sp wk os : exec h i k o x = Next h' pre sp wk os -> o <> NewLane -> hLane h' = hLane h.
Proof. intros H Hg. destruct h. destruct o; cbn in H; exec_cases H k; injection H as <- <- <- <- <-; try destruct w; cbn in *; congruence. Qed.
Lemma codes_newlane k c : In (NewLane :: c) (codes k) -> exists cl, k = KCall cl /\ starter cl.
Proof.
  destruct k as [cl|g|g n]; intros H.
  - exists cl. split; [reflexivity|]. eapply starter_code; [exact H|reflexivity].
  - cbn in H. repeat destruct H as [H|H]; try discriminate H; contradiction.
  - cbn in H. repeat destruct H as [H|H]; try discriminate H; contradiction.
Qed.
Lemma unset_init g c : In c (codes (KRun g)) -> wt w_init c = 0 -> unset c = false.
Proof. intros H Hw. cbn in H. repeat destruct H as [<-|H]; try contradiction; try reflexivity; cbn in Hw; lia. Qed.
Lemma close_run s A : lreach s A -> hInit (lG s) = 0 ->
  hStarted (lG s) = false \/ (exists g, hLane (lG s) = Some g /\ (hListener (lG s) = Some g \/ g ∈ hClosed (lG s))) \/
  (exists j cl c, lT s !! j = Some (Gor (KCall cl) c) /\ starter cl /\ ended c = false).
Proof.
  intros R Hi. destruct (hStarted (lG s)) eqn:Hs; [|auto]. right. pose proof (lreach_inv _ _ R) as I.
  destruct (up_run _ _ R Hs) as [(j & g & c & Hj & Hw)|(j & cl & c & Hj & Hst & He & _)]; [|eauto 8]. left. exists g.
  pose proof (lreach_sinv _ _ R) as V. split; [eapply l_lane; eauto|]. eapply (l_some _ V); eauto.
  eapply unset_init; [exact (v_codes s I _ _ Hj)|]. cbn [gCode]. change c with (gCode (Gor (KRun g) c)).
  eapply (tot_zero w_init); [intros j' u Hu; apply (sum_nonneg s I _ _ Hu)| |exact Hj].
  pose proof (v_cnt s I WInit) as Ec. cbn in Ec. congruence.
Qed.
Lemma stop_inv s A : lreach s A -> forall i c, lT s !! i = Some (Gor (KCall CStop) c) -> In (LStop i) A ->
  (exists j, start_overlaps A i j) \/ hStarted (lG s) = false \/ stopping (lG s) A i c.
Proof.
  revert s A. apply (lreach_ind (fun s A => forall i c, lT s !! i = Some (Gor (KCall CStop) c) -> In (LStop i) A -> (exists j, start_overlaps A i j) \/ hStarted (lG s) = false \/ stopping (lG s) A i c)); [intros i c H; discriminate H|].
  intros s A e s' o R I IH H i c Hi Hst. pose proof (lreach_step _ _ _ _ _ R H) as R'. pose proof H as H0.
  assert (Hov : In (LBegin i CStop) A -> (exists j, start_overlaps A i j) -> exists j, start_overlaps (A ++ o) i j).
  { intros Hb [j Hj]. exists j. eapply overlaps_step; eauto. }
  assert (Hlive : forall j cl' code, lT s !! j = Some (Gor (KCall cl') code) -> ended code = false -> starter cl' -> j <> i -> In (LBegin i CStop) A -> exists j, start_overlaps (A ++ o) i j).
  { intros j cl' code Hj Hc Hs Hne Hb. apply Hov; [assumption|]. exists j. eapply live_overlaps; eauto. }
  apply lstep_cases in H as [[-> ->]|[(p & -> & -> & _)|[(cl & -> & _ & -> & ->)|[(-> & _ & -> & ->)|(i0 & x & k0 & o' & c0 & -> & _ & Hi0 & [(h & pre & sp & wk & Hx & ->)|(pre & p & Hx & -> & ->)])]]]]; cbn [lT lG] in *.
  - rewrite app_nil_r in *. auto.
  - apply in_app_or in Hst as [Hst|[E|[]]]; [|discriminate E]. pose proof (thread_begin _ _ R _ _ _ Hi) as Hb. destruct (IH _ _ Hi Hst) as [?|[?|?]]; auto. right. right. eapply stopping_mono; eauto.
  - apply in_app_or in Hst as [Hst|[E|[]]]; [|discriminate E]. apply lookup_call in Hi as [Hi|[-> E]].
    + pose proof (thread_begin _ _ R _ _ _ Hi) as Hb. destruct (IH _ _ Hi Hst) as [?|[?|?]]; auto. right. right. eapply stopping_mono; eauto.
    + exfalso. destruct (obs_thread _ _ R _ Hst) as [t Ht]. apply lookup_lt_Some in Ht. lia.
  - rewrite app_nil_r in *. pose proof (thread_begin _ _ R _ _ _ Hi) as Hb. destruct (IH _ _ Hi Hst) as [?|[?|?]]; [auto|right; left; now destruct (lG s)|]. right. right. rewrite <- (app_nil_r A). eapply stopping_mono; [| | |eassumption]; now destruct (lG s).
  - pose proof (v_codes s I _ _ Hi0) as Hc0. cbn [gCode gKind] in Hc0. pose proof (exec_started _ _ _ _ _ _ _ _ _ _ Hx) as Hstart.
    apply (after_lookup _ _ _ _ _ _ _ _ Hi0) in Hi as [([kv cv] & Hv & Hne & Ek & Hw)|[(-> & Ek & Hw)|(m & -> & Hsp)]]; cbn [gKind gCode] in *.
    + subst kv. pose proof (thread_begin _ _ R _ _ _ Hv) as Hb.
      assert (Hst' : In (LStop i) A).
      { apply in_app_or in Hst as [Hst|Hst]; [assumption|]. exfalso. destruct o'; cbn in Hx; exec_cases Hx k0; injection Hx as <- <- <- <- <-; try contradiction; destruct Hst as [E|[]]; try discriminate E. congruence. }
      assert (Hstr : forall cl', k0 = KCall cl' -> starter cl' -> ended (o' :: c0) = false -> exists j, start_overlaps (A ++ o) i j).
      { intros cl' -> Hs He. apply (Hlive i0 cl' _ Hi0); auto. }
      destruct (IH _ _ Hv Hst') as [?|[Hd|Hp]]; [auto| |].
      * destruct (hStarted h) eqn:Eh; [|auto]. destruct (decide (o' = SwapStarted)) as [->|Hns]; [|rewrite Hstart in Hd by auto; discriminate].
        left. destruct (codes_swap _ _ Hc0) as (cl' & -> & Hs). eapply Hstr; eauto.
      * assert (Hp' : stopping (lG s) A i c).
        { destruct Hw as [[-> _]|(w & c' & -> & -> & ->)]; [assumption|]. destruct w; exact Hp. }
        destruct (decide (o' = AddW WInit)) as [->|Na].
        { left. destruct (codes_add _ _ _ Hc0) as [(cl' & -> & Hs)|(g & -> & Hm)]; [eapply Hstr; eauto|]. exfalso. destruct c0 as [|[] [|[] ?]]; discriminate Hm. }
        destruct (decide (o' = NewLane)) as [->|Nn]; [left; destruct (codes_newlane _ _ Hc0) as (cl' & -> & Hs); eapply Hstr; eauto|].
        right. right. assert (El : hLane h = hLane (lG s)) by (eapply exec_lane_same; eauto).
        assert (Ecl : forall g, g ∈ hClosed (lG s) -> g ∈ hClosed h) by (intros g; eapply exec_closed; eauto).
        assert (Ein : hInit (lG s) = 0 -> hInit h = 0).
        { intros Ez. destruct (decide (o' = DoneW WInit)) as [->|Nd]; [pose proof (done_pos _ _ _ _ _ I Hi0) as Hpos; cbn in Hpos; lia|]. rewrite <- Ez. exact (exec_same _ _ _ _ _ _ _ _ _ _ WInit Hx Na Nd). }
        eapply stopping_mono; eauto.
    + subst k0. pose proof (thread_begin _ _ R _ _ _ Hi0) as Hb. cbn [codes] in Hc0.
      assert (Ec : c = pre ++ c0).
      { destruct Hw as [[-> _]|(w & c' & -> & E & _)]; [reflexivity|]. exfalso. destruct (exec_wk _ _ _ _ _ _ _ _ _ _ w Hx eq_refl) as [-> _].
        apply (call_check (fun c => match c with DoneW _ :: _ => false | _ => true end)) in Hc0; [discriminate Hc0|intros []; vm_compute; reflexivity]. }
      subst c. clear Hw. cbn in Hc0.
      repeat destruct Hc0 as [Hc0|Hc0]; try discriminate Hc0; try contradiction; injection Hc0 as <- <-; cbn in Hx.
      all: try (assert (Hst' : In (LStop i0) A) by (exec_cases Hx (KCall CStop); injection Hx as <- <- <- <- <-; apply in_app_or in Hst as [Hst|Hst]; try assumption; try contradiction; destruct Hst as [E|[]]; discriminate E); destruct (IH _ _ Hi0 Hst') as [?|[Hd|Hp]];
        [left; auto|right; left; destruct (hStarted h) eqn:Eh; [rewrite Hstart in Hd by (discriminate || reflexivity); discriminate Hd|reflexivity]|]).
      all: unfold stopping in *; cbn [app stage_of] in *; try contradiction.
      all: exec_cases Hx (KCall CStop); injection Hx as <- <- <- <- <-; cbn [app stage_of stop_rest] in *; rewrite ?app_nil_r in *; auto.
      all: try (right; right; exact Hp).
      all: try (right; right; lia).
      all: try (right; right; destruct (lG s); exact Hp).
      * right. right. destruct Hp as (g & [= <-] & Hg). exists n. destruct (lG s); cbn in *. subst. split; [reflexivity|]. split; [assumption|apply in_elt].
      * destruct (close_run _ _ R Hp) as [Hd|[(g & Hl & Hg)|(j & cl & code & Hj & Hs & He)]].
        -- right. left. destruct (lG s); assumption.
        -- right. right. exists g. destruct (lG s); cbn in *. split; [assumption|]. destruct Hg as [Hg|Hg]; set_solver.
        -- left. apply (Hlive _ _ _ Hj He Hs); [|assumption]. intros ->. rewrite Hi0 in Hj. injection Hj as <- _. destruct Hs; discriminate.
      * destruct (close_run _ _ R Hp) as [Hd|[(g & Hl & [Hg|Hg])|(j & cl & code & Hj & Hs & He)]]; [auto|congruence|eauto 6|].
        left. apply (Hlive _ _ _ Hj He Hs); [|assumption]. intros ->. rewrite Hi0 in Hj. injection Hj as <- _. destruct Hs; discriminate.
      * right. right. destruct Hp as (g & ? & ? & ?). exists g. split; [assumption|]. split; [assumption|now apply in_mono].
      * destruct (IH _ _ Hi0 Hst) as [?|[?|[]]]; auto.
    + apply (exec_spawn _ _ _ _ _ _ _ _ _ _ _ _ Hx) in Hsp as [_ [(g' & _ & _ & E)|(g' & _ & E)]]; discriminate E.
  - apply in_app_or in Hst as [Hst|[E|[]]]; [|discriminate E].
    apply (insert_cases _ _ _ _ _ _ Hi0) in Hi as [[Hne Hi]|[-> E]].
    + pose proof (thread_begin _ _ R _ _ _ Hi) as Hb. destruct (IH _ _ Hi Hst) as [?|[?|?]]; auto. right. right. eapply stopping_mono; eauto.
    + injection E as <- _. pose proof (thread_begin _ _ R _ _ _ Hi0) as Hb. left. apply Hov; [assumption|].
      eapply (stop_panics _ _ A i0 p [] CStop R'); auto.
Qed.

