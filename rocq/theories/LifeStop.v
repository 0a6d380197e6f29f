(** * LifeStop: a stop request takes effect *)
From Verif Require Export LifeClients.
From stdpp Require Import gmap list.
From Coq Require Import ZifyBool.
Open Scope Z_scope.
Open Scope list_scope.

(** ** The listener *)
Definition unset (c : list op) : bool := existsb (fun o => match o with SetListener _ => true | _ => false end) c.
Record sinv (s : lsys) : Prop := {
  l_lane : forall i g c, lT s !! i = Some (Gor (KRun g) c) -> 0 < wt w_up c -> hLane (lG s) = Some g;
  l_none : forall i g c, lT s !! i = Some (Gor (KRun g) c) -> 0 < wt w_up c -> unset c = true -> hListener (lG s) = None;
  l_some : forall i g c, lT s !! i = Some (Gor (KRun g) c) -> 0 < wt w_up c -> unset c = false -> hListener (lG s) = Some g \/ g ∈ hClosed (lG s);
  l_clear : forall i k c, lT s !! i = Some (Gor k c) -> cleared c = true -> hListener (lG s) = None
}.
Lemma exec_lis h i k o x h' pre sp wk os : exec h i k o x = Next h' pre sp wk os ->
  match o with
  | ClearServer => hListener h' = None /\ hClosed h' = hClosed h /\ hLane h' = hLane h
  | NewLane => hListener h' = hListener h /\ hClosed h' = hClosed h /\ hLane h' = Some (hGen h)
  | SetListener g => hListener h' = Some g /\ hClosed h' = hClosed h /\ hLane h' = hLane h
  | CloseL => hListener h' = None /\ hClosed h' = (match hListener h with Some g => {[g]} ∪ hClosed h | None => hClosed h end) /\ hLane h' = hLane h
  | _ => hListener h' = hListener h /\ hClosed h' = hClosed h /\ hLane h' = hLane h
  end.
Proof. intros H. destruct h. destruct o; cbn in H; exec_cases H k; injection H as <- <- <- <- <-; try destruct w; cbn in *; subst; auto. Qed.
Lemma op_set k g c : In (SetListener g :: c) (codes k) -> k = KRun g /\ 0 < wt w_up (SetListener g :: c) /\ unset c = false.
Proof.
  destruct k as [cl|g'|g' n]; intros H.
  - exfalso. cbn [codes] in H. apply (call_check (fun c => match c with SetListener _ :: _ => false | _ => true end)) in H; [discriminate H|intros []; vm_compute; reflexivity].
  - cbn in H. repeat destruct H as [H|H]; try discriminate H; try contradiction. injection H as -> <-. split; [reflexivity|]. split; [cbn; lia|reflexivity].
  - cbn in H. repeat destruct H as [H|H]; try discriminate H; contradiction.
Qed.
Lemma op_close k c : In (CloseL :: c) (codes k) -> exists cl, k = KCall cl.
Proof.
  destruct k as [cl|g'|g' n]; intros H; [eauto| |]; cbn in H; repeat destruct H as [H|H]; try discriminate H; contradiction.
Qed.
Lemma unset_next g o c cc : In (o :: c) (codes (KRun g)) -> In cc (next_codes o c) -> (unset cc = true -> unset (o :: c) = true) /\ (unset cc = false -> unset (o :: c) = false \/ o = SetListener g).
Proof.
  intros H H1. cbn in H. repeat destruct H as [H|H]; try discriminate H; try contradiction; injection H as <- <-; cbn in H1; repeat destruct H1 as [<-|H1]; try contradiction; split; cbn; auto; try discriminate.
Qed.
Lemma unset_w k c : In c (codes k) -> unset c = true -> 0 < wt w_up c.
Proof. intros H Hu. codes_check (fun c => implb (unset c) (0 <? wt w_up c)) H. rewrite Hu in H. cbn in H. lia. Qed.
Lemma sinv_step s A e s' o : lreach s A -> sinv s -> lstep s e = (s', o) -> sinv s'.
Proof.
  intros R T H. pose proof (lreach_inv _ _ R) as I. pose proof (lreach_tab _ _ R) as TB.
  apply lstep_cases in H as [[-> ->]|[(p & -> & -> & _)|[(cl & -> & _ & -> & ->)|[(-> & _ & -> & ->)|(i0 & x & k0 & o' & c0 & -> & _ & Hi0 & [(h & pre & sp & wk & Hx & ->)|(pre & p & Hx & -> & ->)])]]]].
  - assumption.
  - destruct T; now split.
  - destruct T as [L N S' C]. split; cbn [lT lG].
    + intros i g c Hi. apply lookup_call in Hi as [Hi|[-> E]]; [eauto|discriminate E].
    + intros i g c Hi. apply lookup_call in Hi as [Hi|[-> E]]; [eauto|discriminate E].
    + intros i g c Hi. apply lookup_call in Hi as [Hi|[-> E]]; [eauto|discriminate E].
    + intros i k c Hi Hc. apply lookup_call in Hi as [Hi|[-> E]]; [eapply C; eauto|]. injection E as -> ->. destruct cl; discriminate Hc.
  - destruct (lG s) eqn:Eg. destruct T as [L N S' C]. rewrite Eg in *. split; cbn [lT lG set_parent]; assumption.
  - pose proof (v_codes s I _ _ Hi0) as Hc0. cbn [gCode gKind] in Hc0. pose proof (exec_lis _ _ _ _ _ _ _ _ _ _ Hx) as Ht.
    pose proof (made_next _ _ _ _ _ _ _ _ _ _ _ Hc0 Hx) as [Hm1 _]. pose proof (exec_codes _ _ _ _ _ _ _ _ _ _ c0 Hx) as Hcc.
    assert (Hsrc : forall j kj c, (wake wk (<[i0:=Gor k0 (pre ++ c0)]> (lT s)) ++ sp) !! j = Some (Gor kj c) ->
      (exists v, lT s !! j = Some (Gor kj v) /\ j <> i0 /\ wt w_up c = wt w_up v /\ cleared c = cleared v /\ unset c = unset v) \/
      (j = i0 /\ kj = k0 /\ wt w_up c = wt w_up (pre ++ c0) /\ cleared c = cleared (pre ++ c0) /\ unset c = unset (pre ++ c0)) \/
      (cleared c = false /\ forall g, kj = KRun g -> o' = GoRun /\ hLane (lG s) = Some g /\ unset c = true)).
    { intros j kj c Hj. apply (after_lookup _ _ _ _ _ _ _ _ Hi0) in Hj as [([kv cv] & Hv & Hne & Ek & Hw)|[(-> & Ek & Hw)|(m & -> & Hsp)]]; cbn [gKind gCode] in *.
      - left. subst kv. destruct (woke_up _ _ _ Hw) as (-> & -> & _). exists cv. do 4 (split; [auto|]). destruct Hw as [[-> _]|(w & c' & -> & -> & ->)]; reflexivity.
      - right. left. subst kj. destruct (woke_up _ _ _ Hw) as (-> & -> & _). do 4 (split; [auto|]). destruct Hw as [[-> _]|(w & c' & -> & -> & ->)]; reflexivity.
      - right. right. destruct o'; cbn in Hx; exec_cases Hx k0; injection Hx as <- <- <- <- <-; try discriminate Hsp; destruct m as [|m]; try discriminate Hsp; injection Hsp as <- <-;
          (split; [reflexivity|]); intros g0 E; try discriminate E. injection E as ->. auto. }
    assert (Hal : forall j kj v, lT s !! j = Some (Gor kj v) -> 0 < wt w_up v -> 0 < wt w_up (o' :: c0) -> j = i0).
    { intros j kj v Hj Hv H0. exact (up_unique s j i0 _ _ I Hj Hi0 Hv H0). }
    assert (Hcl : forall j kj v, lT s !! j = Some (Gor kj v) -> cleared v = true -> 0 < wt w_up v /\ (exists cl, kj = KCall cl)).
    { intros j kj v Hj Hv. destruct (codes_go _ _ (v_codes s I _ _ Hj) Hv) as (? & ? & _). auto. }
    assert (Hrunc : forall j g v, lT s !! j = Some (Gor (KRun g) v) -> 0 < wt w_up v -> o' <> ClearServer /\ o' <> NewLane).
    { intros j g v Hv Hup. split; intros ->.
      - destruct (op_clear _ _ Hc0) as ([cl Ek] & Hw & _). pose proof (Hal _ _ _ Hv Hup Hw) as ->. congruence.
      - destruct (op_lane _ _ Hc0) as [H1 _]. destruct (codes_go _ _ Hc0 H1) as (Hw & [cl Ek] & _). pose proof (Hal _ _ _ Hv Hup Hw) as ->. congruence. }
    assert (Hrun : forall j g c, (wake wk (<[i0:=Gor k0 (pre ++ c0)]> (lT s)) ++ sp) !! j = Some (Gor (KRun g) c) -> 0 < wt w_up c ->
      (exists v, lT s !! j = Some (Gor (KRun g) v) /\ 0 < wt w_up v /\ (unset c = true -> unset v = true) /\ (unset c = false -> unset v = false \/ (j = i0 /\ o' = SetListener g))) \/ (o' = GoRun /\ hLane (lG s) = Some g /\ unset c = true)).
    { intros j g c Hj Hup. destruct (Hsrc _ _ _ Hj) as [(v & Hv & _ & E & _ & Eu)|[(-> & <- & E & _ & Eu)|(_ & E)]].
      - left. exists v. split; [assumption|]. split; [lia|]. rewrite Eu. auto.
      - left. exists (o' :: c0). split; [assumption|]. rewrite E in Hup. destruct (unset_next _ _ _ _ Hc0 Hcc) as [U1 U2]. split; [exact (run_up_next _ _ _ _ Hc0 Hcc Hup)|]. rewrite Eu. split; [exact U1|]. intros Hu. destruct (U2 Hu); auto.
      - right. auto. }
    destruct T as [L N S' C]. split; cbn [lT lG].
    + intros j g c Hj Hup. destruct (Hrun _ _ _ Hj Hup) as [(v & Hv & Hup0 & _)|(-> & Hl & _)].
      * destruct (Hrunc _ _ _ Hv Hup0) as [_ Hnl]. rewrite <- (L _ _ _ Hv Hup0). destruct o'; try apply Ht. contradiction.
      * destruct Ht as (_ & _ & ->). assumption.
    + intros j g c Hj Hup Hu. destruct (Hrun _ _ _ Hj Hup) as [(v & Hv & Hup0 & U1 & _)|(-> & Hl & _)].
      * pose proof (N _ _ _ Hv Hup0 (U1 Hu)) as En. destruct o'; destruct Ht as (El & _); rewrite El; auto.
        exfalso. destruct (op_set _ _ _ Hc0) as (-> & Hw & Hf). pose proof (Hal _ _ _ Hv Hup0 Hw) as ->.
        destruct (Hsrc _ _ _ Hj) as [(v' & _ & Hne & _)|[(_ & _ & _ & _ & Eu)|(_ & E)]]; [congruence| |destruct (E _ eq_refl); discriminate].
        cbn in Hx. injection Hx as <- <- <- <- <-. cbn [app] in Eu. congruence.
      * destruct Ht as (-> & _). destruct (op_go _ _ Hc0) as [G1 _]. eapply C; eassumption.
    + intros j g c Hj Hup Hu. destruct (Hrun _ _ _ Hj Hup) as [(v & Hv & Hup0 & _ & U2)|(-> & Hl & Hu')]; [|congruence].
      destruct (U2 Hu) as [Hu0|[-> ->]]; [|destruct Ht as (-> & _); auto].
      destruct (Hrunc _ _ _ Hv Hup0) as [Hn1 Hn2]. destruct (S' _ _ _ Hv Hup0 Hu0) as [El|Ec].
      * destruct o'; destruct Ht as (E1 & E2 & _); rewrite E1, E2; auto; try contradiction.
        -- rewrite El. right. set_solver.
        -- destruct (op_set _ _ _ Hc0) as (-> & Hw & _). pose proof (Hal _ _ _ Hv Hup0 Hw) as ->. rewrite Hi0 in Hv. injection Hv as -> <-. auto.
      * right. destruct o'; destruct Ht as (E1 & E2 & _); rewrite E2; auto. destruct (hListener (lG s)); set_solver.
    + intros j k c Hj Hc. assert (Hold : (exists v, lT s !! j = Some (Gor k v) /\ cleared v = true) \/ o' = ClearServer).
      { destruct (Hsrc _ _ _ Hj) as [(v & Hv & _ & _ & E & _)|[(-> & -> & _ & E & _)|(E & _)]]; [left; exists v; split; [assumption|congruence]| |congruence]. rewrite E in Hc. destruct (Hm1 Hc); eauto. }
      destruct Hold as [(v & Hv & Hcv)| ->]; [|apply Ht]. pose proof (C _ _ _ Hv Hcv) as En. destruct o'; destruct Ht as (E1 & _); rewrite E1; auto.
      exfalso. destruct (op_set _ _ _ Hc0) as (-> & Hw & _). destruct (Hcl _ _ _ Hv Hcv) as [Hup [cl ->]]. pose proof (Hal _ _ _ Hv Hup Hw) as ->. congruence.
  - destruct (panic_call _ _ _ _ _ _ _ Hx) as [cl Ek].
    assert (Hpre : cleared pre = false) by (subst k0; destruct o'; cbn in Hx; exec_cases Hx (KCall cl); injection Hx as <- <-; reflexivity).
    destruct T as [L N S' C]. split; cbn [lT lG].
    + intros j g c Hj. apply (insert_cases _ _ _ _ _ _ Hi0) in Hj as [[_ Hj]|[-> E]]; [eauto|]. congruence.
    + intros j g c Hj. apply (insert_cases _ _ _ _ _ _ Hi0) in Hj as [[_ Hj]|[-> E]]; [eauto|]. congruence.
    + intros j g c Hj. apply (insert_cases _ _ _ _ _ _ Hi0) in Hj as [[_ Hj]|[-> E]]; [eauto|]. congruence.
    + intros j k c Hj Hc. apply (insert_cases _ _ _ _ _ _ Hi0) in Hj as [[_ Hj]|[-> E]]; [eapply C; eauto|]. congruence.
Qed.
Lemma lreach_sinv s A : lreach s A -> sinv s.
Proof.
  revert s A. apply (lreach_ind (fun s _ => sinv s)).
  - split; intros i g c H; discriminate H.
  - intros s A e s' o R I IH H. eapply sinv_step; eauto.
Qed.
