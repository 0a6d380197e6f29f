(** * LifeTable: the table of connected clients *)
From Verif Require Export LifeApi.
From stdpp Require Import gmap list.
From Coq Require Import ZifyBool.
Open Scope Z_scope.
Open Scope list_scope.

Definition tstep (st : gset nat * nat) (x : lobs) : gset nat * nat :=
  match x with
  | LFresh _ => (∅, 0%nat)
  | LConn _ n => ({[n]} ∪ st.1, n)
  | LGone _ _ => (st.1 ∖ {[st.2]}, st.2)
  | _ => st
  end.
Definition tfold (A : list lobs) : gset nat * nat := fold_left tstep A (∅, 0%nat).
Lemma tfold_app A B : tfold (A ++ B) = fold_left tstep B (tfold A).
Proof. apply fold_left_app. Qed.

(** A Start that has cleared the server, or made the lane, and not yet started [run]. *)
Definition cleared (c : list op) : bool := has GoRun c && negb (has ClearServer c).
Definition lane_made (c : list op) : bool := has GoRun c && negb (has NewLane c).
Record tabinv (s : lsys) (A : list lobs) : Prop := {
  a_tab : hTable (lG s) = (tfold A).1;
  a_num : forall i g c, lT s !! i = Some (Gor (KRun g) c) -> 0 < wt w_up c -> num g (lG s) = (tfold A).2;
  a_clear : forall i k c, lT s !! i = Some (Gor k c) -> cleared c = true -> (tfold A).2 = 0%nat;
  a_gen : forall g, (hGen (lG s) <= g)%nat -> num g (lG s) = 0%nat;
  a_lane : forall i k c, lT s !! i = Some (Gor k c) -> lane_made c = true -> exists g, hLane (lG s) = Some g /\ num g (lG s) = 0%nat;
  a_old : forall i g c, lT s !! i = Some (Gor (KRun g) c) -> (g < hGen (lG s))%nat;
  a_lgen : forall g, hLane (lG s) = Some g -> (g < hGen (lG s))%nat
}.
Lemma codes_go k c : In c (codes k) -> cleared c = true -> 0 < wt w_up c /\ (exists cl, k = KCall cl) /\ in_cs c = true.
Proof.
  intros H Hc. destruct k as [cl|g|g n].
  - cbn [codes] in H. apply (call_check (fun c => implb (cleared c) ((0 <? wt w_up c) && in_cs c))) in H; [|intros []; vm_compute; reflexivity]. rewrite Hc in H. cbn in H. apply andb_true_iff in H as [H1 H2]. split; [lia|]. eauto.
  - exfalso. cbn in H. repeat destruct H as [<-|H]; try discriminate Hc; contradiction.
  - exfalso. cbn in H. repeat destruct H as [<-|H]; try discriminate Hc; contradiction.
Qed.
Lemma made_clear k c : In c (codes k) -> lane_made c = true -> cleared c = true.
Proof.
  intros H Hc. codes_check (fun c => implb (lane_made c) (cleared c)) H. now rewrite Hc in H.
Qed.
Lemma exec_tab h i k o x h' pre sp wk os : exec h i k o x = Next h' pre sp wk os ->
  match o with
  | ClearServer => hTable h' = ∅ /\ hNum h' = hNum h /\ hGen h' = hGen h /\ hLane h' = hLane h /\ os = [LFresh i]
  | NewLane => hTable h' = hTable h /\ hNum h' = hNum h /\ hGen h' = S (hGen h) /\ hLane h' = Some (hGen h) /\ os = [LLane i (hGen h)]
  | Register g => hTable h' = {[S (num g h)]} ∪ hTable h /\ hNum h' = <[g := S (num g h)]> (hNum h) /\ hGen h' = hGen h /\ hLane h' = hLane h /\ os = [LConn g (S (num g h))]
  | Forget g => hTable h' = hTable h ∖ {[num g h]} /\ hNum h' = hNum h /\ hGen h' = hGen h /\ hLane h' = hLane h /\ os = match k with KClient g' n => [LGone g' n] | _ => [] end
  | _ => hTable h' = hTable h /\ hNum h' = hNum h /\ hGen h' = hGen h /\ hLane h' = hLane h /\ forall st, fold_left tstep os st = st
  end.
Proof. intros H. destruct h. destruct o; cbn in H; exec_cases H k; injection H as <- <- <- <- <-; try destruct w; cbn; auto 10. Qed.
Lemma made_next h i k o x h' pre sp wk os c : In (o :: c) (codes k) -> exec h i k o x = Next h' pre sp wk os ->
  (cleared (pre ++ c) = true -> cleared (o :: c) = true \/ o = ClearServer) /\
  (lane_made (pre ++ c) = true -> lane_made (o :: c) = true \/ o = NewLane).
Proof.
  intros Hin H. assert (Hg : forall cc, In cc (next_codes o c) -> (cleared cc = true -> cleared (o :: c) = true \/ o = ClearServer) /\ (lane_made cc = true -> lane_made (o :: c) = true \/ o = NewLane)).
  { intros cc Hcc. codes_check (fun code => match code with [] => true | o :: c => forallb (fun cc => implb (cleared cc) (cleared (o :: c) || bool_decide (o = ClearServer)) && implb (lane_made cc) (lane_made (o :: c) || bool_decide (o = NewLane))) (next_codes o c) end) Hin.
    rewrite forallb_forall in Hin. specialize (Hin _ Hcc). apply andb_true_iff in Hin as [H1 H2]. split; intros E; rewrite E in *; cbn [implb] in *.
    - apply orb_true_iff in H1 as [?|H1]; [auto|apply bool_decide_eq_true in H1; auto].
    - apply orb_true_iff in H2 as [?|H2]; [auto|apply bool_decide_eq_true in H2; auto]. }
  apply Hg. eapply exec_codes; eassumption.
Qed.
Lemma op_register k g c : In (Register g :: c) (codes k) -> k = KRun g /\ 0 < wt w_up (Register g :: c).
Proof.
  destruct k as [cl|g'|g' n]; intros H.
  - exfalso. cbn [codes] in H. apply (call_check (fun c => match c with Register _ :: _ => false | _ => true end)) in H; [discriminate H|intros []; vm_compute; reflexivity].
  - cbn in H. repeat destruct H as [H|H]; try discriminate H; try contradiction. injection H as -> <-. split; [reflexivity|cbn; lia].
  - cbn in H. repeat destruct H as [H|H]; try discriminate H; contradiction.
Qed.
Lemma op_forget k g c : In (Forget g :: c) (codes k) -> exists n, k = KClient g n /\ 0 < wt w_act (Forget g :: c).
Proof.
  destruct k as [cl|g'|g' n]; intros H.
  - exfalso. cbn [codes] in H. apply (call_check (fun c => match c with Forget _ :: _ => false | _ => true end)) in H; [discriminate H|intros []; vm_compute; reflexivity].
  - cbn in H. repeat destruct H as [H|H]; try discriminate H; contradiction.
  - cbn in H. repeat destruct H as [H|H]; try discriminate H; try contradiction; injection H as -> <-; exists n; (split; [reflexivity|cbn; lia]).
Qed.
Lemma op_clear k c : In (ClearServer :: c) (codes k) -> (exists cl, k = KCall cl) /\ 0 < wt w_up (ClearServer :: c) /\ cleared (ClearServer :: c) = false.
Proof.
  destruct k as [cl|g'|g' n]; intros H.
  - cbn [codes] in H. apply (call_check (fun c => match c with ClearServer :: _ => (0 <? wt w_up c) && negb (cleared c) | _ => true end)) in H; [|intros []; vm_compute; reflexivity].
    apply andb_true_iff in H as [H1 H2]. apply negb_true_iff in H2. split; [eauto|]. split; [lia|assumption].
  - cbn in H. repeat destruct H as [H|H]; try discriminate H; contradiction.
  - cbn in H. repeat destruct H as [H|H]; try discriminate H; contradiction.
Qed.
Lemma op_lane k c : In (NewLane :: c) (codes k) -> cleared (NewLane :: c) = true /\ lane_made (NewLane :: c) = false.
Proof. intros H. codes_check (fun c => match c with NewLane :: _ => cleared c && negb (lane_made c) | _ => true end) H. apply andb_true_iff in H as [H1 H2]. now apply negb_true_iff in H2. Qed.
Lemma op_go k c : In (GoRun :: c) (codes k) -> cleared (GoRun :: c) = true /\ lane_made (GoRun :: c) = true.
Proof. intros H. codes_check (fun c => match c with GoRun :: _ => cleared c && lane_made c | _ => true end) H. now apply andb_true_iff in H. Qed.
Lemma run_up_next g o c cc : In (o :: c) (codes (KRun g)) -> In cc (next_codes o c) -> 0 < wt w_up cc -> 0 < wt w_up (o :: c).
Proof.
  intros H H1 H2. cbn in H. repeat destruct H as [H|H]; try discriminate H; try contradiction; injection H as <- <-; cbn in H1; repeat destruct H1 as [<-|H1]; try contradiction; cbn in *; lia.
Qed.
Lemma woke_up wk v u : woke wk v u -> wt w_up u = wt w_up v /\ cleared u = cleared v /\ lane_made u = lane_made v.
Proof. intros [[-> _]|(w & c & -> & -> & ->)]; auto. Qed.
Lemma tabinv_step s A e s' o : lreach s A -> tabinv s A -> lstep s e = (s', o) -> tabinv s' (A ++ o).
Proof.
  intros R T H. pose proof (lreach_inv _ _ R) as I.
  apply lstep_cases in H as [[-> ->]|[(p & -> & -> & _)|[(cl & -> & _ & -> & ->)|[(-> & _ & -> & ->)|(i0 & x & k0 & o' & c0 & -> & _ & Hi0 & [(h & pre & sp & wk & Hx & ->)|(pre & p & Hx & -> & ->)])]]]]; cbn [lT lG] in *.
  - now rewrite app_nil_r.
  - destruct T. split; rewrite ?tfold_app; assumption.
  - destruct T. split; rewrite ?tfold_app; cbn [lT lG]; auto.
    + intros i g c Hi. apply lookup_call in Hi as [Hi|[-> E]]; [eauto|discriminate E].
    + intros i k c Hi Hc. apply lookup_call in Hi as [Hi|[-> E]]; [eapply a_clear0; eauto|]. injection E as -> ->. destruct cl; discriminate Hc.
    + intros i k c Hi Hc. apply lookup_call in Hi as [Hi|[-> E]]; [eapply a_lane0; eauto|]. injection E as -> ->. destruct cl; discriminate Hc.
    + intros i g c Hi. apply lookup_call in Hi as [Hi|[-> E]]; [eauto|discriminate E].
  - rewrite app_nil_r. destruct (lG s) eqn:Eg. destruct T. rewrite Eg in *. split; cbn [lT lG set_parent]; assumption.
  - pose proof (v_codes s I _ _ Hi0) as Hc0. cbn [gCode gKind] in Hc0. pose proof (exec_tab _ _ _ _ _ _ _ _ _ _ Hx) as Ht.
    pose proof (made_next _ _ _ _ _ _ _ _ _ _ _ Hc0 Hx) as [Hm1 Hm2]. pose proof (exec_codes _ _ _ _ _ _ _ _ _ _ c0 Hx) as Hcc.
    pose proof (codes_closed _ _ _ _ Hc0 Hcc) as Hcn.
    assert (Hsrc : forall j kj c, (wake wk (<[i0:=Gor k0 (pre ++ c0)]> (lT s)) ++ sp) !! j = Some (Gor kj c) ->
      (exists v, lT s !! j = Some (Gor kj v) /\ j <> i0 /\ wt w_up c = wt w_up v /\ cleared c = cleared v /\ lane_made c = lane_made v) \/
      (j = i0 /\ kj = k0 /\ wt w_up c = wt w_up (pre ++ c0) /\ cleared c = cleared (pre ++ c0) /\ lane_made c = lane_made (pre ++ c0)) \/
      (cleared c = false /\ lane_made c = false /\ forall g, kj = KRun g -> o' = GoRun /\ hLane (lG s) = Some g)).
    { intros j kj c Hj. apply (after_lookup _ _ _ _ _ _ _ _ Hi0) in Hj as [([kv cv] & Hv & Hne & Ek & Hw)|[(-> & Ek & Hw)|(m & -> & Hsp)]]; cbn [gKind gCode] in *.
      - left. subst kv. destruct (woke_up _ _ _ Hw) as (-> & -> & ->). eauto 10.
      - right. left. subst kj. destruct (woke_up _ _ _ Hw) as (-> & -> & ->). auto.
      - right. right. destruct o'; cbn in Hx; exec_cases Hx k0; injection Hx as <- <- <- <- <-; try discriminate Hsp; destruct m as [|m]; try discriminate Hsp; injection Hsp as <- <-;
          (split; [reflexivity|]); (split; [reflexivity|]); intros g0 E; try discriminate E. injection E as ->. auto. }
    assert (Hreg : forall g, o' = Register g -> k0 = KRun g /\ 0 < wt w_up (o' :: c0)) by (intros g ->; now apply op_register).
    assert (Hal : forall j kj v, lT s !! j = Some (Gor kj v) -> 0 < wt w_up v -> 0 < wt w_up (o' :: c0) -> j = i0).
    { intros j kj v Hj Hv H0. exact (up_unique s j i0 _ _ I Hj Hi0 Hv H0). }
    assert (Hcl : forall j kj v, lT s !! j = Some (Gor kj v) -> cleared v = true -> 0 < wt w_up v /\ (exists cl, kj = KCall cl)).
    { intros j kj v Hj Hv. destruct (codes_go _ _ (v_codes s I _ _ Hj) Hv) as (? & ? & _). auto. }
    assert (Hclr : o' = ClearServer -> (exists cl, k0 = KCall cl) /\ 0 < wt w_up (o' :: c0)) by (intros ->; destruct (op_clear _ _ Hc0) as (? & ? & _); auto).
    assert (Hlan : o' = NewLane -> 0 < wt w_up (o' :: c0) /\ lane_made (o' :: c0) = false /\ cleared (o' :: c0) = true).
    { intros ->. destruct (op_lane _ _ Hc0) as [H1 H2]. destruct (codes_go _ _ Hc0 H1) as (? & _ & _). auto. }
    assert (Hfor : forall g, o' = Forget g -> exists n, k0 = KClient g n /\ num g (lG s) = (tfold A).2).
    { intros g ->. destruct (op_forget _ _ _ Hc0) as (n & -> & Hw). exists n. split; [reflexivity|]. destruct (act_run _ _ R _ _ _ _ Hi0 Hw) as (j & c' & Hj & Ho).
      apply (a_num s A T _ _ _ Hj). unfold open_run in Ho. apply andb_true_iff in Ho as [Ho _]. lia. }
    (* what the observation does to the fold *)
    assert (Hf : tfold (A ++ o) = match o' with ClearServer => (∅, 0%nat) | Register g => ({[S (num g (lG s))]} ∪ (tfold A).1, S (num g (lG s))) | Forget g => ((tfold A).1 ∖ {[num g (lG s)]}, (tfold A).2) | _ => tfold A end).
    { rewrite tfold_app. destruct o'; try (destruct Ht as (_ & _ & _ & _ & Ht); try rewrite Ht; reflexivity); try (destruct Ht as (_ & _ & _ & _ & ->); reflexivity).
      destruct (Hfor _ eq_refl) as (n & -> & E). destruct Ht as (_ & _ & _ & _ & ->). cbn. now rewrite E. }
    assert (Hnum : forall g, num g h = if decide (o' = Register g) then S (num g (lG s)) else num g (lG s)).
    { intros g. unfold num at 1. destruct (decide (o' = Register g)) as [->|Hn].
      - destruct Ht as (_ & -> & _). now rewrite lookup_insert.
      - destruct o'; destruct Ht as (_ & -> & _); try reflexivity. rewrite lookup_insert_ne by congruence. reflexivity. }
    assert (Hgen : (hGen (lG s) <= hGen h)%nat) by (destruct o'; destruct Ht as (_ & _ & -> & _); lia).
    split; cbn [lT lG].
    + rewrite Hf. pose proof (a_tab s A T) as Et. destruct o'; destruct Ht as (-> & _); cbn; congruence.
    + intros j g c Hj Hup. rewrite Hf, Hnum.
      assert (Hold : (exists v, lT s !! j = Some (Gor (KRun g) v) /\ 0 < wt w_up v) \/ (o' = GoRun /\ hLane (lG s) = Some g)).
      { destruct (Hsrc _ _ _ Hj) as [(v & Hv & _ & E & _)|[(-> & <- & E & _)|(_ & _ & E)]].
        - left. exists v. split; [assumption|]. now rewrite <- E.
        - left. exists (o' :: c0). split; [assumption|]. eapply run_up_next; [exact Hc0|exact Hcc|]. now rewrite <- E.
        - right. auto. }
      destruct Hold as [(v & Hv & Hup0)|[-> Hl]].
      * pose proof (a_num s A T _ _ _ Hv Hup0) as E. destruct o'; try (rewrite decide_False by discriminate; assumption); try rewrite decide_False by discriminate.
        -- exfalso. destruct (Hclr eq_refl) as [[cl Ek] Hw]. pose proof (Hal _ _ _ Hv Hup0 Hw) as ->. rewrite Hi0 in Hv. injection Hv as Ek2 _. congruence.
        -- destruct (Hreg _ eq_refl) as [Ek Hw]. pose proof (Hal _ _ _ Hv Hup0 Hw) as ->. rewrite Hi0 in Hv. injection Hv as Ek2 _. assert (g = g0) as -> by congruence. rewrite decide_True by reflexivity. reflexivity.
      * rewrite decide_False by discriminate. destruct (op_go _ _ Hc0) as [G1 G2]. rewrite (a_clear s A T _ _ _ Hi0 G1).
        destruct (a_lane s A T _ _ _ Hi0 G2) as (g' & Hg' & En). congruence.
    + intros j kj c Hj Hcl0. rewrite Hf.
      destruct (Hsrc _ _ _ Hj) as [(v & Hv & Hne & _ & E & _)|[(-> & -> & _ & E & _)|(E & _)]]; [| |congruence].
      * rewrite E in Hcl0. pose proof (a_clear s A T _ _ _ Hv Hcl0) as Ez. destruct o'; try assumption; try reflexivity.
        destruct (Hreg _ eq_refl) as [Ek Hw]. destruct (Hcl _ _ _ Hv Hcl0) as [Hup0 _]. exfalso. apply Hne. eauto.
      * rewrite E in Hcl0. destruct (Hm1 Hcl0) as [Hc1| ->]; [|reflexivity]. pose proof (a_clear s A T _ _ _ Hi0 Hc1) as Ez. destruct o'; try assumption; try reflexivity.
        destruct (Hreg _ eq_refl) as [Ek Hw]. destruct (Hcl _ _ _ Hi0 Hc1) as [_ [cl Ek2]]. congruence.
    + intros g Hg. rewrite Hnum. rewrite (a_gen s A T) by lia. rewrite decide_False; [reflexivity|]. intros ->. destruct (Hreg _ eq_refl) as [-> _]. pose proof (a_old s A T _ _ _ Hi0). lia.
    + intros j kj c Hj Hl.
      assert (Hkeep : forall j kj v, lT s !! j = Some (Gor kj v) -> lane_made v = true -> exists g, hLane h = Some g /\ num g h = 0%nat).
      { intros j1 k1 v Hv Hl1. destruct (a_lane s A T _ _ _ Hv Hl1) as (g & Hg & En). pose proof (made_clear _ _ (v_codes s I _ _ Hv) Hl1) as Hcv. destruct (Hcl _ _ _ Hv Hcv) as [Hup0 [cl ->]].
        assert (Hlh : hLane h = hLane (lG s)).
        { destruct o'; try (destruct Ht as (_ & _ & _ & -> & _); reflexivity). exfalso. destruct (Hlan eq_refl) as (Hw & Hf1 & _). pose proof (Hal _ _ _ Hv Hup0 Hw) as ->. rewrite Hi0 in Hv. injection Hv as _ <-. cbn [gCode] in Hl1. congruence. }
        exists g. rewrite Hlh. split; [assumption|]. rewrite Hnum. rewrite decide_False; [assumption|]. intros ->. destruct (Hreg _ eq_refl) as [Ek Hw]. pose proof (Hal _ _ _ Hv Hup0 Hw) as ->. rewrite Hi0 in Hv. injection Hv as Ek2 _. congruence. }
      destruct (Hsrc _ _ _ Hj) as [(v & Hv & Hne & _ & _ & E)|[(-> & -> & _ & _ & E)|(_ & E & _)]]; [| |congruence].
      * rewrite E in Hl. eauto.
      * rewrite E in Hl. destruct (Hm2 Hl) as [Hl1| ->]; [eauto|]. destruct Ht as (_ & _ & _ & -> & _). eexists. split; [reflexivity|]. rewrite Hnum, decide_False by discriminate. apply (a_gen s A T). lia.
    + intros j g c Hj. destruct (Hsrc _ _ _ Hj) as [(v & Hv & _)|[(-> & <- & _)|(_ & _ & E)]].
      * pose proof (a_old s A T _ _ _ Hv). lia.
      * pose proof (a_old s A T _ _ _ Hi0). lia.
      * destruct (E _ eq_refl) as [_ Hl]. pose proof (a_lgen s A T _ Hl). lia.
    + intros g Hl. pose proof (a_lgen s A T g) as Hlg. destruct o'; destruct Ht as (_ & _ & Hg & Hl' & _); rewrite Hl' in Hl; try (specialize (Hlg Hl); lia). injection Hl as <-. lia.
  - assert (Hf : tfold (A ++ [LPanic i0 p]) = tfold A) by now rewrite tfold_app.
    assert (Hpre : cleared pre = false /\ lane_made pre = false) by (destruct (panic_call _ _ _ _ _ _ _ Hx) as [cl ->]; destruct o'; cbn in Hx; exec_cases Hx (KCall cl); injection Hx as <- <-; split; reflexivity).
    destruct (panic_call _ _ _ _ _ _ _ Hx) as [cl Ek]. destruct Hpre as [P1 P2]. destruct T. split; rewrite ?Hf; cbn [lT lG]; auto.
    + intros j g c Hj. apply (insert_cases _ _ _ _ _ _ Hi0) in Hj as [[_ Hj]|[-> E]]; [eauto|]. congruence.
    + intros j k c Hj Hc. apply (insert_cases _ _ _ _ _ _ Hi0) in Hj as [[_ Hj]|[-> E]]; [eapply a_clear0; eauto|]. congruence.
    + intros j k c Hj Hc. apply (insert_cases _ _ _ _ _ _ Hi0) in Hj as [[_ Hj]|[-> E]]; [eapply a_lane0; eauto|]. congruence.
    + intros j g c Hj. apply (insert_cases _ _ _ _ _ _ Hi0) in Hj as [[_ Hj]|[-> E]]; [eauto|]. congruence.
Qed.
Lemma lreach_tab s A : lreach s A -> tabinv s A.
Proof.
  revert s A. apply (lreach_ind tabinv).
  - split; try reflexivity; intros i; try (intros ? ? H; discriminate H); discriminate.
  - intros s A e s' o R I IH H. eapply tabinv_step; eauto.
Qed.
