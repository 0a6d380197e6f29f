(** * LifeRestart: when Restart returns, the new server listens *)
From Verif Require Export LifeCrash.
From stdpp Require Import gmap list.
From Coq Require Import ZifyBool.
Open Scope Z_scope.
Open Scope list_scope.

Definition launched (s : lsys) (A : list lobs) (i : nat) (c : list op) : Prop :=
  has NewLane c = true \/ panicked A i \/
  (has GoRun c = true /\ exists g, In (LLane i g) A /\ hLane (lG s) = Some g) \/
  exists g j c', In (LLane i g) A /\ lT s !! j = Some (Gor (KRun g) c').
Lemma has_same o c o' : o' <> o -> has o (o' :: c) = has o c.
Proof. intros H. unfold has. cbn. now rewrite bool_decide_eq_false_2. Qed.
Lemma has_app o a b : has o (a ++ b) = has o a || has o b.
Proof. unfold has. apply existsb_app. Qed.
Lemma launch_cs k c : In c (codes k) -> has GoRun c = true -> has NewLane c = false -> in_cs c = true.
Proof. intros H H1 H2. codes_check (fun c => negb (has GoRun c) || has NewLane c || in_cs c) H. now rewrite H1, H2 in H. Qed.
Lemma kind_keeps s e s' o j g c : lstep s e = (s', o) -> lT s !! j = Some (Gor (KRun g) c) -> exists c', lT s' !! j = Some (Gor (KRun g) c').
Proof. intros H Hj. exact (kind_stays _ _ _ _ _ _ H Hj). Qed.
Lemma newlane_cs k c : In (NewLane :: c) (codes k) -> in_cs (NewLane :: c) = true.
Proof. intros H. codes_check (fun c => match c with NewLane :: _ => in_cs c | _ => true end) H. exact H. Qed.
Lemma exec_pre h i k o x h' pre sp wk os : exec h i k o x = Next h' pre sp wk os -> has NewLane pre = false /\ has GoRun pre = false.
Proof. intros H. destruct o; cbn in H; exec_cases H k; injection H as <- <- <- <- <-; split; vm_compute; reflexivity. Qed.
Lemma launch_inv s A : lreach s A -> forall i cl c, lT s !! i = Some (Gor (KCall cl) c) -> starter cl -> launched s A i c.
Proof.
  revert s A. apply (lreach_ind (fun s A => forall i cl c, lT s !! i = Some (Gor (KCall cl) c) -> starter cl -> launched s A i c)); [intros i cl c H; discriminate H|].
  intros s A e s' o R I IH H i cl c Hi Hs.
  assert (Hrun : forall g j c', lT s !! j = Some (Gor (KRun g) c') -> exists c'', lT s' !! j = Some (Gor (KRun g) c'')) by (intros; eapply kind_keeps; eauto).
  assert (Hmono : forall c0, launched s A i c0 -> (has NewLane c0 = true -> has NewLane c = true) -> (has GoRun c0 = true -> has GoRun c = true) -> (has NewLane c0 = false -> has GoRun c0 = true -> hLane (lG s') = hLane (lG s)) -> launched s' (A ++ o) i c).
  { intros c0 HL H1 H2 H3. destruct (has NewLane c0) eqn:En; [left; auto|]. destruct HL as [E|[Hp|[(Hg & g & Hg1 & Hg2)|(g & j & c' & Hg & Hj)]]]; [congruence| | |].
    - right. left. now apply panicked_mono.
    - right. right. left. split; [auto|]. exists g. split; [now apply in_mono|]. rewrite H3; auto.
    - right. right. right. destruct (Hrun _ _ _ Hj) as [c'' Hj']. exists g, j, c''. split; [now apply in_mono|assumption]. }
  pose proof H as H0.
  apply lstep_cases in H as [[-> ->]|[(p & -> & -> & _)|[(cl0 & -> & _ & -> & ->)|[(-> & _ & -> & ->)|(i0 & x & k0 & o' & c0 & -> & _ & Hi0 & [(h & pre & sp & wk & Hx & ->)|(pre & p & Hx & -> & ->)])]]]]; cbn [lT lG] in *.
  - eapply Hmono; eauto.
  - eapply Hmono; eauto.
  - apply lookup_call in Hi as [Hi|[-> E]]; [eapply Hmono; eauto|]. injection E as -> ->. left. destruct Hs as [-> | ->]; vm_compute; reflexivity.
  - eapply Hmono; eauto. intros. now destruct (lG s).
  - pose proof (v_codes s I _ _ Hi0) as Hc0. cbn in Hc0.
    apply (after_lookup _ _ _ _ _ _ _ _ Hi0) in Hi as [([kv cv] & Hv & Hne & Ek & Hw)|[(-> & Ek & Hw)|(m & -> & Hsp)]]; cbn [gKind gCode] in *.
    + subst kv. apply (Hmono cv); [eauto|destruct Hw as [[-> _]|(w & c' & -> & -> & ->)]; auto|destruct Hw as [[-> _]|(w & c' & -> & -> & ->)]; auto|].
      intros H1 H2. destruct (decide (o' = NewLane)) as [->|Hn]; [|eapply exec_lane_same; eauto]. exfalso.
      pose proof (launch_cs _ _ (v_codes s I _ _ Hv) H2 H1) as C1. pose proof (newlane_cs _ _ Hc0) as C2.
      pose proof (proj1 (v_mu s I _ _ Hv) C1). pose proof (proj1 (v_mu s I _ _ Hi0) C2). congruence.
    + subst k0. destruct (exec_pre _ _ _ _ _ _ _ _ _ _ Hx) as [P1 P2].
      assert (Ec : has NewLane c = has NewLane c0 /\ has GoRun c = has GoRun c0).
      { assert (E : has NewLane c = has NewLane (pre ++ c0) /\ has GoRun c = has GoRun (pre ++ c0)) by (destruct Hw as [[-> _]|(w & c' & -> & E & ->)]; [auto|rewrite E; auto]).
        destruct E as [-> ->]. rewrite !has_app, P1, P2. auto. }
      destruct Ec as [E1 E2]. pose proof (IH _ _ _ Hi0 Hs) as HL.
      destruct (decide (o' = NewLane)) as [->|Hn].
      { cbn in Hx. injection Hx as <- <- <- <- <-. right. right. left. split.
        - rewrite E2. apply (call_check (fun c => match c with NewLane :: c' => has GoRun c' | _ => true end)) in Hc0; [exact Hc0|intros []; vm_compute; reflexivity].
        - exists (hGen (lG s)). split; [apply in_elt|]. cbn [lG]. now destruct (lG s). }
      destruct (decide (o' = GoRun)) as [->|Hg].
      { cbn in Hx. destruct HL as [HL|[HL|[(_ & g & Hg1 & Hg2)|(g & j & c' & Hg & Hj)]]].
        - left. rewrite E1. exact HL.
        - right. left. now apply panicked_mono.
        - rewrite Hg2 in Hx. injection Hx as <- <- <- <- <-. right. right. right. exists g, (length (lT s)), (run_code g). rewrite app_nil_r. split; [assumption|].
          cbn [lT wake]. rewrite lookup_app_r by (rewrite insert_length; lia). now rewrite insert_length, Nat.sub_diag.
        - right. right. right. destruct (Hrun _ _ _ Hj) as [c'' Hj']. exists g, j, c''. split; [now apply in_mono|assumption]. }
      apply (Hmono (o' :: c0)); [assumption|rewrite has_same by assumption; congruence|rewrite has_same by assumption; congruence|].
      intros _ _. eapply exec_lane_same; eauto.
    + apply (exec_spawn _ _ _ _ _ _ _ _ _ _ _ _ Hx) in Hsp as [_ [(g' & _ & _ & E)|(g' & _ & E)]]; discriminate E.
  - apply (insert_cases _ _ _ _ _ _ Hi0) in Hi as [[_ Hi]|[-> E]]; [eapply Hmono; eauto|]. right. left. apply panicked_now.
Qed.
Lemma run_ready s A : lreach s A -> hInit (lG s) = 0 -> forall i g c, lT s !! i = Some (Gor (KRun g) c) -> In (LListen g) A.
Proof.
  intros R Hz i g c Hi. pose proof (lreach_inv _ _ R) as I. eapply (listened g _ _ R _ _ _ Hi). rewrite bool_decide_eq_true_2 by reflexivity. cbn [andb].
  assert (Hw : wt w_init c = 0).
  { change c with (gCode (Gor (KRun g) c)). eapply (tot_zero w_init); [intros j' u Hu; apply (sum_nonneg s I _ _ Hu)| |exact Hi]. pose proof (v_cnt s I WInit) as Ec. cbn in Ec. congruence. }
  pose proof (v_codes s I _ _ Hi) as Hc. cbn in Hc. repeat destruct Hc as [<-|Hc]; try contradiction; try reflexivity. cbn in Hw. lia.
Qed.
Lemma restart_inv s A : lreach s A -> forall i k c, lT s !! i = Some (Gor k c) -> bool_decide (k = KCall CRestart) && (bool_decide (c = [Ret]) || bool_decide (c = []) || bool_decide (c = [Unlock])) = true ->
  panicked A i \/ exists g, In (LLane i g) A /\ In (LListen g) A.
Proof.
  apply (code_inv (fun k c => bool_decide (k = KCall CRestart) && (bool_decide (c = [Ret]) || bool_decide (c = []) || bool_decide (c = [Unlock]))) (fun i A => panicked A i \/ exists g, In (LLane i g) A /\ In (LListen g) A)).
  - intros i A0 o [H|(g & H1 & H2)]; [left; now apply panicked_mono|right; exists g; split; now apply in_mono].
  - intros [cl|g|g n]; try (rewrite bool_decide_eq_false_2 by discriminate; reflexivity). destruct cl; vm_compute; reflexivity.
  - intros k w c H. rewrite (bool_decide_eq_false_2 (Woken w :: c = [Ret])), (bool_decide_eq_false_2 (Woken w :: c = [])), (bool_decide_eq_false_2 (Woken w :: c = [Unlock])) in H by discriminate. now rewrite andb_false_r in H.
  - intros s0 A0 i k o c x h pre sp wk os R Hi Hc Hx HQ. apply andb_true_iff in HQ as [Hk HQ]. apply bool_decide_eq_true in Hk. subst k.
    assert (Hend : pre ++ c = [Ret] \/ pre ++ c = [] \/ pre ++ c = [Unlock]) by (apply orb_true_iff in HQ as [HQ|HQ]; [apply orb_true_iff in HQ as [HQ|HQ]|]; apply bool_decide_eq_true in HQ; auto).
    assert (Hl : hInit (lG s0) = 0 -> has NewLane (o :: c) = false -> has GoRun (o :: c) = false -> panicked (A0 ++ os) i \/ exists g, In (LLane i g) (A0 ++ os) /\ In (LListen g) (A0 ++ os)).
    { intros Hz H1 H2. destruct (launch_inv _ _ R _ _ _ Hi (or_intror eq_refl)) as [E|[Hp|[(E & _)|(g & j & c' & Hg & Hj)]]]; [congruence|left; now apply panicked_mono|congruence|].
      right. exists g. split; [now apply in_mono|]. apply in_mono. eapply run_ready; eauto. }
    cbn [codes] in Hc. cbn in Hc.
    repeat destruct Hc as [Hc|Hc]; try contradiction; try discriminate Hc; injection Hc as <- <-; cbn in Hx; exec_cases Hx (KCall CRestart); injection Hx as <- <- <- <- <-;
      try (destruct Hend as [E|[E|E]]; discriminate E).
    all: try (left; vm_compute; reflexivity).
    all: try (right; apply Hl; [lia|vm_compute; reflexivity|vm_compute; reflexivity]).
  - intros. right. left. apply panicked_now.
Qed.
(** When Restart returns, the server it made listens. *)
Theorem restart_listens s A B i C : lreach s A -> A = B ++ LReturn i :: C -> In (LBegin i CRestart) B ->
  exists g, In (LLane i g) B /\ In (LListen g) B.
Proof.
  intros R E Hb. destruct (return_at _ _ _ _ _ _ R E Hb) as (s1 & c & R1 & Hi & Hn).
  pose proof (codes_ret _ _ (v_codes s1 (lreach_inv _ _ R1) _ _ Hi)) as ->.
  destruct (restart_inv _ _ R1 _ _ _ Hi) as [?|?]; [vm_compute; reflexivity|contradiction|assumption].
Qed.
