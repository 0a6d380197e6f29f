(** * LifeCrash: what can end the process *)
From Verif Require Export LifeLost.
From stdpp Require Import gmap list.
From Coq Require Import ZifyBool.
Open Scope Z_scope.
Open Scope list_scope.

(** A woken accept loop finds no active client. *)
Lemma act_woken s A : lreach s A -> forall i k c, lT s !! i = Some (Gor k (Woken WAct :: c)) -> hAct (lG s) = 0.
Proof.
  revert s A. apply (lreach_ind (fun s A => forall i k c, lT s !! i = Some (Gor k (Woken WAct :: c)) -> hAct (lG s) = 0)); [intros i k c H; discriminate H|].
  intros s A e s' o R I IH H i k c Hi.
  apply lstep_cases in H as [[-> ->]|[(p & -> & -> & _)|[(cl & -> & _ & -> & ->)|[(-> & _ & -> & ->)|(i0 & x & k0 & o' & c0 & -> & _ & Hi0 & [(h & pre & sp & wk & Hx & ->)|(pre & p & Hx & -> & ->)])]]]]; cbn [lT lG] in *; eauto.
  - apply lookup_call in Hi as [Hi|[-> E]]; [eauto|]. destruct cl; discriminate E.
  - destruct (lG s) eqn:E. specialize (IH _ _ _ Hi). cbn in *. exact IH.
  - pose proof (v_codes s I _ _ Hi0) as Hc0. cbn in Hc0.
    assert (Hup : forall j kj cj, lT s !! j = Some (Gor kj (Woken WAct :: cj)) \/ lT s !! j = Some (Gor kj (Sleep WAct :: cj)) -> 0 < wt w_up cj).
    { intros j kj cj Hj. assert (Hc : In (Woken WAct :: cj) (codes kj) \/ In (Sleep WAct :: cj) (codes kj)) by (destruct Hj as [Hj|Hj]; [left|right]; exact (v_codes s I _ _ Hj)).
      destruct Hc as [Hc|Hc]; codes_check (fun c => match c with Woken WAct :: cj | Sleep WAct :: cj => 0 <? wt w_up cj | _ => true end) Hc; lia. }
    apply (after_lookup _ _ _ _ _ _ _ _ Hi0) in Hi as [([kv cv] & Hv & Hne & Ek & Hw)|[(-> & Ek & Hw)|(m & -> & Hsp)]]; cbn [gKind gCode] in *.
    + subst kv. destruct Hw as [[E _]|(w & c' & -> & -> & E)].
      * subst cv. pose proof (IH _ _ _ Hv) as Ez. destruct (decide (o' = AddW WAct)) as [->|Na].
        { exfalso. apply Hne. assert (Hu : 0 < wt w_up (AddW WAct :: c0)) by (codes_check (fun c => match c with AddW WAct :: _ => 0 <? wt w_up c | _ => true end) Hc0; lia).
          refine (up_unique s _ _ _ _ I Hv Hi0 _ Hu). cbn. apply (Hup _ _ _ (or_introl Hv)). }
        destruct (decide (o' = DoneW WAct)) as [->|Nd]; [pose proof (done_pos _ _ _ _ _ I Hi0) as Hpos; cbn in Hpos; lia|].
        rewrite <- Ez. exact (exec_same _ _ _ _ _ _ _ _ _ _ WAct Hx Na Nd).
      * injection E as <- <-. destruct (exec_wk _ _ _ _ _ _ _ _ _ _ WAct Hx eq_refl) as [-> Hh]. cbn in Hx, Hh. exec_cases Hx k0; injection Hx as <- <- <- <-. destruct (lG s); cbn in *; lia.
    + exfalso. assert (Hn : forall w r, pre ++ c0 <> Woken w :: r).
      { intros w r E. destruct o'; cbn in Hx; exec_cases Hx k0; injection Hx as <- <- <- <- <-; cbn in E; try discriminate E;
          subst c0; codes_check (fun c => match c with _ :: Woken _ :: _ => false | _ => true end) Hc0; discriminate Hc0. }
      destruct Hw as [[E _]|(w & c' & -> & E & _)]; [eapply Hn; eauto|].
      destruct (exec_wk _ _ _ _ _ _ _ _ _ _ w Hx eq_refl) as [-> _]. cbn in Hx. exec_cases Hx k0; injection Hx as <- <- <- <-; cbn in E; subst c0; codes_check (fun c => match c with DoneW _ :: Sleep _ :: _ => false | _ => true end) Hc0; discriminate Hc0.
    + apply (exec_spawn _ _ _ _ _ _ _ _ _ _ _ _ Hx) in Hsp as [_ [(g' & _ & _ & E)|(g' & _ & E)]]; discriminate E.
  - apply (insert_cases _ _ _ _ _ _ Hi0) in Hi as [[_ Hi]|[-> E]]; [eauto|]. injection E as _ <-. destruct o'; cbn in Hx; exec_cases Hx k0; injection Hx; intros; discriminate.
Qed.
(** The process dies of a socket error or a client's protocol error only. *)
Theorem dies_other s A p : lreach s A -> In (LDie p) A -> p = POther.
Proof.
  intros R Hin. apply in_split in Hin as (B & C & E). destruct (lobs_split _ _ _ _ _ R E) as (s1 & e & s2 & R1 & H). pose proof (lreach_inv _ _ R1) as I.
  apply lstep_cases in H as [[_ H]|[(p' & _ & H & _ & (i & x & k & o & c & _ & Hi & Hx))|[(cl & _ & _ & _ & H)|[(_ & _ & _ & H)|(i0 & x & k & o' & c0 & _ & _ & Hi & [(h & pre & sp & wk & Hx & _)|(pre & p' & Hx & _ & H)])]]]]; try discriminate H.
  - injection H as <-. pose proof (v_codes s1 I _ _ Hi) as Hc. cbn in Hc.
    destruct o; cbn in Hx; exec_cases Hx k; try (injection Hx as <-; auto; fail).
    all: destruct k as [cl|g|g n]; [match goal with H : is_call (KCall _) = false |- _ => discriminate H end| |]; injection Hx as <-.
    all: try (cbn in Hc; repeat destruct Hc as [Hc|Hc]; try discriminate Hc; try contradiction; fail).
    all: try (pose proof (done_pos _ _ _ _ _ I Hi); lia).
    assert (w = WAct) as -> by (cbn in Hc; repeat destruct Hc as [Hc|Hc]; try discriminate Hc; try contradiction; congruence).
    pose proof (act_woken _ _ R1 _ _ _ Hi) as Ez. cbn in *. lia.
  - destruct o'; cbn in Hx; exec_cases Hx k; injection Hx; intros; discriminate.
Qed.
Definition no_die (c : list op) : bool := negb (has Die c).
Lemma no_fail_run es : forall s A o s', lreach s A -> lCrash s = false -> (forall i t, lT s !! i = Some t -> no_die (gCode t) = true) -> Forall no_fail es -> lrun s es = (s', o) -> lCrash s' = false.
Proof.
  induction es as [|e es IH]; intros s A o s' R Hc Hd Hf H; cbn [lrun] in H; [congruence|].
  destruct (lstep s e) as [s1 o1] eqn:E1. destruct (lrun s1 es) as [s2 o2] eqn:E2. injection H as <- <-. apply Forall_cons in Hf as [Hf1 Hf2].
  pose proof (lreach_step _ _ _ _ _ R E1) as R1. pose proof (lreach_inv _ _ R) as I.
  enough (Hx : lCrash s1 = false /\ (forall i t, lT s1 !! i = Some t -> no_die (gCode t) = true)) by (destruct Hx; eapply IH; eauto).
  assert (Hcall : forall cl, no_die (lcall_code cl) = true) by (intros []; vm_compute; reflexivity).
  pose proof E1 as E1'.
  apply lstep_cases in E1 as [[-> ->]|[(p & -> & -> & _ & (i & x & k & o & c & -> & Hi & Hx))|[(cl & -> & _ & -> & ->)|[(-> & _ & -> & ->)|(i0 & x & k0 & o' & c0 & -> & _ & Hi0 & [(h & pre & sp & wk & Hx & ->)|(pre & p & Hx & -> & ->)])]]]]; cbn [lT lG lCrash] in *; auto.
  - exfalso. assert (p = POther) as -> by (apply (dies_other _ _ _ R1); apply in_elt).
    specialize (Hd _ _ Hi). cbn in Hd. destruct o; cbn in Hx; exec_cases Hx k; try (destruct k; discriminate Hx); try contradiction; discriminate Hd.
  - split; [reflexivity|]. intros i t Hi. apply lookup_call in Hi as [Hi|[-> ->]]; [eauto|apply Hcall].
  - split; [reflexivity|]. intros i t Hi. pose proof (Hd _ _ Hi0) as Hd0. cbn [gCode] in Hd0.
    apply (after_lookup _ _ _ _ _ _ _ _ Hi0) in Hi as [([kv cv] & Hv & Hne & Ek & Hw)|[(-> & Ek & Hw)|(m & -> & Hsp)]]; cbn [gKind gCode] in *.
    + specialize (Hd _ _ Hv). cbn in Hd. destruct Hw as [[-> _]|(w & c' & -> & -> & ->)]; assumption.
    + assert (Hn : no_die (pre ++ c0) = true).
      { destruct o'; cbn in Hx; exec_cases Hx k0; injection Hx as <- <- <- <- <-; try contradiction; exact Hd0. }
      destruct Hw as [[-> _]|(w & c' & -> & E & ->)]; [assumption|rewrite E in Hn; exact Hn].
    + apply (exec_spawn _ _ _ _ _ _ _ _ _ _ _ _ Hx) in Hsp as [_ [(g' & _ & _ & E)|(g' & _ & E)]]; subst t; reflexivity.
  - split; [reflexivity|]. intros i t Hi. apply (insert_cases _ _ _ _ _ _ Hi0) in Hi as [[_ Hi]|[-> ->]]; [eauto|].
    destruct o'; cbn in Hx; exec_cases Hx k0; injection Hx as <- <-; reflexivity.
Qed.
Theorem no_crash es s A : Forall no_fail es -> lrun linit es = (s, A) -> lCrash s = false /\ forall p, ~ In (LDie p) A.
Proof.
  intros Hf H. assert (Hc : lCrash s = false).
  { eapply (no_fail_run es linit []); [exists []; reflexivity|reflexivity| |exact Hf|exact H]. intros i t Hi. discriminate Hi. }
  split; [exact Hc|]. intros p Hp. enough (lCrash s = true) by congruence. assert (R : lreach s A) by (exists es; exact H). clear Hf H Hc es.
  revert s A R Hp. apply (lreach_ind (fun s A => In (LDie p) A -> lCrash s = true)); [intros []|].
  intros s A e s' o R I IH H Hin. apply in_app_or in Hin as [Hin|Hin].
  - specialize (IH Hin). unfold lstep in H. rewrite IH in H. injection H as <- <-. assumption.
  - apply lstep_cases in H as [[-> ->]|[(p' & -> & -> & _)|[(cl & -> & _ & -> & ->)|[(-> & _ & -> & ->)|(i0 & x & k0 & o' & c0 & -> & _ & Hi0 & [(h & pre & sp & wk & Hx & ->)|(pre & p' & Hx & -> & ->)])]]]]; try contradiction; try reflexivity; try (destruct Hin as [E|[]]; discriminate E).
    destruct o'; cbn in Hx; exec_cases Hx k0; injection Hx as <- <- <- <- <-; try contradiction; destruct Hin as [E|[]]; discriminate E.
Qed.
