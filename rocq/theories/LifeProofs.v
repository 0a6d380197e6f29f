(** * LifeProofs: invariants of the start/stop machine *)
From Verif Require Export LifeBase.
From stdpp Require Import gmap list.
From Coq Require Import ZifyBool.
Open Scope Z_scope.
Open Scope list_scope.

Lemma codes_nonneg k c : In c (codes k) -> 0 <= wt w_init c /\ 0 <= wt w_wg c /\ 0 <= wt w_up c /\ (in_cs c = false -> 0 <= wt w_act c).
Proof.
  intros H. codes_check (fun c => (0 <=? wt w_init c) && (0 <=? wt w_wg c) && (0 <=? wt w_up c) && (in_cs c || (0 <=? wt w_act c))) H.
  destruct (in_cs c); lia.
Qed.
Lemma codes_done k w c : In (DoneW w :: c) (codes k) -> 0 < wt (weigh w) (DoneW w :: c) /\ (w = WAct -> in_cs c = true).
Proof.
  intros H. codes_check (fun c => match c with DoneW w :: c => (0 <? wt (weigh w) (DoneW w :: c)) && (match w with WAct => in_cs c | _ => true end) | _ => true end) H.
  apply andb_true_iff in H as [H1 H2]. split; [lia|]. intros ->. exact H2.
Qed.
Lemma codes_down k c : In (StoreDown :: c) (codes k) -> 0 < wt w_up (StoreDown :: c).
Proof.
  intros H. codes_check (fun c => match c with StoreDown :: c => (0 <? wt w_up (StoreDown :: c)) | _ => true end) H. lia.
Qed.
(** A call that panics owes nothing. *)
Lemma call_check (P : list op -> bool) cl c : (forall cl, forallb P (call_codes cl) = true) -> In c (call_codes cl) -> P c = true.
Proof. intros H1 H. specialize (H1 cl). rewrite forallb_forall in H1. auto. Qed.
Lemma codes_panic cl h i o x pre p c : In (o :: c) (call_codes cl) -> exec h i (KCall cl) o x = Panics pre p ->
  (forall w, wt (weigh w) pre = wt (weigh w) (o :: c)) /\ wt w_up pre = wt w_up (o :: c) /\ in_cs pre = in_cs (o :: c).
Proof.
  intros H Hx. apply (call_check (fun code => match code with
    | SwapStarted :: _ => (wt w_init code =? 0) && (wt w_wg code =? 0) && (wt w_act code =? 0) && (wt w_up code =? 0) && in_cs code
    | Woken _ :: _ | CancelFn :: _ => (wt w_init code =? 0) && (wt w_wg code =? 0) && (wt w_act code =? 0) && (wt w_up code =? 0) && negb (in_cs code)
    | DoneW _ :: _ => false | _ => true end)) in H; [|intros []; vm_compute; reflexivity].
  destruct o; cbn [exec] in Hx; exec_cases Hx (KCall cl); injection Hx as <- <-; try discriminate H;
    repeat apply andb_true_iff in H as [H ?]; repeat match goal with E : (_ =? _) = true |- _ => apply Z.eqb_eq in E end;
    (split; [intros w'; destruct w'; (transitivity 0; [reflexivity|symmetry; assumption])|]);
    (split; [transitivity 0; [reflexivity|symmetry; assumption]|]).
  all: first [symmetry; assumption | symmetry; now apply negb_true_iff | idtac].
Qed.

Lemma sum_nonneg s : linv s -> forall i t, lT s !! i = Some t -> 0 <= wt w_init (gCode t) /\ 0 <= wt w_wg (gCode t) /\ 0 <= wt w_up (gCode t).
Proof. intros I i t Ht. pose proof (codes_nonneg _ _ (v_codes s I _ _ Ht)). tauto. Qed.
(** No wait group counter ever goes below zero. *)
Lemma done_pos s i k w c : linv s -> lT s !! i = Some (Gor k (DoneW w :: c)) -> 0 < count w (lG s).
Proof.
  intros I Hi. rewrite (v_cnt s I). pose proof (codes_done _ _ _ (v_codes s I _ _ Hi)) as [H1 H2]. cbn [gCode gKind] in *.
  enough (wt (weigh w) (gCode (Gor k (DoneW w :: c))) <= tot (weigh w) (lT s)) by (cbn [gCode] in *; lia).
  apply (tot_ge (weigh w) (lT s) i); [|assumption]. intros j u Hne Hu.
  pose proof (codes_nonneg _ _ (v_codes s I _ _ Hu)) as (N1 & N2 & N3 & N4). destruct w; cbn [weigh]; try assumption.
  apply N4. destruct (in_cs (gCode u)) eqn:E; [|reflexivity]. exfalso. apply Hne.
  apply (v_mu s I _ _ Hu) in E. assert (E' : hMu (lG s) = Some i) by (apply (v_mu s I _ _ Hi); cbn; auto). congruence.
Qed.
Lemma down_up s i k c : linv s -> lT s !! i = Some (Gor k (StoreDown :: c)) -> hStarted (lG s) = true.
Proof.
  intros I Hi. pose proof (codes_down _ _ (v_codes s I _ _ Hi)) as H1. cbn [gCode gKind] in *.
  assert (wt w_up (gCode (Gor k (StoreDown :: c))) <= tot w_up (lT s)) as H2.
  { apply (tot_ge w_up (lT s) i); [|assumption]. intros j u Hne Hu. apply (sum_nonneg s I _ _ Hu). }
  rewrite <- (v_up s I) in H2. cbn [gCode] in H2. destruct (hStarted (lG s)); [reflexivity|]. cbn [b2z] in H2. lia.
Qed.
Lemma call_start_cs c : in_cs (lcall_code c) = false /\ (forall w, wt (weigh w) (lcall_code c) = 0) /\ wt w_up (lcall_code c) = 0.
Proof. destruct c; (split; [reflexivity|]); (split; [intros []; reflexivity|reflexivity]). Qed.
Lemma codes_start k : In (match k with KCall c => lcall_code c | KRun g => run_code g | KClient g _ => [Work g] end) (codes k).
Proof.
  destruct k as [c|g|g n]; [|left; reflexivity|left; reflexivity].
  apply elem_of_list_In, (bool_decide_unpack _). destruct c; vm_compute; exact I.
Qed.
Lemma exec_spawn h i k o x h' pre sp wk os n u : exec h i k o x = Next h' pre sp wk os -> sp !! n = Some u ->
  n = 0%nat /\ ((exists g, o = GoRun /\ hLane h = Some g /\ u = Gor (KRun g) (run_code g)) \/
  (exists g, o = Register g /\ u = Gor (KClient g (S (num g h))) [Work g])).
Proof.
  intros H. destruct o; cbn in H; exec_cases H k; injection H as <- <- <- <- <-; destruct n as [|n]; cbn; try discriminate; intros [= <-]; eauto 10.
Qed.
Lemma exec_wk h i k o x h' pre sp wk os w : exec h i k o x = Next h' pre sp wk os -> wk = Some w -> o = DoneW w /\ count w h = 1.
Proof. intros H ->. destruct o; cbn in H; exec_cases H k; injection H as <- <- <- <- <-. apply Z.eqb_eq in Heqb0. auto. Qed.
Lemma exec_wk0 h i k w x h' pre sp wk os : exec h i k (DoneW w) x = Next h' pre sp wk os -> wk = None -> 1 < count w h.
Proof. intros H ->. cbn in H. exec_cases H k; injection H; intros; try discriminate. lia. Qed.

Lemma exec_ge h i k o x h' pre sp wk os w : exec h i k o x = Next h' pre sp wk os -> o <> DoneW w -> count w h <= count w h'.
Proof.
  intros H Hne. rewrite (exec_count _ _ _ _ _ _ _ _ _ _ w H).
  destruct o; cbn in H; exec_cases H k; injection H as <- <- <- <- <-; destruct w; try destruct w0; try congruence; cbn; lia.
Qed.
Lemma linv_init : linv linit.
Proof.
  constructor; cbn; try (intros; discriminate); try reflexivity; intros []; cbn; lia.
Qed.
Lemma linv_step s e s' os : linv s -> lstep s e = (s', os) -> linv s'.
Proof.
  intros I H. apply lstep_cases in H as [[-> ->]|[(p & -> & -> & _)|[(cl & -> & _ & -> & ->)|[(-> & _ & -> & ->)|(i & x & k & o & c & -> & _ & Hi & H)]]]].
  - assumption.
  - destruct I. constructor; assumption.
  - destruct (call_start_cs cl) as (C1 & C2 & C3). pose proof (codes_start (KCall cl)) as C4. cbn in C4.
    assert (L : forall j u, (lT s ++ [Gor (KCall cl) (lcall_code cl)]) !! j = Some u -> lT s !! j = Some u \/ (j = length (lT s) /\ u = Gor (KCall cl) (lcall_code cl))).
    { intros j u Hu. destruct (decide (j < length (lT s))%nat).
      - rewrite lookup_app_l in Hu by assumption. auto.
      - rewrite lookup_app_r in Hu by lia. destruct (j - length (lT s))%nat eqn:E; [|discriminate]. injection Hu as <-. right. split; [lia|reflexivity]. }
    constructor; cbn [lG lT].
    + intros j u Hu. apply L in Hu as [Hu|[-> ->]]; [now apply (v_codes s I) in Hu|exact C4].
    + intros w. rewrite tot_app. cbn [tot gCode]. rewrite C2, (v_cnt s I). lia.
    + apply (v_nonneg s I).
    + rewrite tot_app. cbn [tot gCode]. rewrite C3, (v_up s I). lia.
    + intros j u Hu. apply L in Hu as [Hu|[-> ->]]; [now apply (v_mu s I)|]. cbn [gCode]. rewrite C1. split; [discriminate|].
      intros E. apply (v_owner s I) in E as [t Ht]. apply lookup_lt_Some in Ht. lia.
    + intros j Hj. apply (v_owner s I) in Hj as [t Ht]. exists t. now apply lookup_app_l_Some.
    + intros j k w c Hu. apply L in Hu as [Hu|[_ [= _ E]]]; [now apply (v_sleep s I) in Hu|]. destruct cl; discriminate.
  - destruct I. constructor; destruct (lG s); assumption.
  - pose proof (v_codes s I _ _ Hi) as Hc. cbn [gCode gKind] in Hc.
    pose proof (fun w => v_cnt s I w) as Hcnt. destruct H as [(h & pre & sp & wk & Hx & ->)|(pre & p & Hx & -> & ->)].
    + pose proof (exec_codes _ _ _ _ _ _ _ _ _ _ c Hx) as Hn. pose proof (codes_closed _ _ _ _ Hc Hn) as Hc'.
      pose proof (codes_cs _ _ _ Hc) as Hcs. pose proof (exec_mu _ _ _ _ _ _ _ _ _ _ Hx) as [Hmu Hfree].
      assert (Hcs' : in_cs (pre ++ c) = match o with Lock => true | Unlock => false | _ => in_cs (o :: c) end).
      { assert (F : forall o', Forall (fun c' => in_cs c' = in_cs (o' :: c)) (next_codes o c) -> in_cs (pre ++ c) = in_cs (o' :: c)).
        { intros o' F. rewrite Forall_forall in F. apply F. now apply elem_of_list_In. }
        destruct o; try (now apply F); try (cbn in Hx; exec_cases Hx k; injection Hx as <- <- <- <- <-; apply Hcs).  }
      assert (Hpos : forall w, 0 <= count w h).
      { intros w. pose proof (v_nonneg s I w). destruct (decide (o = DoneW w)) as [->|Hne].
        - pose proof (done_pos s i k w c I Hi). rewrite (exec_count _ _ _ _ _ _ _ _ _ _ w Hx).
          cbn in Hx; exec_cases Hx k; injection Hx as <- <- <- <- <-; destruct w; cbn in *; lia.
        - pose proof (exec_ge _ _ _ _ _ _ _ _ _ _ w Hx Hne). lia. }
      assert (Hsl : forall w c', pre ++ c = Sleep w :: c' -> 0 < count w h).
      { intros w c' E. destruct o; cbn in Hx; exec_cases Hx k; injection Hx as <- <- <- <- <-; cbn in E; try discriminate E;
          try (exfalso; revert Hc E; clear; intros Hc ->; codes_check (fun c => match c with _ :: Sleep _ :: _ => false | _ => true end) Hc; discriminate).
        injection E as -> ->. pose proof (v_nonneg s I w). lia. }
      constructor; cbn [lG lT].
      * intros j u Hu. apply (after_lookup _ _ _ _ _ _ _ _ Hi) in Hu as [(v & Hv & _ & -> & Hu)|[(-> & -> & Hu)|(n & -> & Hu)]].
        -- destruct Hu as [[-> _]|(w & c' & _ & Hs & ->)]; [now apply (v_codes s I) in Hv|].
           apply (v_codes s I) in Hv. rewrite Hs in Hv. eapply codes_closed; [exact Hv|]. left. reflexivity.
        -- destruct Hu as [[-> _]|(w & c' & _ & Hs & ->)]; [exact Hc'|]. cbn [gCode gKind] in *. eapply codes_closed; [rewrite Hs in Hc'; exact Hc'|]. left. reflexivity.
        -- apply (exec_spawn _ _ _ _ _ _ _ _ _ _ _ _ Hx) in Hu as [_ [(g & _ & _ & ->)|(g & _ & ->)]]; left; reflexivity.
      * intros w. rewrite tot_app, tot_wake, (tot_insert _ _ _ _ _ Hi) by (destruct w; reflexivity).
        cbn [gCode wt]. rewrite wt_app, (exec_count _ _ _ _ _ _ _ _ _ _ w Hx), Hcnt. lia.
      * exact Hpos.
      * rewrite tot_app, tot_wake, (tot_insert _ _ _ _ _ Hi) by reflexivity.
        cbn [gCode wt]. rewrite wt_app, (exec_up _ _ _ _ _ _ _ _ _ _ Hx), (v_up s I) by (intros ->; now apply (down_up s i k c)). lia.
      * assert (Hold : forall j u, lT s !! j = Some u -> in_cs (gCode u) = true <-> hMu (lG s) = Some j) by apply (v_mu s I).
        assert (Hself : in_cs (pre ++ c) = true <-> hMu h = Some i).
        { rewrite Hcs', Hmu. specialize (Hold _ _ Hi). cbn [gCode] in Hold. destruct o; try exact Hold; split; congruence. }
        assert (Hoth : forall j, j <> i -> hMu h = Some j <-> hMu (lG s) = Some j).
        { intros j Hne. rewrite Hmu. specialize (Hold _ _ Hi). cbn [gCode] in Hold. destruct o; try reflexivity.
          - rewrite (Hfree eq_refl). split; congruence.
          - assert (E : hMu (lG s) = Some i) by (apply Hold; apply Hcs). rewrite E. split; congruence. }
        intros j u Hu. apply (after_lookup _ _ _ _ _ _ _ _ Hi) in Hu as [(v & Hv & Hne & _ & Hu)|[(-> & _ & Hu)|(n & -> & Hu)]].
        -- rewrite Hoth, <- (Hold _ _ Hv) by assumption. destruct Hu as [[-> _]|(w & c' & _ & -> & ->)]; reflexivity.
        -- rewrite <- Hself. destruct Hu as [[-> _]|(w & c' & _ & E & ->)]; [reflexivity|]. cbn [gCode] in E. rewrite E. reflexivity.
        -- apply (exec_spawn _ _ _ _ _ _ _ _ _ _ _ _ Hx) in Hu as [_ Hu]. rewrite Hoth.
           ++ destruct Hu as [(g & _ & _ & ->)|(g & _ & ->)]; cbn; (split; [discriminate|]); intros E; apply (v_owner s I) in E as [t Ht]; apply lookup_lt_Some in Ht; lia.
           ++ apply lookup_lt_Some in Hi. lia.
      * intros j Hj. destruct (decide (j = i)) as [->|Hne].
        -- edestruct (after_self i _ (Gor k (pre ++ c)) wk sp (lT s) Hi) as (u & Hu & _). eauto.
        -- rewrite Hmu in Hj. assert (E : hMu (lG s) = Some j) by (destruct o; congruence).
           apply (v_owner s I) in E as [t Ht]. edestruct (after_other i (Gor k (pre ++ c)) wk sp (lT s) j t Ht Hne) as (u & Hu & _). eauto.
      * assert (Hs : forall w, wk <> Some w -> 0 < count w (lG s) -> 0 < count w h).
        { intros w Hw Hp. rewrite (exec_count _ _ _ _ _ _ _ _ _ _ w Hx).
          destruct (decide (o = DoneW w)) as [->|Hne].
          - assert (Hw2 : 1 < count w (lG s)).
            { destruct wk as [w'|] eqn:Ew; [|now apply (exec_wk0 _ _ _ _ _ _ _ _ _ _ Hx)].
              destruct (exec_wk _ _ _ _ _ _ _ _ _ _ w' Hx eq_refl) as [[= <-] _]. now contradict Hw. }
            cbn in Hx; exec_cases Hx k; injection Hx as <- <- <- <- <-; destruct w; cbn in *; lia.
          - pose proof (exec_ge _ _ _ _ _ _ _ _ _ _ w Hx Hne). rewrite (exec_count _ _ _ _ _ _ _ _ _ _ w Hx) in *. lia. }
        intros j k' w c' Hu. apply (after_lookup _ _ _ _ _ _ _ _ Hi) in Hu as [(v & Hv & Hne & _ & Hu)|[(-> & _ & Hu)|(n & -> & Hu)]].
        -- destruct Hu as [[E Hw]|(w' & c'' & _ & _ & E)]; [|discriminate E]. cbn in E. destruct v as [kv cv]. cbn in E. subst cv.
           pose proof (v_sleep s I _ _ _ _ Hv) as Hp. apply Hs; [|assumption]. intros E. now apply (Hw w c' E).
        -- destruct Hu as [[E Hw]|(w' & c'' & _ & _ & E)]; [|discriminate E]. cbn [gCode] in E.
           apply (Hsl w c'). now rewrite <- E.
        -- apply (exec_spawn _ _ _ _ _ _ _ _ _ _ _ _ Hx) in Hu as [_ [(g & _ & _ & [= _ E])|(g & _ & [= _ E])]]; discriminate E.
    + destruct k as [cl|g|g n]; [|cbn in Hx; destruct o; cbn in Hx; exec_cases Hx (KRun g)|cbn in Hx; destruct o; cbn in Hx; exec_cases Hx (KClient g n)].
      destruct (codes_panic _ _ _ _ _ _ _ _ Hc Hx) as (P1 & P2 & P3). pose proof (codes_closed _ _ _ _ Hc (exec_panic _ _ _ _ _ _ _ c Hx)) as P4.
      pose proof (lookup_lt_Some _ _ _ Hi) as Hlt.
      assert (L : forall j u, <[i := Gor (KCall cl) pre]> (lT s) !! j = Some u -> (j <> i /\ lT s !! j = Some u) \/ (j = i /\ u = Gor (KCall cl) pre)).
      { intros j u Hu. destruct (decide (j = i)) as [->|Hne]; [rewrite list_lookup_insert in Hu by assumption; injection Hu as <-; auto|].
        rewrite list_lookup_insert_ne in Hu by auto. auto. }
      constructor; cbn [lG lT].
      * intros j u Hu. apply L in Hu as [[_ Hu]|[-> ->]]; [now apply (v_codes s I) in Hu|exact P4].
      * intros w. rewrite (tot_insert _ _ _ _ _ Hi). cbn [gCode]. rewrite P1, Hcnt. lia.
      * apply (v_nonneg s I).
      * rewrite (tot_insert _ _ _ _ _ Hi). cbn [gCode]. rewrite P2, (v_up s I). lia.
      * intros j u Hu. apply L in Hu as [[_ Hu]|[-> ->]]; [now apply (v_mu s I) in Hu|]. cbn [gCode]. rewrite P3. exact (v_mu s I _ _ Hi).
      * intros j Hj. apply (v_owner s I) in Hj as [t Ht]. destruct (decide (j = i)) as [->|Hne]; [rewrite list_lookup_insert by assumption; eauto|].
        rewrite list_lookup_insert_ne by auto. eauto.
      * intros j k' w c' Hu. apply L in Hu as [[_ Hu]|[-> E]]; [now apply (v_sleep s I) in Hu|]. injection E as -> E.
        destruct o; cbn in Hx; exec_cases Hx (KCall cl); injection Hx as <- <-; discriminate E.
Qed.
Lemma linv_run es : forall s s' A, linv s -> lrun s es = (s', A) -> linv s'.
Proof.
  induction es as [|e es IH]; intros s s' A I H; cbn in H; [injection H as <- <-; assumption|].
  destruct (lstep s e) as [s1 o1] eqn:E1. destruct (lrun s1 es) as [s2 o2] eqn:E2. injection H as <- <-.
  eapply IH; [|exact E2]. eapply linv_step; eassumption.
Qed.
