(** * LifeCalls: what the calls of the API guarantee *)
From Verif Require Export LifeMore.
From stdpp Require Import gmap list.
From Coq Require Import ZifyBool.
Open Scope Z_scope.
Open Scope list_scope.

(** ** Everything is over when the server is down, and when wg.Wait lets through *)
Lemma client_forget g n c : In c (codes (KClient g n)) -> forget_ahead c = true -> 0 < wt w_act c /\ 0 < wt w_wg c.
Proof.
  intros H Hf. apply (codes_check (fun c => negb (forget_ahead c) || ((0 <? wt w_act c) && (0 <? wt w_wg c)) || negb (in_cs c || true)) (KClient g n)) in H.
  - rewrite Hf in H. cbn in H. lia.
  - intros []; vm_compute; reflexivity.
  - intros; reflexivity.
  - intros; reflexivity.
Qed.
Lemma down_all s A : lreach s A -> up A = false -> all_gone A /\ all_down A.
Proof.
  intros R H. pose proof (lreach_inv _ _ R) as I. rewrite <- (up_started _ _ R) in H.
  assert (Hz : forall i t, lT s !! i = Some t -> wt w_up (gCode t) = 0).
  { intros i t Ht. apply (tot_zero w_up (lT s) i); [intros j u Hu; apply (sum_nonneg s I _ _ Hu)| |assumption]. rewrite <- (v_up s I), H. reflexivity. }
  split.
  - intros g n Hin. destruct (conn_alive _ _ R _ _ Hin) as [?|(i & c & Hi & Hc)]; [assumption|]. exfalso.
    destruct (client_forget _ _ _ (v_codes s I _ _ Hi) Hc) as [Ha _]. destruct (act_run _ _ R _ _ _ _ Hi Ha) as (j & c' & Hj & Ho).
    apply Hz in Hj. cbn [gCode] in Hj. unfold open_run in Ho. rewrite Hj in Ho. discriminate Ho.
  - intros g Hin. destruct (listen_alive _ _ R _ Hin) as [?|(i & c & Hi & Hc)]; [assumption|]. apply Hz in Hi. cbn [gCode] in Hi. lia.
Qed.
Lemma tot_pos f ts : 0 < tot f ts -> exists i t, ts !! i = Some t /\ 0 < wt f (gCode t).
Proof.
  induction ts as [|t ts IH]; cbn; [lia|]. intros H. destruct (decide (0 < wt f (gCode t))); [exists 0%nat, t; auto|].
  destruct IH as (i & u & Hi & Hu); [lia|]. exists (S i), u. auto.
Qed.
Lemma run_midreg g c : In c (codes (KRun g)) -> 0 < wt w_up c -> wt w_wg c = 0 -> midreg c = true.
Proof. cbn. intros H H1 H2. repeat destruct H as [<-|H]; try contradiction; try reflexivity; cbn in *; lia. Qed.
Lemma fresh_wg g t : fresh_client g t -> In (gCode t) (codes (gKind t)) -> 0 < wt w_wg (gCode t).
Proof.
  intros (n & Hk & Hc) H. rewrite Hk in H. cbn in H. destruct Hc as [->|[r E]]; [cbn; lia|]. rewrite E in *.
  repeat destruct H as [H|H]; try discriminate H; try contradiction; injection H as <-; cbn; lia.
Qed.
(** If the counter of wg is zero and the server is up, a Start is under way. *)
Lemma zero_wg s A : lreach s A -> hWg (lG s) = 0 ->
  (forall i g c, lT s !! i = Some (Gor (KRun g) c) -> wt w_up c = 0) /\
  (hStarted (lG s) = true -> exists j cl c, lT s !! j = Some (Gor (KCall cl) c) /\ 0 < wt w_up c).
Proof.
  intros R H. pose proof (lreach_inv _ _ R) as I. pose proof (v_cnt s I WWg) as Ec. cbn [count weigh] in Ec. rewrite H in Ec.
  assert (Hz : forall i t, lT s !! i = Some t -> wt w_wg (gCode t) = 0).
  { intros i t Ht. apply (tot_zero w_wg (lT s) i); [intros j u Hu; apply (sum_nonneg s I _ _ Hu)|auto|assumption]. }
  assert (Hrun : forall i g c, lT s !! i = Some (Gor (KRun g) c) -> wt w_up c = 0).
  { intros i g c Hi. pose proof (sum_nonneg s I _ _ Hi) as (_ & _ & Hn). cbn [gCode] in Hn. destruct (decide (0 < wt w_up c)) as [Hp|]; [|lia]. exfalso.
    pose proof (run_midreg _ _ (v_codes s I _ _ Hi) Hp (Hz _ _ Hi)) as Hm. destruct (reg_client _ _ R _ _ _ Hi Hm) as (j & u & Hj & Hu).
    pose proof (fresh_wg _ _ Hu (v_codes s I _ _ Hj)). rewrite (Hz _ _ Hj) in *. lia. }
  split; [exact Hrun|]. intros Hs. pose proof (v_up s I) as Eu. rewrite Hs in Eu. cbn [b2z] in Eu.
  destruct (tot_pos w_up (lT s)) as (i & [[cl|g|g n] c] & Hi & Hp); [lia| | |]; cbn [gCode] in Hp.
  - eauto.
  - rewrite (Hrun _ _ _ Hi) in Hp. lia.
  - exfalso. pose proof (v_codes s I _ _ Hi) as Hc. cbn in Hc. repeat destruct Hc as [<-|Hc]; try contradiction; cbn in Hp; lia.
Qed.
Lemma zero_wg_all s A : lreach s A -> hWg (lG s) = 0 -> all_gone A /\ all_down A.
Proof.
  intros R H. pose proof (lreach_inv _ _ R) as I. destruct (zero_wg _ _ R H) as [Hrun _]. split.
  - intros g n Hin. destruct (conn_alive _ _ R _ _ Hin) as [?|(i & c & Hi & Hc)]; [assumption|]. exfalso.
    destruct (client_forget _ _ _ (v_codes s I _ _ Hi) Hc) as [Ha _]. destruct (act_run _ _ R _ _ _ _ Hi Ha) as (j & c' & Hj & Ho).
    unfold open_run in Ho. rewrite (Hrun _ _ _ Hj) in Ho. discriminate Ho.
  - intros g Hin. destruct (listen_alive _ _ R _ Hin) as [?|(i & c & Hi & Hc)]; [assumption|]. rewrite (Hrun _ _ _ Hi) in Hc. lia.
Qed.
Lemma free_zero s e s' i : lstep s e = (s', [LFree i]) -> hWg (lG s) = 0.
Proof.
  intros H. apply lstep_cases in H as [[_ H]|[(p & _ & H & _)|[(cl & _ & _ & _ & H)|[(_ & _ & _ & H)|(i0 & x & k & o' & c & _ & _ & Hi & [(h & pre & sp & wk & Hx & _)|(pre & p & _ & _ & H)])]]]]; try discriminate H.
  destruct o'; cbn in Hx; exec_cases Hx k; injection Hx; intros; subst; try discriminate; cbn in *; lia.
Qed.
Theorem released_all s A B i C : lreach s A -> A = B ++ LFree i :: C -> all_gone B /\ all_down B.
Proof.
  intros R E. destruct (lobs_split _ _ _ _ _ R E) as (s1 & e & s2 & R1 & H). apply (zero_wg_all s1 B R1). now apply (free_zero s1 e s2 i).
Qed.
Theorem up_alone s A B i C : lreach s A -> A = B ++ LUp i :: C -> up B = false /\ all_gone B /\ all_down B.
Proof.
  intros R E. destruct (lobs_split _ _ _ _ _ R E) as (s1 & e & s2 & R1 & H).
  assert (Hf : up B = false).
  { rewrite <- (up_started _ _ R1). apply lstep_cases in H as [[_ H]|[(p & _ & H & _)|[(cl & _ & _ & _ & H)|[(_ & _ & _ & H)|(i0 & x & k & o' & c & _ & _ & Hi & [(h & pre & sp & wk & Hx & _)|(pre & p & _ & _ & H)])]]]]; try discriminate H.
    destruct o'; cbn in Hx; exec_cases Hx k; injection Hx; intros; subst; try discriminate; reflexivity. }
  split; [assumption|]. now apply (down_all s1).
Qed.

(** ** Calls and their goroutines *)
Lemma kind_stays s e s' o j u : lstep s e = (s', o) -> lT s !! j = Some u -> exists c, lT s' !! j = Some (Gor (gKind u) c).
Proof.
  intros H Hj. apply lstep_cases in H as [[-> ->]|[(p & -> & -> & _)|[(cl & -> & _ & -> & ->)|[(-> & _ & -> & ->)|(i0 & x & k & o' & c0 & -> & _ & Hi0 & [(h & pre & sp & wk & Hx & ->)|(pre & p & Hx & -> & ->)])]]]]; cbn [lT lG] in *.
  - destruct u; eauto.
  - destruct u; eauto.
  - destruct u; eexists; apply lookup_app_l_Some; eassumption.
  - destruct u; eauto.
  - destruct (decide (j = i0)) as [->|Hne].
    + rewrite Hi0 in Hj. injection Hj as <-. destruct (after_self i0 _ (Gor k (pre ++ c0)) wk sp _ Hi0) as ([ku cu] & Hu & Hk & _). cbn in Hk. subst. eauto.
    + destruct (after_other i0 (Gor k (pre ++ c0)) wk sp _ _ _ Hj Hne) as ([ku cu] & Hu & Hk & _). cbn in Hk. subst. eauto.
  - destruct (decide (j = i0)) as [->|Hne].
    + rewrite Hi0 in Hj. injection Hj as <-. rewrite list_lookup_insert by (eapply lookup_lt_Some; eassumption). eauto.
    + rewrite list_lookup_insert_ne by auto. destruct u; eauto.
Qed.
Lemma begin_thread s A : lreach s A -> forall i c, In (LBegin i c) A -> exists code, lT s !! i = Some (Gor (KCall c) code).
Proof.
  revert s A. apply (lreach_ind (fun s A => forall i c, In (LBegin i c) A -> exists code, lT s !! i = Some (Gor (KCall c) code))); [intros i c []|].
  intros s A e s' o R I IH H i c Hin. apply in_app_or in Hin as [Hin|Hin].
  - destruct (IH _ _ Hin) as [code Hc]. exact (kind_stays _ _ _ _ _ _ H Hc).
  - apply lstep_cases in H as [[_ ->]|[(p & _ & -> & _)|[(cl & _ & _ & -> & ->)|[(_ & _ & _ & ->)|(i0 & x & k & o' & c0 & _ & _ & Hi & [(h & pre & sp & wk & Hx & _)|(pre & p & _ & _ & ->)])]]]];
      try contradiction; try (destruct Hin as [E|[]]; discriminate E).
    + destruct Hin as [E|[]]. injection E as <- <-. cbn. rewrite lookup_app_r, Nat.sub_diag by lia. cbn. eauto.
    + destruct o'; cbn in Hx; exec_cases Hx k; injection Hx as <- <- <- <- <-; try contradiction; destruct Hin as [E|[]]; discriminate E.
Qed.
Lemma thread_begin s A : lreach s A -> forall i c code, lT s !! i = Some (Gor (KCall c) code) -> In (LBegin i c) A.
Proof.
  revert s A. apply (lreach_ind (fun s A => forall i c code, lT s !! i = Some (Gor (KCall c) code) -> In (LBegin i c) A)); [intros i c code H; discriminate H|].
  intros s A e s' o R I IH H i c code Hi. apply in_or_app.
  apply lstep_cases in H as [[-> ->]|[(p & -> & -> & _)|[(cl & -> & _ & -> & ->)|[(-> & _ & -> & ->)|(i0 & x & k & o' & c0 & -> & _ & Hi0 & [(h & pre & sp & wk & Hx & ->)|(pre & p & Hx & -> & ->)])]]]]; cbn [lT lG] in *; eauto.
  - apply lookup_call in Hi as [Hi|[-> E]]; [eauto|]. inversion E; subst. right. left. reflexivity.
  - left. apply (after_lookup _ _ _ _ _ _ _ _ Hi0) in Hi as [([kv cv] & Hv & Hne & Ek & Hw)|[(-> & Ek & Hw)|(m & -> & Hsp)]].
    + cbn in Ek. subst kv. eauto.
    + cbn in Ek. subst k. eauto.
    + apply (exec_spawn _ _ _ _ _ _ _ _ _ _ _ _ Hx) in Hsp as [_ [(g' & _ & _ & E)|(g' & _ & E)]]; discriminate E.
  - left. apply (insert_cases _ _ _ _ _ _ Hi0) in Hi as [[_ Hi]|[-> E]]; [eauto|]. inversion E; subst. eauto.
Qed.
Lemma codes_ret k c : In (Ret :: c) (codes k) -> c = [].
Proof. intros H. codes_check (fun c => match c with Ret :: _ :: _ => false | _ => true end) H. now destruct c. Qed.
Lemma ret_kind k c : In (Ret :: c) (codes k) -> exists cl, k = KCall cl.
Proof. destruct k as [cl|g|g n]; [eauto| |]; cbn; intros H; repeat destruct H as [H|H]; try discriminate H; contradiction. Qed.
Lemma ret_thread s A : lreach s A -> forall i, In (LReturn i) A -> exists c, lT s !! i = Some (Gor (KCall c) []).
Proof.
  revert s A. apply (lreach_ind (fun s A => forall i, In (LReturn i) A -> exists c, lT s !! i = Some (Gor (KCall c) []))); [intros i []|].
  intros s A e s' o R I IH H i Hin. apply in_app_or in Hin as [Hin|Hin].
  - destruct (IH _ Hin) as [cl Hc]. exists cl.
    apply lstep_cases in H as [[-> ->]|[(p & -> & -> & _)|[(cl' & -> & _ & -> & ->)|[(-> & _ & -> & ->)|(i0 & x & k & o' & c0 & -> & _ & Hi0 & [(h & pre & sp & wk & Hx & ->)|(pre & p & Hx & -> & ->)])]]]]; cbn [lT lG] in *; auto.
    + now apply lookup_app_l_Some.
    + assert (Hne : i <> i0) by (intros ->; rewrite Hi0 in Hc; discriminate Hc).
      destruct (after_other i0 (Gor k (pre ++ c0)) wk sp _ _ _ Hc Hne) as ([ku cu] & Hu & Hk & Hw). cbn in Hk, Hw. subst ku.
      destruct Hw as [[-> _]|(w & c' & _ & E & _)]; [assumption|discriminate E].
    + assert (Hne : i <> i0) by (intros ->; rewrite Hi0 in Hc; discriminate Hc). now rewrite list_lookup_insert_ne by auto.
  - apply lstep_cases in H as [[_ ->]|[(p & _ & -> & _)|[(cl & _ & _ & -> & ->)|[(_ & _ & _ & ->)|(i0 & x & k & o' & c0 & _ & _ & Hi & [(h & pre & sp & wk & Hx & ->)|(pre & p & _ & _ & ->)])]]]];
      try contradiction; try (destruct Hin as [E|[]]; discriminate E).
    destruct o'; cbn in Hx; exec_cases Hx k; injection Hx as <- <- <- <- <-; try contradiction; destruct Hin as [E|[]]; try discriminate E. injection E as ->.
    pose proof (v_codes s I _ _ Hi) as Hcod. cbn [gCode gKind] in Hcod. destruct (ret_kind _ _ Hcod) as [cl ->]. apply codes_ret in Hcod as ->.
    exists cl. cbn [app wake lT]. rewrite app_nil_r. apply list_lookup_insert. eapply lookup_lt_Some; eassumption.
Qed.
Definition ended (c : list op) : bool := match c with [] | [Unlock] => true | _ => false end.
Lemma panic_thread s A : lreach s A -> forall i p, In (LPanic i p) A -> exists c code, lT s !! i = Some (Gor (KCall c) code) /\ ended code = true.
Proof.
  revert s A. apply (lreach_ind (fun s A => forall i p, In (LPanic i p) A -> exists c code, lT s !! i = Some (Gor (KCall c) code) /\ ended code = true)); [intros i p []|].
  intros s A e s' o R I IH H i p Hin. apply in_app_or in Hin as [Hin|Hin].
  - destruct (IH _ _ Hin) as (cl & code & Hc & He). exists cl.
    apply lstep_cases in H as [[-> ->]|[(p' & -> & -> & _)|[(cl' & -> & _ & -> & ->)|[(-> & _ & -> & ->)|(i0 & x & k & o' & c0 & -> & _ & Hi0 & [(h & pre & sp & wk & Hx & ->)|(pre & p' & Hx & -> & ->)])]]]]; cbn [lT lG] in *; eauto.
    + exists code. split; [now apply lookup_app_l_Some|assumption].
    + destruct (decide (i = i0)) as [->|Hne].
      * rewrite Hi0 in Hc. injection Hc as -> <-. destruct o'; try discriminate He. destruct c0; [|discriminate He]. cbn in Hx. injection Hx as <- <- <- <- <-.
        exists []. split; [|reflexivity]. cbn [app wake]. rewrite app_nil_r. apply list_lookup_insert. eapply lookup_lt_Some; eassumption.
      * destruct (after_other i0 (Gor k (pre ++ c0)) wk sp _ _ _ Hc Hne) as ([ku cu] & Hu & Hk & Hw). cbn in Hk, Hw. subst ku.
        destruct Hw as [[-> _]|(w & c' & _ & -> & _)]; [eauto|discriminate He].
    + destruct (decide (i = i0)) as [->|Hne]; [|rewrite list_lookup_insert_ne by auto; eauto].
      rewrite Hi0 in Hc. injection Hc as -> <-. destruct o'; try discriminate He. discriminate Hx.
  - apply lstep_cases in H as [[_ ->]|[(p' & _ & -> & _)|[(cl & _ & _ & -> & ->)|[(_ & _ & _ & ->)|(i0 & x & k & o' & c0 & _ & _ & Hi & [(h & pre & sp & wk & Hx & ->)|(pre & p' & Hx & -> & ->)])]]]];
      try contradiction; try (destruct Hin as [E|[]]; discriminate E).
    + destruct o'; cbn in Hx; exec_cases Hx k; injection Hx as <- <- <- <- <-; try contradiction; destruct Hin as [E|[]]; discriminate E.
    + destruct Hin as [E|[]]. injection E as -> ->. destruct (panic_call _ _ _ _ _ _ _ Hx) as [cl ->]. exists cl, pre. cbn. split; [apply list_lookup_insert; eapply lookup_lt_Some; eassumption|].
      destruct o'; cbn in Hx; exec_cases Hx (KCall cl); injection Hx as <- _; reflexivity.
Qed.

(** ** Overlapping calls of Start *)
Lemma then_app A o x y : then_ (A ++ o) x y -> ~ In y o -> then_ A x y.
Proof.
  intros (B & C & E & Hy) Hno. destruct (decide (length B < length A)%nat) as [Hl|Hl].
  - assert (E' : A = B ++ x :: take (length A - length B - 1) C /\ C = take (length A - length B - 1) C ++ o).
    { assert (E1 := f_equal (take (length A)) E). assert (E2 := f_equal (drop (length A)) E). rewrite take_app in E1. rewrite drop_app in E2.
      rewrite take_app_ge in E1 by lia. rewrite drop_app_ge in E2 by lia. destruct (length A - length B)%nat as [|d] eqn:El; [lia|]. cbn in E1, E2.
      replace (S d - 1)%nat with d by lia. split; [assumption|]. rewrite E2. now rewrite take_drop. }
    destruct E' as [E1 E2]. exists B, (take (length A - length B - 1) C). split; [assumption|]. rewrite E2 in Hy. apply in_app_or in Hy as [?|?]; [assumption|contradiction].
  - exfalso. apply Hno. assert (E2 := f_equal (drop (length A)) E). rewrite drop_app in E2. rewrite drop_app_le in E2 by lia. rewrite E2. apply in_or_app. right. right. assumption.
Qed.
Lemma begin_fresh s A e s' o i c c' : lreach s A -> lstep s e = (s', o) -> In (LBegin i c) A -> ~ In (LBegin i c') o.
Proof.
  intros R H Hb Hin. destruct (begin_thread _ _ R _ _ Hb) as [code Hi]. apply lookup_lt_Some in Hi.
  apply lstep_cases in H as [[_ ->]|[(p & _ & -> & _)|[(cl & _ & _ & -> & ->)|[(_ & _ & _ & ->)|(i0 & x & k & o' & c0 & _ & _ & Hi' & [(h & pre & sp & wk & Hx & ->)|(pre & p & _ & _ & ->)])]]]];
      try contradiction; try (destruct Hin as [E|[]]; discriminate E).
  - destruct Hin as [E|[]]. injection E as E _. lia.
  - destruct o'; cbn in Hx; exec_cases Hx k; injection Hx as <- <- <- <- <-; try contradiction; destruct Hin as [E|[]]; discriminate E.
Qed.
Lemma overlaps_step s A e s' o i j c : lreach s A -> lstep s e = (s', o) -> In (LBegin i c) A -> start_overlaps A i j -> start_overlaps (A ++ o) i j.
Proof.
  intros R H Hb (H1 & H2 & H3). split; [assumption|]. split; [destruct H2; [left|right]; apply in_or_app; auto|].
  intros c'. destruct (H3 c') as [H4 H5]. split; [intros Ht; apply H4|intros p Ht; apply (H5 p)]; apply (then_app _ _ _ _ Ht); eapply begin_fresh; eassumption.
Qed.
Definition starter (cl : lcall) : Prop := cl = CStart \/ cl = CRestart.
Lemma live_overlaps s A i j cl code : lreach s A -> lT s !! j = Some (Gor (KCall cl) code) -> ended code = false -> starter cl -> j <> i -> start_overlaps A i j.
Proof.
  intros R Hj Hc Hs Hne. split; [assumption|]. split; [destruct Hs as [->| ->]; [left|right]; eapply thread_begin; eassumption|].
  intros c. split; [intros (B & C & E & _)|intros p (B & C & E & _)].
  - destruct (ret_thread _ _ R j) as [c' Hc']; [rewrite E; apply in_elt|]. rewrite Hj in Hc'. injection Hc' as -> ->. discriminate.
  - destruct (panic_thread _ _ R j p) as (c' & code' & Hc' & He); [rewrite E; apply in_elt|]. rewrite Hj in Hc'. injection Hc' as -> ->. congruence.
Qed.
Lemma starter_code cl c : In c (call_codes cl) -> existsb (fun o => match o with SwapStarted | AddW _ | GoRun | NewLane | ClearStopped => true | _ => false end) c = true -> starter cl.
Proof.
  intros H Hs. destruct cl; [left; reflexivity| | | |right; reflexivity]; exfalso; cbn in H; repeat destruct H as [<-|H]; try discriminate Hs; contradiction.
Qed.
