(** * LifeMore: connections, servers and calls along a trace *)
From Verif Require Export LifeTrace.
From stdpp Require Import gmap list.
From Coq Require Import ZifyBool.
Open Scope Z_scope.
Open Scope list_scope.

(** ** Induction over the steps of goroutines *)
Lemma lookup_call s cl j u : (lT s ++ [Gor (KCall cl) (lcall_code cl)]) !! j = Some u ->
  lT s !! j = Some u \/ (j = length (lT s) /\ u = Gor (KCall cl) (lcall_code cl)).
Proof.
  intros Hu. destruct (decide (j < length (lT s))%nat).
  - rewrite lookup_app_l in Hu by assumption. auto.
  - rewrite lookup_app_r in Hu by lia. destruct (j - length (lT s))%nat eqn:E; [|discriminate]. injection Hu as <-. right. split; [lia|reflexivity].
Qed.
Lemma insert_cases (ts : list gor) i t t' j u : ts !! i = Some t -> <[i := t']> ts !! j = Some u -> (j <> i /\ ts !! j = Some u) \/ (j = i /\ u = t').
Proof.
  intros Hi Hu. destruct (decide (j = i)) as [->|Hne]; [rewrite list_lookup_insert in Hu by (eapply lookup_lt_Some; eassumption); injection Hu as <-; auto|].
  rewrite list_lookup_insert_ne in Hu by auto. auto.
Qed.
Lemma panic_call h i k o x pre p : exec h i k o x = Panics pre p -> exists cl, k = KCall cl.
Proof. intros H. destruct k as [cl|g|g n]; [eauto|destruct o; cbn in H; exec_cases H (KRun g)|destruct o; cbn in H; exec_cases H (KClient g n)]. Qed.

(** ** A connection is in the trace as gone, or its callback is ahead *)
Definition forget_ahead (c : list op) : bool := existsb (fun o => match o with Work _ | Forget _ => true | _ => false end) c.
Lemma conn_alive s A : lreach s A -> forall g n, In (LConn g n) A -> In (LGone g n) A \/
  exists i c, lT s !! i = Some (Gor (KClient g n) c) /\ forget_ahead c = true.
Proof.
  revert s A. apply (lreach_ind (fun s A => forall g n, In (LConn g n) A -> In (LGone g n) A \/ exists i c, lT s !! i = Some (Gor (KClient g n) c) /\ forget_ahead c = true)); [intros g n []|].
  intros s A e s' o R I IH H g n Hin.
  assert (IH' : In (LConn g n) A -> In (LGone g n) A \/ exists i c, lT s !! i = Some (Gor (KClient g n) c) /\ forget_ahead c = true) by auto. clear IH.
  apply lstep_cases in H as [[-> ->]|[(p & -> & -> & _)|[(cl & -> & _ & -> & ->)|[(-> & _ & -> & ->)|(i0 & x & k & o' & c0 & -> & _ & Hi0 & [(h & pre & sp & wk & Hx & ->)|(pre & p & Hx & -> & ->)])]]]]; cbn [lT lG] in *.
  - rewrite app_nil_r in *. auto.
  - apply in_app_or in Hin as [Hin|[E|[]]]; [|discriminate E]. destruct (IH' Hin) as [?|?]; [left; apply in_or_app; auto|auto].
  - apply in_app_or in Hin as [Hin|[E|[]]]; [|discriminate E]. destruct (IH' Hin) as [?|(i & c & Hi & Hc)]; [left; apply in_or_app; auto|].
    right. exists i, c. split; [now apply lookup_app_l_Some|assumption].
  - rewrite app_nil_r in *. auto.
  - apply in_app_or in Hin as [Hin|Hin].
    + destruct (IH' Hin) as [?|(i & c & Hi & Hc)]; [left; apply in_or_app; auto|]. destruct (decide (i = i0)) as [->|Hne].
      * rewrite Hi0 in Hi. injection Hi as -> <-. pose proof (v_codes s I _ _ Hi0) as Hcod. cbn in Hcod.
        destruct (after_self i0 _ (Gor (KClient g n) (pre ++ c0)) wk sp _ Hi0) as (u & Hu & Hk & Hw). destruct u as [ku cu]. cbn in Hk, Hw. subst ku.
        repeat destruct Hcod as [Hcod|Hcod]; try discriminate Hcod; try contradiction; injection Hcod as <- <-; try discriminate Hc; cbn in Hx; exec_cases Hx (KClient g n); injection Hx as <- <- <- <- <-; cbn in Hw;
          try (left; apply in_or_app; right; left; reflexivity);
          (right; exists i0, cu; (split; [assumption|]); destruct Hw as [[-> _]|(w & c' & _ & E & _)]; [reflexivity|discriminate E]).
      * destruct (after_other i0 (Gor k (pre ++ c0)) wk sp _ _ _ Hi Hne) as (u & Hu & Hk & Hw). destruct u as [ku cu]. cbn in Hk, Hw. subst ku.
        right. exists i, cu. split; [assumption|]. destruct Hw as [[-> _]|(w & c' & _ & -> & ->)]; [assumption|]. exact Hc.
    + destruct o'; cbn in Hx; exec_cases Hx k; injection Hx as <- <- <- <- <-; try contradiction; destruct Hin as [E|[]]; try discriminate E.
      injection E as -> ->. right. exists (length (lT s) + 0)%nat. eexists. split; [apply (after_spawn i0 _ None); reflexivity|]. reflexivity.
  - apply in_app_or in Hin as [Hin|[E|[]]]; [|discriminate E]. destruct (IH' Hin) as [?|(i & c & Hi & Hc)]; [left; apply in_or_app; auto|].
    right. exists i, c. split; [|assumption]. destruct (panic_call _ _ _ _ _ _ _ Hx) as [cl ->].
    rewrite list_lookup_insert_ne; [assumption|]. intros ->. rewrite Hi0 in Hi. discriminate Hi.
Qed.
(** ** A server is in the trace as down, or its end is ahead *)
Lemma listen_alive s A : lreach s A -> forall g, In (LListen g) A -> In (LDown g) A \/
  exists i c, lT s !! i = Some (Gor (KRun g) c) /\ 0 < wt w_up c.
Proof.
  revert s A. apply (lreach_ind (fun s A => forall g, In (LListen g) A -> In (LDown g) A \/ exists i c, lT s !! i = Some (Gor (KRun g) c) /\ 0 < wt w_up c)); [intros g []|].
  intros s A e s' o R I IH H g Hin.
  assert (IH' : In (LListen g) A -> In (LDown g) A \/ exists i c, lT s !! i = Some (Gor (KRun g) c) /\ 0 < wt w_up c) by auto. clear IH.
  apply lstep_cases in H as [[-> ->]|[(p & -> & -> & _)|[(cl & -> & _ & -> & ->)|[(-> & _ & -> & ->)|(i0 & x & k & o' & c0 & -> & _ & Hi0 & [(h & pre & sp & wk & Hx & ->)|(pre & p & Hx & -> & ->)])]]]]; cbn [lT lG] in *.
  - rewrite app_nil_r in *. auto.
  - apply in_app_or in Hin as [Hin|[E|[]]]; [|discriminate E]. destruct (IH' Hin) as [?|?]; [left; apply in_or_app; auto|auto].
  - apply in_app_or in Hin as [Hin|[E|[]]]; [|discriminate E]. destruct (IH' Hin) as [?|(i & c & Hi & Hc)]; [left; apply in_or_app; auto|].
    right. exists i, c. split; [now apply lookup_app_l_Some|assumption].
  - rewrite app_nil_r in *. auto.
  - apply in_app_or in Hin as [Hin|Hin].
    + destruct (IH' Hin) as [?|(i & c & Hi & Hc)]; [left; apply in_or_app; auto|]. destruct (decide (i = i0)) as [->|Hne].
      * rewrite Hi0 in Hi. injection Hi as -> <-. pose proof (v_codes s I _ _ Hi0) as Hcod. cbn in Hcod.
        destruct (after_self i0 _ (Gor (KRun g) (pre ++ c0)) wk sp _ Hi0) as (u & Hu & Hk & Hw). destruct u as [ku cu]. cbn in Hk, Hw. subst ku.
        repeat destruct Hcod as [Hcod|Hcod]; try discriminate Hcod; try contradiction; injection Hcod as <- <-; try (exfalso; cbn in Hc; lia); cbn in Hx; exec_cases Hx (KRun g); injection Hx as <- <- <- <- <-; cbn in Hw;
          try (left; apply in_or_app; right; left; reflexivity);
          (right; exists i0, cu; (split; [assumption|]); destruct Hw as [[-> _]|(w & c' & _ & E & ->)]; [cbn; lia|]); try discriminate E; injection E as <- <-; cbn; lia.
      * destruct (after_other i0 (Gor k (pre ++ c0)) wk sp _ _ _ Hi Hne) as (u & Hu & Hk & Hw). destruct u as [ku cu]. cbn in Hk, Hw. subst ku.
        right. exists i, cu. split; [assumption|]. destruct Hw as [[-> _]|(w & c' & _ & -> & ->)]; [assumption|]. exact Hc.
    + destruct o'; cbn in Hx; exec_cases Hx k; injection Hx as <- <- <- <- <-; try contradiction; destruct Hin as [E|[]]; try discriminate E; injection E as ->;
      pose proof (v_codes s I _ _ Hi0) as Hcod; cbn [gCode gKind] in Hcod;
      (assert (k = KRun g /\ c0 = [SetListener g; DoneW WInit; Accept g]) as [-> ->];
        [destruct k as [cl|g'|g' n]; [exfalso; apply (call_check (fun c => match c with Listen _ :: _ => false | _ => true end)) in Hcod; [discriminate Hcod|intros []; vm_compute; reflexivity]
         |cbn in Hcod; repeat destruct Hcod as [Hcod|Hcod]; try discriminate Hcod; try contradiction; now injection Hcod as -> <-
         |cbn in Hcod; repeat destruct Hcod as [Hcod|Hcod]; try discriminate Hcod; contradiction]|]);
      edestruct (after_self i0 _ (Gor (KRun g) ([] ++ [SetListener g; DoneW WInit; Accept g])) None []  _ Hi0) as (u & Hu & Hk & Hw); destruct u as [ku cu]; cbn [gKind gCode] in Hk, Hw; subst ku;
      right; exists i0, cu; (split; [assumption|]); destruct Hw as [[-> _]|(w & c' & E & _)]; try discriminate E; cbn; lia.
  - apply in_app_or in Hin as [Hin|[E|[]]]; [|discriminate E]. destruct (IH' Hin) as [?|(i & c & Hi & Hc)]; [left; apply in_or_app; auto|].
    right. exists i, c. split; [|assumption]. destruct (panic_call _ _ _ _ _ _ _ Hx) as [cl ->].
    rewrite list_lookup_insert_ne; [assumption|]. intros ->. rewrite Hi0 in Hi. discriminate Hi.
Qed.

(** ** Clients live only while their server has not passed active.Wait *)
Definition open_run (c : list op) : bool := (0 <? wt w_up c) && match c with StoreDown :: _ => false | _ => true end.
Lemma tot_zero f ts i t : (forall j u, ts !! j = Some u -> 0 <= wt f (gCode u)) -> tot f ts = 0 -> ts !! i = Some t -> wt f (gCode t) = 0.
Proof. intros H H0 Hi. pose proof (H _ _ Hi). assert (wt f (gCode t) <= tot f ts) by (apply (tot_ge f ts i); eauto). lia. Qed.
Lemma up_unique s i j t u : linv s -> lT s !! i = Some t -> lT s !! j = Some u -> 0 < wt w_up (gCode t) -> 0 < wt w_up (gCode u) -> i = j.
Proof.
  intros I Hi Hj Ht Hu. destruct (decide (i = j)) as [->|Hne]; [reflexivity|]. exfalso.
  pose proof (tot_insert w_up (lT s) i t (Gor (gKind t) []) Hi) as E. cbn [gCode wt] in E.
  assert (Hj' : <[i := Gor (gKind t) []]> (lT s) !! j = Some u) by (now rewrite list_lookup_insert_ne by auto).
  assert (wt w_up (gCode u) <= tot w_up (<[i := Gor (gKind t) []]> (lT s))).
  { apply (tot_ge w_up _ j); [|assumption]. intros l v _ Hv. apply (insert_cases _ _ _ _ _ _ Hi) in Hv as [[_ Hv]|[-> ->]]; [|reflexivity].
    now apply (sum_nonneg s I _ _ Hv). }
  rewrite <- (v_up s I) in E. destruct (hStarted (lG s)); cbn [b2z] in E; lia.
Qed.
Lemma act_run s A : lreach s A -> forall i g n c, lT s !! i = Some (Gor (KClient g n) c) -> 0 < wt w_act c ->
  exists j c', lT s !! j = Some (Gor (KRun g) c') /\ open_run c' = true.
Proof.
  revert s A. apply (lreach_ind (fun s A => forall i g n c, lT s !! i = Some (Gor (KClient g n) c) -> 0 < wt w_act c -> exists j c', lT s !! j = Some (Gor (KRun g) c') /\ open_run c' = true)); [intros i g n c H; discriminate H|].
  intros s A e s' o R I IH H i g n c Hi Hc.
  apply lstep_cases in H as [[-> ->]|[(p & -> & -> & _)|[(cl & -> & _ & -> & ->)|[(-> & _ & -> & ->)|(i0 & x & k & o' & c0 & -> & _ & Hi0 & [(h & pre & sp & wk & Hx & ->)|(pre & p & Hx & -> & ->)])]]]]; cbn [lT lG] in *.
  - eauto.
  - eauto.
  - apply lookup_call in Hi as [Hi|[_ E]]; [|discriminate E]. destruct (IH _ _ _ _ Hi Hc) as (j & c' & Hj & Ho). exists j, c'. split; [now apply lookup_app_l_Some|assumption].
  - eauto.
  - assert (Keep : forall j c', lT s !! j = Some (Gor (KRun g) c') -> open_run c' = true -> hAct (lG s) <> 0 ->
       exists j c', (wake wk (<[i0:=Gor k (pre ++ c0)]> (lT s)) ++ sp) !! j = Some (Gor (KRun g) c') /\ open_run c' = true).
    { intros j c' Hj Ho Ha. destruct (decide (j = i0)) as [->|Hne].
      - rewrite Hi0 in Hj. injection Hj as -> <-. pose proof (v_codes s I _ _ Hi0) as Hcod. cbn in Hcod.
        destruct (after_self i0 _ (Gor (KRun g) (pre ++ c0)) wk sp _ Hi0) as (u & Hu & Hk & Hw). destruct u as [ku cu]. cbn in Hk, Hw. subst ku. exists i0, cu. split; [assumption|].
        repeat destruct Hcod as [Hcod|Hcod]; try discriminate Hcod; try contradiction; injection Hcod as <- <-; try discriminate Ho; cbn in Hx; exec_cases Hx (KRun g); injection Hx as <- <- <- <- <-; cbn in Hw;
          try (exfalso; apply Ha; now apply Z.eqb_eq);
          (destruct Hw as [[-> _]|(w & c' & _ & E & ->)]; [reflexivity|]); try discriminate E; injection E as <- <-; reflexivity.
      - destruct (after_other i0 (Gor k (pre ++ c0)) wk sp _ _ _ Hj Hne) as (u & Hu & Hk & Hw). destruct u as [ku cu]. cbn in Hk, Hw. subst ku.
        exists j, cu. split; [assumption|]. destruct Hw as [[-> _]|(w & c'' & _ & -> & ->)]; [assumption|]. exact Ho. }
    assert (Hpos : forall i n c, lT s !! i = Some (Gor (KClient g n) c) -> 0 < wt w_act c -> (exists j c', lT s !! j = Some (Gor (KRun g) c') /\ open_run c' = true) ->
       exists j c', (wake wk (<[i0:=Gor k (pre ++ c0)]> (lT s)) ++ sp) !! j = Some (Gor (KRun g) c') /\ open_run c' = true).
    { intros i1 n1 c1 Hi1 Hc1 (j & c' & Hj & Ho). destruct (decide (hAct (lG s) = 0)) as [Ez|Hnz]; [|eapply Keep; eauto].
      destruct (decide (j = i0)) as [->|Hne].
      - rewrite Hi0 in Hj. injection Hj as -> <-.
        destruct (midreg (o' :: c0)) eqn:Em.
        + pose proof (v_codes s I _ _ Hi0) as Hcod. cbn in Hcod.
          destruct (after_self i0 _ (Gor (KRun g) (pre ++ c0)) wk sp _ Hi0) as (u & Hu & Hk & Hw). destruct u as [ku cu]. cbn in Hk, Hw. subst ku. exists i0, cu. split; [assumption|].
          repeat destruct Hcod as [Hcod|Hcod]; try discriminate Hcod; try contradiction; injection Hcod as <- <-; try discriminate Em; cbn in Hx; exec_cases Hx (KRun g); injection Hx as <- <- <- <- <-; cbn in Hw;
          (destruct Hw as [[-> _]|(w & c' & _ & E & ->)]; [reflexivity|]); discriminate E.
        + exfalso. pose proof (v_cnt s I WAct) as Ecnt. change (count WAct (lG s)) with (hAct (lG s)) in Ecnt. change (weigh WAct) with w_act in Ecnt.
          assert (Hall : forall j u, lT s !! j = Some u -> 0 <= wt w_act (gCode u)).
          { intros j u Hu. pose proof (v_codes s I _ _ Hu) as Hcod. destruct (decide (j = i0)) as [->|Hnj].
            - rewrite Hi0 in Hu. injection Hu as <-. cbn [gCode gKind] in *. clear -Hcod Em. cbn in Hcod.
              repeat destruct Hcod as [Hcod|Hcod]; try discriminate Hcod; try contradiction; injection Hcod as <- <-; try discriminate Em; cbn; lia.
            - codes_check (fun c => (0 <=? wt w_act c) || (0 <? wt w_up c)) Hcod. apply orb_true_iff in Hcod as [Hcod|Hcod]; [lia|].
              exfalso. apply Hnj. apply (up_unique s j i0 u _ I Hu Hi0); [lia|]. cbn [gCode]. unfold open_run in Ho. apply andb_true_iff in Ho. lia. }
          pose proof (tot_zero w_act _ _ _ Hall (eq_sym (eq_trans (eq_sym Ez) Ecnt)) Hi1) as E. cbn [gCode] in E. lia.
      - destruct (after_other i0 (Gor k (pre ++ c0)) wk sp _ _ _ Hj Hne) as (u & Hu & Hk & Hw). destruct u as [ku cu]. cbn in Hk, Hw. subst ku.
        exists j, cu. split; [assumption|]. destruct Hw as [[-> _]|(w & c'' & _ & -> & ->)]; [assumption|]. exact Ho. }
    apply (after_lookup _ _ _ _ _ _ _ _ Hi0) in Hi as [(v & Hv & Hne & Ek & Hw)|[(-> & Ek & Hw)|(m & -> & Hsp)]].
    + destruct v as [kv cv]. cbn in Ek, Hw. subst kv.
      assert (Hcv : 0 < wt w_act cv) by (destruct Hw as [[-> _]|(w & c' & _ & -> & ->)]; exact Hc). eapply Hpos; eauto.
    + cbn [gKind gCode] in *. subst k. pose proof (v_codes s I _ _ Hi0) as Hcod. cbn in Hcod.
      assert (Hcv : 0 < wt w_act (o' :: c0)).
      { clear - Hcod Hw Hx Hc. repeat destruct Hcod as [Hcod|Hcod]; try discriminate Hcod; try contradiction; injection Hcod as <- <-; cbn in Hx; exec_cases Hx (KClient g n); injection Hx as <- <- <- <- <-; cbn in Hw;
         destruct Hw as [[-> _]|(w & c' & _ & E & ->)]; try discriminate E; cbn in *; lia. }
      eapply Hpos; eauto.
    + apply (exec_spawn _ _ _ _ _ _ _ _ _ _ _ _ Hx) in Hsp as [_ [(g' & _ & _ & E)|(g' & -> & E)]]; [discriminate E|]. injection E as <- -> ->.
      pose proof (v_codes s I _ _ Hi0) as Hcod. cbn [gCode gKind] in Hcod.
      assert (k = KRun g /\ c0 = [AddW WAct; AddW WWg; Unlock; Accept g]) as [-> ->].
      { clear -Hcod. destruct k as [cl|g'|g' n]; [exfalso; apply (call_check (fun c => match c with Register _ :: _ => false | _ => true end)) in Hcod; [discriminate Hcod|intros []; vm_compute; reflexivity]| |];
          cbn in Hcod; repeat destruct Hcod as [Hcod|Hcod]; try discriminate Hcod; try contradiction. now injection Hcod as -> <-. }
      destruct (after_self i0 _ (Gor (KRun g) (pre ++ [AddW WAct; AddW WWg; Unlock; Accept g])) wk sp _ Hi0) as (u & Hu & Hk & Hw). destruct u as [ku cu]. cbn in Hk, Hw. subst ku. exists i0, cu. split; [assumption|].
      cbn in Hx. injection Hx as <- <- <- <- <-. destruct Hw as [[-> _]|(w & c' & E & _)]; [reflexivity|discriminate E].
  - destruct (panic_call _ _ _ _ _ _ _ Hx) as [cl ->]. apply (insert_cases _ _ _ _ _ _ Hi0) in Hi as [[Hne Hi]|[_ E]]; [|discriminate E].
    destruct (IH _ _ _ _ Hi Hc) as (j & c' & Hj & Ho). exists j, c'. split; [|assumption]. rewrite list_lookup_insert_ne; [assumption|]. intros ->. rewrite Hi0 in Hj. discriminate Hj.
Qed.
