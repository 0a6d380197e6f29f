(** * LifeRace: which accesses of starting and stopping can race *)
From Verif Require Export LifeMem LifeLive.
From stdpp Require Import gmap list.
From Coq Require Import ZifyBool.
Open Scope Z_scope.
Open Scope list_scope.

(** ** Who touches what *)
Ltac code_cases H := cbn in H; repeat destruct H as [<-|H]; try contradiction.

Lemma touch_table k c f w : In c (codes k) -> In (f, w) (touches k c) -> f = FClients \/ (exists g, f = FNumber g) -> in_cs c = true.
Proof.
  intros H Ht Hf. destruct k as [[]|g|g n]; code_cases H; cbn in Ht; try contradiction; try reflexivity;
    repeat destruct Ht as [Ht|Ht]; try contradiction; injection Ht as <- <-; destruct Hf as [Hf|[? Hf]]; discriminate Hf.
Qed.
Lemma touch_listener k c w : In c (codes k) -> In (FListener, w) (touches k c) ->
  (in_cs c = true /\ 0 < wt w_up c) \/ (exists cl r, k = KCall cl /\ c = CloseL :: r /\ in_cs c = true) \/
  (exists g r, k = KRun g /\ c = SetListener g :: r /\ 0 < wt w_up c).
Proof.
  intros H Ht. destruct k as [[]|g|g n]; code_cases H; cbn in Ht; try contradiction;
    repeat destruct Ht as [Ht|Ht]; try contradiction; try discriminate Ht;
    first [left; split; [reflexivity|cbn; lia] | right; left; eexists; eexists; split; [reflexivity|]; split; reflexivity | right; right; exists g; eexists; split; [reflexivity|]; split; [reflexivity|cbn; lia]].
Qed.
Lemma touch_lane k c f w : In c (codes k) -> In (f, w) (touches k c) -> f = FLane \/ f = FCancel ->
  (exists cl, k = KCall cl /\ (cl <> CStart \/ exists r, c = NewLane :: r)) \/ (exists g, k = KRun g /\ 0 < wt w_up c) \/
  (exists g n, k = KClient g n /\ 0 < wt w_act c).
Proof.
  intros H Ht Hf. destruct k as [cl|g|g n].
  - left. exists cl. split; [reflexivity|]. destruct cl; try (left; discriminate). right.
    code_cases H; cbn in Ht; try contradiction; try (eexists; reflexivity).
    repeat destruct Ht as [Ht|Ht]; try contradiction; injection Ht as <- <-; destruct Hf as [Hf|Hf]; discriminate Hf.
  - right. left. exists g. split; [reflexivity|]. code_cases H; cbn in Ht; try contradiction; try (cbn; lia).
  - right. right. exists g, n. split; [reflexivity|]. code_cases H; cbn in Ht; try contradiction; cbn; lia.
Qed.
Lemma write_lane k c f : In c (codes k) -> In (f, true) (touches k c) -> f = FLane \/ f = FCancel ->
  exists cl r, k = KCall cl /\ c = NewLane :: r /\ starter cl /\ ended c = false /\ in_cs c = true /\ 0 < wt w_up c.
Proof.
  intros H Ht Hf. destruct k as [[]|g|g n]; code_cases H; cbn in Ht; try contradiction;
    repeat destruct Ht as [Ht|Ht]; try contradiction; try discriminate Ht; try (injection Ht as <-; destruct Hf as [Hf|Hf]; discriminate Hf).
  all: eexists; eexists; split; [reflexivity|]; split; [reflexivity|]; split; [first [left; reflexivity|right; reflexivity]|].
  all: split; [reflexivity|]; split; [reflexivity|cbn; lia].
Qed.

(** ** One at a time *)
Lemma cs_alone s i j t u : linv s -> lT s !! i = Some t -> lT s !! j = Some u -> in_cs (gCode t) = true -> in_cs (gCode u) = true -> i = j.
Proof. intros I Hi Hj H1 H2. apply (v_mu s I _ _ Hi) in H1. apply (v_mu s I _ _ Hj) in H2. congruence. Qed.

(** ** The lane of a Start that has made it and not yet started [run] is its own *)
Lemma lane_by s A : lreach s A -> forall i k c, lT s !! i = Some (Gor k c) -> lane_made c = true ->
  exists g, hLane (lG s) = Some g /\ In (LLane i g) A.
Proof.
  revert s A. apply (lreach_ind (fun s A => forall i k c, lT s !! i = Some (Gor k c) -> lane_made c = true -> exists g, hLane (lG s) = Some g /\ In (LLane i g) A)); [intros i k c H; discriminate H|].
  intros s A e s' o R I IH H i k c Hi Hm.
  apply lstep_cases in H as [[-> ->]|[(p & -> & -> & _)|[(cl & -> & _ & -> & ->)|[(-> & _ & -> & ->)|(i0 & x & k0 & o' & c0 & -> & _ & Hi0 & [(h & pre & sp & wk & Hx & ->)|(pre & p & Hx & -> & ->)])]]]]; cbn [lT lG] in *.
  - rewrite app_nil_r. eauto.
  - destruct (IH _ _ _ Hi Hm) as (g & ? & ?). exists g. auto using in_mono.
  - apply lookup_call in Hi as [Hi|[_ E]]; [|injection E as -> ->; destruct cl; discriminate Hm].
    destruct (IH _ _ _ Hi Hm) as (g & ? & ?). exists g. auto using in_mono.
  - rewrite app_nil_r. destruct (IH _ _ _ Hi Hm) as (g & ? & ?). exists g. now destruct (lG s).
  - pose proof (v_codes s I _ _ Hi0) as Hc0. cbn [gCode gKind] in Hc0.
    assert (Keep : o' <> NewLane -> (exists g, hLane (lG s) = Some g /\ In (LLane i g) A) -> exists g, hLane h = Some g /\ In (LLane i g) (A ++ o)).
    { intros Hn (g & Hl & Hin). exists g. rewrite (exec_lane_same _ _ _ _ _ _ _ _ _ _ Hx Hn). auto using in_mono. }
    apply (after_lookup _ _ _ _ _ _ _ _ Hi0) in Hi as [([kv cv] & Hv & Hne & Ek & Hw)|[(-> & Ek & Hw)|(m & -> & Hsp)]]; cbn [gKind gCode] in *.
    + destruct (woke_up _ _ _ Hw) as (_ & _ & E). rewrite E in Hm. pose proof (v_codes s I _ _ Hv) as Hcv. cbn [gCode gKind] in Hcv.
      apply Keep; [|eauto]. intros ->. apply Hne. apply (cs_alone s i i0 _ _ I Hv Hi0).
      * apply (codes_go _ _ Hcv). now apply (made_clear kv).
      * apply (codes_go _ _ Hc0). now apply (op_lane k0).
    + destruct (woke_up _ _ _ Hw) as (_ & _ & E). rewrite E in Hm. destruct (decide (o' = NewLane)) as [->|Hn].
      * cbn in Hx. injection Hx as <- <- <- <- <-. exists (hGen (lG s)). split; [now destruct (lG s)|apply in_elt].
      * apply Keep; [assumption|]. apply (IH _ _ _ Hi0). destruct (proj2 (made_next _ _ _ _ _ _ _ _ _ _ _ Hc0 Hx) Hm) as [?|?]; [assumption|contradiction].
    + apply (exec_spawn _ _ _ _ _ _ _ _ _ _ _ _ Hx) in Hsp as [_ [(g' & _ & _ & E)|(g' & _ & E)]]; injection E as -> ->; discriminate Hm.
  - apply (insert_cases _ _ _ _ _ _ Hi0) in Hi as [[_ Hi]|[-> E]].
    + destruct (IH _ _ _ Hi Hm) as (g & ? & ?). exists g. auto using in_mono.
    + injection E as -> ->. exfalso. destruct o'; cbn in Hx; exec_cases Hx k0; injection Hx as <- <-; discriminate Hm.
Qed.

(** ** A stop past its wait for the start-up, and a [run] that has yet to store its listener *)
Definition past_wait (c : list op) : bool := match c with Lock :: CloseL :: _ | CloseL :: _ => true | _ => false end.
Lemma past_next cl o c cc : In (o :: c) (call_codes cl) -> In cc (next_codes o c) -> past_wait cc = true ->
  past_wait (o :: c) = true \/ o = Wait WInit \/ o = Woken WInit.
Proof.
  intros H H1 H2.
  assert (E : (past_wait (o :: c) || bool_decide (o = Wait WInit) || bool_decide (o = Woken WInit)) = true).
  { apply (call_check (fun code => match code with [] => true | o :: c =>
      forallb (fun cc => implb (past_wait cc) (past_wait (o :: c) || bool_decide (o = Wait WInit) || bool_decide (o = Woken WInit))) (next_codes o c) end)) in H;
      [|intros []; vm_compute; reflexivity]. cbn beta iota in H. rewrite forallb_forall in H. specialize (H _ H1). now rewrite H2 in H. }
  apply orb_true_iff in E as [E|E]; [apply orb_true_iff in E as [E|E]|]; [auto|apply bool_decide_eq_true in E; auto..].
Qed.
Lemma late_stop s A : lreach s A -> forall i cl c b g c', lT s !! i = Some (Gor (KCall cl) c) -> past_wait c = true ->
  lT s !! b = Some (Gor (KRun g) c') -> unset c' = true -> exists m, In (LLane m g) A /\ start_overlaps A i m.
Proof.
  revert s A. apply (lreach_ind (fun s A => forall i cl c b g c', lT s !! i = Some (Gor (KCall cl) c) -> past_wait c = true ->
    lT s !! b = Some (Gor (KRun g) c') -> unset c' = true -> exists m, In (LLane m g) A /\ start_overlaps A i m)); [intros i cl c b g c' H; discriminate H|].
  intros s A e s' o R I IH H i cl c b g c' Hi Hp Hb Hun. pose proof H as H0.
  assert (Keep : forall code, lT s !! i = Some (Gor (KCall cl) code) -> (exists m, In (LLane m g) A /\ start_overlaps A i m) -> exists m, In (LLane m g) (A ++ o) /\ start_overlaps (A ++ o) i m).
  { intros code Hc (m & Hm & Ho). exists m. split; [now apply in_mono|]. eapply overlaps_step; eauto using thread_begin. }
  apply lstep_cases in H as [[-> ->]|[(p & -> & -> & _)|[(cl' & -> & _ & -> & ->)|[(-> & _ & -> & ->)|(i0 & x & k0 & o' & c0 & -> & _ & Hi0 & [(h & pre & sp & wk & Hx & ->)|(pre & p & Hx & -> & ->)])]]]]; cbn [lT lG] in *.
  - rewrite app_nil_r in *. eauto.
  - eauto.
  - apply lookup_call in Hb as [Hb|[_ E]]; [|discriminate E]. apply lookup_call in Hi as [Hi|[_ E]]; [eauto|]. injection E as -> ->. destruct cl'; discriminate Hp.
  - eauto.
  - pose proof (v_codes s I _ _ Hi0) as Hc0. cbn [gCode gKind] in Hc0.
    assert (Wp : forall v u, woke wk v u -> past_wait u = past_wait v /\ unset u = unset v) by (intros v u [[-> _]|(w & cc & -> & -> & ->)]; auto).
    apply (after_lookup _ _ _ _ _ _ _ _ Hi0) in Hi as [([kv cv] & Hv & Hne & Ek & Hw)|[(-> & Ek & Hw)|(m & -> & Hsp)]]; cbn [gKind gCode] in *.
    + subst kv. rewrite (proj1 (Wp _ _ Hw)) in Hp. eapply Keep; [eassumption|].
      apply (after_lookup _ _ _ _ _ _ _ _ Hi0) in Hb as [([kb cb] & Hvb & _ & Ekb & Hwb)|[(-> & Ekb & Hwb)|(m & -> & Hsp)]]; cbn [gKind gCode] in *.
      * subst kb. rewrite (proj2 (Wp _ _ Hwb)) in Hun. eauto.
      * subst k0. rewrite (proj2 (Wp _ _ Hwb)) in Hun. apply (IH _ _ _ _ _ _ Hv Hp Hi0).
        destruct (unset_next _ _ _ _ Hc0 (exec_codes _ _ _ _ _ _ _ _ _ _ c0 Hx)) as [Hu _]. auto.
      * apply (exec_spawn _ _ _ _ _ _ _ _ _ _ _ _ Hx) in Hsp as [_ [(g' & -> & Hl & E)|(g' & _ & E)]]; [|discriminate E]. injection E as <- ->.
        destruct (op_go _ _ Hc0) as [Hcl Hm]. destruct (lane_by _ _ R _ _ _ Hi0 Hm) as (g' & Hl' & Hin). rewrite Hl in Hl'. injection Hl' as <-.
        exists i0. split; [assumption|]. destruct (codes_go _ _ Hc0 Hcl) as (Hu & [cl' ->] & _). destruct (call_up _ _ Hc0 Hu).
        eapply live_overlaps; eauto.
    + subst k0. rewrite (proj1 (Wp _ _ Hw)) in Hp. eapply Keep; [eassumption|]. cbn [codes] in Hc0.
      assert (Hb' : exists cb, lT s !! b = Some (Gor (KRun g) cb) /\ unset cb = true).
      { apply (after_lookup _ _ _ _ _ _ _ _ Hi0) in Hb as [([kb cb] & Hvb & _ & Ekb & Hwb)|[(-> & Ekb & Hwb)|(m & -> & Hsp)]]; cbn [gKind gCode] in *.
        - subst kb. rewrite (proj2 (Wp _ _ Hwb)) in Hun. eauto.
        - discriminate Ekb.
        - exfalso. apply (exec_spawn _ _ _ _ _ _ _ _ _ _ _ _ Hx) in Hsp as [_ [(g' & -> & _ & _)|(g' & -> & _)]].
          + cbn in Hx. destruct (hLane (lG s)); [|discriminate]. injection Hx as _ <- _ _ _.
            destruct (past_next _ _ _ c0 Hc0 (or_introl eq_refl) Hp) as [E|[E|E]]; discriminate E.
          + destruct (op_register (KCall cl) _ _ Hc0) as [E _]. discriminate E. }
      destruct Hb' as (cb & Hb' & Hun').
      destruct (past_next _ _ _ _ Hc0 (exec_codes _ _ _ _ _ _ _ _ _ _ c0 Hx) Hp) as [E|E]; [eauto|]. exfalso.
      assert (Hz : hInit (lG s) = 0).
      { destruct E as [->| ->]; cbn in Hx; destruct (hInit (lG s) =? 0) eqn:Ez; try lia; [|discriminate Hx]. injection Hx as _ <- _ _ _. discriminate Hp. }
      assert (E0 : unset cb = false); [|congruence]. apply (unset_init g); [exact (v_codes s I _ _ Hb')|].
      change cb with (gCode (Gor (KRun g) cb)). eapply (tot_zero w_init); [intros j' u Hu; apply (sum_nonneg s I _ _ Hu)| |exact Hb'].
      pose proof (v_cnt s I WInit) as Ec. cbn in Ec. congruence.
    + apply (exec_spawn _ _ _ _ _ _ _ _ _ _ _ _ Hx) in Hsp as [_ [(g' & _ & _ & E)|(g' & _ & E)]]; discriminate E.
  - apply (insert_cases _ _ _ _ _ _ Hi0) in Hi as [[_ Hi]|[-> E]].
    + eapply Keep; [eassumption|]. apply (insert_cases _ _ _ _ _ _ Hi0) in Hb as [[_ Hb]|[-> E]]; [eauto|].
      destruct (panic_call _ _ _ _ _ _ _ Hx) as [cl' ->]. discriminate E.
    + injection E as E1 ->. exfalso. clear E1. destruct o'; cbn in Hx; exec_cases Hx k0; injection Hx as <- <-; discriminate Hp.
Qed.

(** ** The races *)
Lemma live_before s A i j cl c : lreach s A -> lT s !! i = Some (Gor (KCall cl) c) -> ended c = false -> ~ before_call A i j.
Proof.
  intros R Hi Hc (c' & [(B & C & E & _)|(p & B & C & E & _)]).
  - destruct (ret_thread _ _ R i) as [c2 Hc']; [rewrite E; apply in_elt|]. rewrite Hi in Hc'. injection Hc' as -> ->. discriminate.
  - destruct (panic_thread _ _ R i p) as (c2 & code' & Hc' & He); [rewrite E; apply in_elt|]. rewrite Hi in Hc'. injection Hc' as -> ->. congruence.
Qed.
Lemma overlap_of s A i j cl c : lreach s A -> lT s !! i = Some (Gor (KCall cl) c) -> ended c = false -> start_overlaps A i j ->
  exists cj, starter cj /\ In (LBegin j cj) A /\ overlap A i j.
Proof.
  intros R Hi Hc (Hne & Hb & Hn). assert (Hcj : exists cj, starter cj /\ In (LBegin j cj) A) by (unfold starter; destruct Hb; eauto).
  destruct Hcj as (cj & Hs & Hbj). exists cj. split; [assumption|]. split; [assumption|]. split; [auto|].
  split; [exists cl; eapply thread_begin; eauto|]. split; [eauto|]. split; [eapply live_before; eauto|].
  intros (c' & H). destruct (Hn c') as [H1 H2]. destruct H as [H|[p H]]; [auto|]. exact (H2 p H).
Qed.
Lemma touch_live k c f w : In (f, w) (touches k c) -> ended c = false.
Proof.
  intros H. destruct c as [|[] [|? ?]]; try reflexivity; destruct k as [[]| |]; contradiction H.
Qed.
Lemma races_lane s A i j f : lreach s A -> lraces s i j f -> f = FLane \/ f = FCancel ->
  exists ci cj, In (LBegin i ci) A /\ ci <> CStart /\ In (LBegin j cj) A /\ (cj = CStart \/ cj = CRestart) /\ overlap A i j.
Proof.
  intros R (Hne & _ & k & c & k' & c' & w & Hi & Ht & Hj & Ht') Hf. pose proof (lreach_inv _ _ R) as I.
  pose proof (v_codes s I _ _ Hi) as Hci. pose proof (v_codes s I _ _ Hj) as Hcj. cbn [gCode gKind] in *.
  destruct (write_lane _ _ _ Hcj Ht' Hf) as (cl & r & -> & -> & Hs & He & Hcs & Hu).
  destruct (touch_lane _ _ _ _ Hci Ht Hf) as [(ci & -> & Hk)|[(g & -> & Hw)|(g & n & -> & Hw)]].
  - assert (Hov : start_overlaps A i j) by (eapply live_overlaps; eauto). 
    destruct (overlap_of _ _ _ _ _ _ R Hi (touch_live _ _ _ _ Ht) Hov) as (cj & Hsj & Hbj & Hov').
    exists ci, cj. split; [eapply thread_begin; eauto|]. split; [|auto].
    destruct Hk as [?|[r' ->]]; [assumption|]. exfalso. apply Hne. apply (cs_alone s i j _ _ I Hi Hj); [|exact Hcs].
    apply (codes_go _ _ Hci). now apply (op_lane (KCall ci)).
  - exfalso. apply Hne. now apply (up_unique s i j _ _ I Hi Hj).
  - exfalso. destruct (act_run _ _ R _ _ _ _ Hi Hw) as (b & cb & Hb & Ho). unfold open_run in Ho. apply andb_true_iff in Ho as [Ho _].
    assert (b = j) as -> by (apply (up_unique s b j _ _ I Hb Hj); cbn [gCode]; [lia|assumption]). rewrite Hj in Hb. discriminate Hb.
Qed.
Lemma races_listener s A i j : lreach s A -> lraces s i j FListener ->
  exists a b g, (a = i /\ b = j \/ a = j /\ b = i) /\ (exists r, lT s !! b = Some (Gor (KRun g) r)) /\
    exists ca m cm, In (LBegin a ca) A /\ In (LLane m g) A /\ In (LBegin m cm) A /\ (cm = CStart \/ cm = CRestart) /\ overlap A a m.
Proof.
  intros R (Hne & _ & k & c & k' & c' & w & Hi & Ht & Hj & Ht'). pose proof (lreach_inv _ _ R) as I.
  pose proof (v_codes s I _ _ Hi) as Hci. pose proof (v_codes s I _ _ Hj) as Hcj. cbn [gCode gKind] in *.
  assert (Go : forall a b cl r g r', lT s !! a = Some (Gor (KCall cl) (CloseL :: r)) -> lT s !! b = Some (Gor (KRun g) (SetListener g :: r')) ->
    (exists r, lT s !! b = Some (Gor (KRun g) r)) /\ exists ca m cm, In (LBegin a ca) A /\ In (LLane m g) A /\ In (LBegin m cm) A /\ (cm = CStart \/ cm = CRestart) /\ overlap A a m).
  { intros a b cl r g r' Ha Hb. split; [eauto|]. destruct (late_stop _ _ R _ _ _ _ _ _ Ha eq_refl Hb eq_refl) as (m & Hm & Ho).
    destruct (overlap_of _ _ _ _ _ _ R Ha eq_refl Ho) as (cm & Hs & Hbm & Hov).
    exists cl, m, cm. split; [eapply thread_begin; eauto|auto]. }
  destruct (touch_listener _ _ _ Hci Ht) as [[H1 H2]|[(cl & r & -> & -> & H1)|(g & r & -> & -> & H1)]];
    destruct (touch_listener _ _ _ Hcj Ht') as [[H3 H4]|[(cl' & r' & -> & -> & H3)|(g' & r' & -> & -> & H3)]].
  - exfalso. apply Hne. now apply (cs_alone s i j _ _ I Hi Hj).
  - exfalso. apply Hne. now apply (cs_alone s i j _ _ I Hi Hj).
  - exfalso. apply Hne. now apply (up_unique s i j _ _ I Hi Hj).
  - exfalso. apply Hne. now apply (cs_alone s i j _ _ I Hi Hj).
  - exfalso. apply Hne. now apply (cs_alone s i j _ _ I Hi Hj).
  - exists i, j, g'. split; [auto|]. eauto.
  - exfalso. apply Hne. now apply (up_unique s i j _ _ I Hi Hj).
  - exists j, i, g. split; [auto|]. eauto.
  - exfalso. apply Hne. now apply (up_unique s i j _ _ I Hi Hj).
Qed.
Lemma races_table s A i j f : lreach s A -> lraces s i j f -> f <> FClients /\ forall g, f <> FNumber g.
Proof.
  intros R (Hne & _ & k & c & k' & c' & w & Hi & Ht & Hj & Ht'). pose proof (lreach_inv _ _ R) as I.
  pose proof (v_codes s I _ _ Hi) as Hci. pose proof (v_codes s I _ _ Hj) as Hcj. cbn [gCode gKind] in *.
  assert (Go : f = FClients \/ (exists g, f = FNumber g) -> False).
  { intros Hf. apply Hne. apply (cs_alone s i j _ _ I Hi Hj); eauto using touch_table. }
  split; [auto|]. eauto.
Qed.

Theorem life_races s A i j f : lreach s A -> lraces s i j f ->
  ((f = FLane \/ f = FCancel) /\ exists ci cj, In (LBegin i ci) A /\ ci <> CStart /\ In (LBegin j cj) A /\ (cj = CStart \/ cj = CRestart) /\ overlap A i j) \/
  (f = FListener /\ exists a b g, (a = i /\ b = j \/ a = j /\ b = i) /\ (exists r, lT s !! b = Some (Gor (KRun g) r)) /\
    exists ca m cm, In (LBegin a ca) A /\ In (LLane m g) A /\ In (LBegin m cm) A /\ (cm = CStart \/ cm = CRestart) /\ overlap A a m).
Proof.
  intros R H. destruct (races_table _ _ _ _ _ R H) as [H1 H2]. destruct f as [| | | |g]; [|contradiction| | |now destruct (H2 g)].
  - right. split; [reflexivity|]. eapply races_listener; eauto.
  - left. split; [auto|]. eapply races_lane; eauto.
  - left. split; [auto|]. eapply races_lane; eauto.
Qed.
Theorem no_overlap_no_race s A i j f : lreach s A ->
  (forall a b cb, In (LBegin b cb) A -> cb = CStart \/ cb = CRestart -> ~ overlap A a b) -> ~ lraces s i j f.
Proof.
  intros R Hn H. destruct (life_races _ _ _ _ _ R H) as [(_ & ci & cj & _ & _ & Hb & Hs & Ho)|(_ & a & b & g & _ & _ & ca & m & cm & _ & _ & Hb & Hs & Ho)]; eapply Hn; eauto.
Qed.
