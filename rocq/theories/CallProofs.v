(** * CallProofs: the data store follows the trace, the trace follows the calls *)
From Verif Require Export CallSpec ExchangeProofs.
From stdpp Require Import gmap list.
From Coq Require Import ZifyBool ZifyNat.
Open Scope Z_scope.
Open Scope list_scope.

(** ** State and trace *)
Lemma records_part s t p : records_of s t p = match lookupPart (sDs s) t p with Some kp => pRecs kp | None => [] end.
Proof. unfold records_of, lookupPart. now destruct (sDs s !! t). Qed.
Lemma offset_part s t p g : offset_of s t p g = match lookupPart (sDs s) t p with Some kp => offsetOf kp g | None => 0 end.
Proof. unfold offset_of, lookupPart, offsetOf. now destruct (sDs s !! t). Qed.
Lemma has_part_lookup s t p : has_part s t p <-> lookupPart (sDs s) t p <> None.
Proof.
  unfold has_part, lookupPart. destruct (sDs s !! t) as [kt|]; split.
  - intros (? & kp & [= <-] & E). rewrite E. discriminate.
  - intros H. destruct (kt !! p) as [kp|] eqn:E; [eauto|congruence].
  - intros (? & ? & ? & _). discriminate.
  - congruence.
Qed.
Lemma has_topic_lookup s t : has_topic s t <-> getTopic (sDs s) t = true.
Proof.
  unfold has_topic, getTopic. destruct (sDs s !! t); split; eauto; [intros [? ?]; discriminate|discriminate].
Qed.

Section Inv.
  Context (port : Z) (vers : gmap Z vrange) (os : list obs) (s : sys) (Hi : inv port vers os s).
  Lemma inv_records t p : records_of s t p = tr_log t p os.
  Proof.
    rewrite records_part. destruct (i_store _ _ _ _ Hi) as [_ H]. specialize (H t p).
    destruct (lookupPart (sDs s) t p); [exact (po_recs _ _ _ _ H)|symmetry; exact (np_recs _ _ _ H)].
  Qed.
  Lemma inv_offset t p g : offset_of s t p g = tr_off t p g os.
  Proof.
    rewrite offset_part. destruct (i_store _ _ _ _ Hi) as [_ H]. specialize (H t p).
    destruct (lookupPart (sDs s) t p); [exact (po_off _ _ _ _ H g)|symmetry; exact (np_off _ _ _ H g)].
  Qed.
  Lemma inv_part t p : has_part s t p <-> tr_has t p os = true.
  Proof.
    rewrite has_part_lookup. destruct (i_store _ _ _ _ Hi) as [_ H]. specialize (H t p).
    destruct (lookupPart (sDs s) t p); [rewrite (po_has _ _ _ _ H)|rewrite (np_has _ _ _ H)]; split; congruence.
  Qed.
  Lemma inv_topic t : has_topic s t <-> tr_topic t os = true.
  Proof. rewrite has_topic_lookup. destruct (i_store _ _ _ _ Hi) as [H _]. now rewrite H. Qed.
End Inv.

Lemma reach_records port ch evs s os : run (init port ch) evs = (s, os) -> forall t p, records_of s t p = tr_log t p os.
Proof. intros H t p. eapply inv_records, init_run_inv, H. Qed.
Lemma reach_offset port ch evs s os : run (init port ch) evs = (s, os) -> forall t p g, offset_of s t p g = tr_off t p g os.
Proof. intros H t p g. eapply inv_offset, init_run_inv, H. Qed.

Lemma tr_has_in t p os : tr_has t p os = true <-> exists i, In (OMade i t p) os.
Proof.
  unfold tr_has. rewrite existsb_exists. split.
  - intros (o & Hin & Ho). destruct o; try discriminate. apply same_true in Ho as [-> ->]. eauto.
  - intros [i Hin]. exists (OMade i t p). split; [assumption|]. apply same_refl.
Qed.
Lemma tr_topic_in t os : tr_topic t os = true <-> exists i, In (OTopic i t) os.
Proof.
  unfold tr_topic. rewrite existsb_exists. split.
  - intros (o & Hin & Ho). destruct o; try discriminate. apply bool_decide_eq_true in Ho as ->. eauto.
  - intros [i Hin]. exists (OTopic i t). split; [assumption|]. now apply bool_decide_eq_true.
Qed.

(** ** Who does what *)
Lemma done_app i a b : done_by i (a ++ b) = done_by i a ++ done_by i b.
Proof. apply List.filter_app. Qed.
Lemma done_none i o : Forall (fun x => by_call i x = false) o -> done_by i o = [].
Proof. induction 1 as [|x o Hx _ IH]; [reflexivity|]. cbn. now rewrite Hx. Qed.
Lemma done_all i o : Forall (fun x => by_call i x = true) o -> done_by i o = o.
Proof. induction 1 as [|x o Hx _ IH]; [reflexivity|]. cbn. rewrite Hx. f_equal. exact IH. Qed.

Lemma astep_by i w ds a ds' a' o : astep i w ds a = (ds', a', o) -> Forall (fun x => by_call i x = true) o /\
  forall j, j <> i -> Forall (fun x => by_call j x = false) o.
Proof.
  assert (E : forall j, j <> i -> Nat.eqb j i = false) by (intros; now apply Nat.eqb_neq).
  destruct a; cbn; intros H;
  repeat match type of H with
  | context [match ?x with _ => _ end] => destruct x; try discriminate
  end; injection H as _ _ <-; (split; [repeat constructor; cbn; now rewrite Nat.eqb_refl|intros j Hj; repeat constructor; cbn; now apply E]).
Qed.
Lemma step_by s ev s' o : (forall i, ev <> EvApi i) -> step s ev = (s', o) -> forall i, Forall (fun x => by_call i x = false) o.
Proof.
  intros Hne H i. unfold step in H. destruct (sCrash s); [injection H as <- <-; constructor|].
  destruct ev as [cl|j| |d chh|d chunk|d|d|d|d gone|d|w| |].
  - destruct (call_ok cl); injection H as <- <-; constructor.
  - exfalso; now apply (Hne j).
  - destruct (sCancel s); injection H as <- <-; constructor.
  - destruct (sConns s !! d) as [[inb st]|]; [|injection H as <- <-; constructor].
    unfold conn_step in H. cbn [cSt cIn] in H.
    assert (T : forall tk corr extra, match tstep d (env_of s) chh (sDs s) tk with
        | TCont ds tk' os => (set_conn s d (Conn inb (CBusy corr extra tk')) ds, os)
        | TPanic => (crash s, [OCrash d]) end = (s', o) -> Forall (fun x => by_call i x = false) o).
    { intros tk corr extra E. destruct (tstep d (env_of s) chh (sDs s) tk) as [ds tk' o'|] eqn:Et; injection E as <- <-.
      - apply tstep_obs in Et as [->|(?&?&?&?&->)]; repeat constructor.
      - repeat constructor. }
    destruct st as [| |corr extra tk|[|b bs]|]; try (injection H as <- <-; repeat constructor; fail).
    + destruct (getMessage inb); [destruct (sCancel s)|destruct (beginRequest _ _) as [[[? ?] ?]|]|];
        injection H as <- <-; repeat constructor.
    + destruct tk as [t v| | | | | | | | | |];
        try (match type of H with context [tstep _ _ _ _ ?x] => exact (T x corr extra H) end).
      destruct (finishRequest corr extra t v); injection H as <- <-; repeat constructor.
  - destruct (sConns s !! d) as [[inb [| | | |]]|]; try (injection H as <- <-; constructor).
    destruct (_ && _); injection H as <- <-; repeat constructor.
  - destruct (sConns s !! d) as [[inb [| | | |]]|]; injection H as <- <-; repeat constructor.
  - destruct (sConns s !! d) as [[inb [| | | |]]|]; injection H as <- <-; repeat constructor.
  - destruct (sConns s !! d) as [[inb [| | | |]]|]; injection H as <- <-; repeat constructor.
  - destruct (sConns s !! d) as [[inb [| | | |]]|]; try (injection H as <- <-; constructor).
    destruct gone; injection H as <- <-; repeat constructor.
  - injection H as <- <-. repeat constructor.
  - injection H as <- <-. repeat constructor.
  - injection H as <- <-. repeat constructor.
  - destruct (forallb closed (sConns s)); injection H as <- <-; repeat constructor.
Qed.
Lemma step_threads s ev s' o : (forall i, ev <> EvApi i) -> step s ev = (s', o) ->
  sThreads s' = sThreads s ++ match ev with EvCall c => if negb (sCrash s) && call_ok c then [startCall c] else [] | _ => [] end.
Proof.
  intros Hne H. unfold step in H. destruct (sCrash s); [injection H as <- <-; destruct ev; now rewrite app_nil_r|].
  destruct ev as [cl|j| |d chh|d chunk|d|d|d|d gone|d|w| |]; rewrite ?app_nil_r.
  - cbn [negb andb]. destruct (call_ok cl); injection H as <- <-; cbn; now rewrite ?app_nil_r.
  - exfalso; now apply (Hne j).
  - destruct (sCancel s); now injection H as <- <-.
  - destruct (sConns s !! d) as [[inb st]|]; [|now injection H as <- <-].
    unfold conn_step in H. cbn [cSt cIn] in H.
    assert (T : forall tk corr extra, match tstep d (env_of s) chh (sDs s) tk with
        | TCont ds tk' os => (set_conn s d (Conn inb (CBusy corr extra tk')) ds, os)
        | TPanic => (crash s, [OCrash d]) end = (s', o) -> sThreads s' = sThreads s).
    { intros tk corr extra E. destruct (tstep d (env_of s) chh (sDs s) tk) as [ds tk' o'|]; now injection E as <- <-. }
    destruct st as [| |corr extra tk|[|b bs]|]; try (now injection H as <- <-).
    + destruct (getMessage inb); [destruct (sCancel s)|destruct (beginRequest _ _) as [[[? ?] ?]|]|]; now injection H as <- <-.
    + destruct tk as [t v| | | | | | | | | |];
        try (match type of H with context [tstep _ _ _ _ ?x] => exact (T x corr extra H) end).
      destruct (finishRequest corr extra t v); now injection H as <- <-.
  - destruct (sConns s !! d) as [[inb [| | | |]]|]; try (now injection H as <- <-).
    destruct (_ && _); now injection H as <- <-.
  - destruct (sConns s !! d) as [[inb [| | | |]]|]; now injection H as <- <-.
  - destruct (sConns s !! d) as [[inb [| | | |]]|]; now injection H as <- <-.
  - destruct (sConns s !! d) as [[inb [| | | |]]|]; now injection H as <- <-.
  - destruct (sConns s !! d) as [[inb [| | | |]]|]; try (now injection H as <- <-).
    destruct gone; now injection H as <- <-.
  - now injection H as <- <-.
  - now injection H as <- <-.
  - now injection H as <- <-.
  - destruct (forallb closed (sConns s)); now injection H as <- <-.
Qed.

(** ** The state of a call *)
Definition pairs (i : nat) (p : Z) (ts : list bytes) : list obs := flat_map (fun t => [OTopic i t; OMade i t (as_int32 p)]) ts.
Definition at_post (A os : list obs) (ts : option Z) (tm : Z) : Prop :=
  match ts with Some x => tm = x | None => since A os (fun A1 => tm = tr_wall A1) end.
Definition progress (i : nat) (A os : list obs) (c : call) (a : athread) : Prop :=
  match a with
  | APostTopic t p k v h ts => c = CallPost t p k v h ts /\ done_by i os = []
  | APostPart t p k v h ts => c = CallPost t p k v h ts /\ done_by i os = [OTopic i t]
  | APostNow t p k v h ts => c = CallPost t p k v h ts /\ done_by i os = [OTopic i t; OMade i t (as_int32 p)]
  | APostRec t p r => exists k v h ts tm, c = CallPost t p k v h ts /\ r = Rec 0 tm k v h /\ at_post A os ts tm /\
      done_by i os = [OTopic i t; OMade i t (as_int32 p)]
  | ACreateTopic ts p => exists l, c = CallCreate (l ++ ts) p /\ done_by i os = pairs i p l
  | ACreatePart t ts p => exists l, c = CallCreate (l ++ t :: ts) p /\ done_by i os = pairs i p l ++ [OTopic i t]
  | ASetTopic t p g o | ASetPart t p g o => c = CallSet t p g o /\ done_by i os = []
  | ASetWrite t p g o => c = CallSet t p g o /\ done_by i os = [] /\ tr_has t (as_int32 p) os = true
  | AReturned =>
      match c with
      | CallPost t p k v h ts => exists tm, at_post A os ts tm /\
          done_by i os = [OTopic i t; OMade i t (as_int32 p); OPosted i t (as_int32 p) (Rec 0 tm k v h); OReturn i]
      | CallCreate ts p => done_by i os = pairs i p ts ++ [OReturn i]
      | CallSet t p g o =>
          (done_by i os = [OReturn i] /\ since A os (fun A1 => tr_has t (as_int32 p) A1 = false)) \/
          (done_by i os = [OSet i t (as_int32 p) g o; OReturn i] /\ tr_has t (as_int32 p) os = true)
      end
  end.

Lemma since_app A os o P : since A os P -> since A (os ++ o) P.
Proof. intros (A1 & H1 & H2 & H3). exists A1. split; [assumption|]. split; [now apply prefix_app_r|assumption]. Qed.
Lemma at_post_app A os o ts tm : at_post A os ts tm -> at_post A (os ++ o) ts tm.
Proof. destruct ts; [trivial|]. apply since_app. Qed.

Lemma progress_effect i A os c a : A `prefix_of` os -> progress i A os c a -> effect i A os c.
Proof.
  intros HA H. destruct a; cbn [progress] in H.
  - destruct H as [-> H]. cbn [effect]. rewrite H.
    exists match ts with Some x => x | None => tr_wall A end. split; [|apply prefix_nil].
    destruct ts; [reflexivity|]. exists A. auto.
  - destruct H as [-> H]. cbn [effect]. rewrite H.
    exists match ts with Some x => x | None => tr_wall A end. split; [|eexists; reflexivity].
    destruct ts; [reflexivity|]. exists A. auto.
  - destruct H as [-> H]. cbn [effect]. rewrite H.
    exists match ts with Some x => x | None => tr_wall A end. split; [|eexists; reflexivity].
    destruct ts; [reflexivity|]. exists A. auto.
  - destruct H as (k & v & h & ts & tm & -> & -> & Htm & H). cbn [effect]. rewrite H. exists tm. split; [exact Htm|eexists; reflexivity].
  - destruct H as (l & -> & H). cbn [effect]. rewrite H. fold (pairs i p (l ++ ts)). unfold pairs at 2. rewrite flat_map_app, <- app_assoc.
    eexists; reflexivity.
  - destruct H as (l & -> & H). cbn [effect]. rewrite H. rewrite flat_map_app, <- app_assoc. unfold pairs. cbn [flat_map app].
    apply prefix_app. eexists; reflexivity.
  - destruct H as [-> H]. left. exact H.
  - destruct H as [-> H]. left. exact H.
  - destruct H as (-> & H & _). left. exact H.
  - destruct c; cbn [effect].
    + destruct H as (tm & Htm & H). exists tm. split; [exact Htm|]. now rewrite H.
    + now rewrite H.
    + right. exact H.
Qed.

Lemma progress_silent i A os c a o : done_by i o = [] -> progress i A os c a -> progress i A (os ++ o) c a.
Proof.
  intros Ho H. assert (E : done_by i (os ++ o) = done_by i os) by (now rewrite done_app, Ho, app_nil_r).
  destruct a; cbn [progress] in *; rewrite ?E; try assumption.
  - destruct H as (k & v & h & ts & tm & Hc & Hr & Htm & H). exists k, v, h, ts, tm. split; [assumption|]. split; [assumption|].
    split; [now apply at_post_app|assumption].
  - destruct H as (? & ? & H). split; [assumption|]. split; [assumption|]. now rewrite tr_has_app, H.
  - destruct c.
    + destruct H as (tm & Htm & H). exists tm. split; [now apply at_post_app|assumption].
    + assumption.
    + destruct H as [[H1 H2]|[H1 H2]]; [left; split; [assumption|now apply since_app]|right]. split; [assumption|].
      now rewrite tr_has_app, H2.
Qed.

Lemma progress_astep port vers i A os c s a ds a' o : inv port vers os s -> A `prefix_of` os -> progress i A os c a ->
  astep i (sWall s) (sDs s) a = (ds, a', o) -> progress i A (os ++ o) c a'.
Proof.
  intros Hi HA H E. destruct (astep_by _ _ _ _ _ _ _ E) as [Hown _]. apply done_all in Hown.
  assert (D : done_by i (os ++ o) = done_by i os ++ o) by (now rewrite done_app, Hown).
  destruct a; cbn [astep] in E; cbn [progress] in H.
  - injection E as <- <- <-. destruct H as [-> H]. cbn [progress]. rewrite D, H. auto.
  - injection E as <- <- <-. destruct H as [-> H]. cbn [progress]. rewrite D, H. auto.
  - injection E as <- <- <-. destruct H as [-> H]. cbn [progress]. rewrite D, H, app_nil_r.
    exists k, v, hdrs, ts, match ts with Some x => x | None => sWall s end. split; [reflexivity|]. split; [reflexivity|].
    split; [|reflexivity]. destruct ts; [reflexivity|]. exists os. split; [assumption|]. split; [reflexivity|]. apply (i_wall _ _ _ _ Hi).
  - injection E as <- <- <-. destruct H as (k & v & h & ts & tm & -> & -> & Htm & H). cbn [progress]. rewrite D, H.
    exists tm. split; [now apply at_post_app|reflexivity].
  - destruct H as (l & -> & H). destruct ts as [|t ts]; injection E as <- <- <-; cbn [progress]; rewrite D, H.
    + now rewrite app_nil_r.
    + exists l. auto.
  - injection E as <- <- <-. destruct H as (l & -> & H). cbn [progress]. rewrite D, H. exists (l ++ [t]).
    rewrite <- !app_assoc. split; [reflexivity|]. unfold pairs. rewrite flat_map_app. cbn. reflexivity.
  - destruct H as [-> H]. destruct (getTopic (sDs s) t) eqn:Et; injection E as <- <- <-; cbn [progress]; rewrite D, H; [auto|].
    left. split; [reflexivity|]. exists os. split; [assumption|]. split; [now apply prefix_app_r|].
    destruct (tr_has t (as_int32 p) os) eqn:Eh; [|reflexivity]. exfalso.
    apply (inv_part _ _ _ _ Hi) in Eh as (kt & kp & E1 & _). unfold getTopic in Et. rewrite E1 in Et. discriminate.
  - destruct H as [-> H].
    assert (Hh : hasPart (sDs s) t (as_int32 p) = tr_has t (as_int32 p) os).
    { pose proof (inv_part _ _ _ _ Hi t (as_int32 p)) as Hp. rewrite has_part_lookup in Hp. unfold hasPart.
      destruct (lookupPart (sDs s) t (as_int32 p)), (tr_has t (as_int32 p) os); try reflexivity.
      - symmetry. apply Hp. discriminate.
      - now destruct (proj2 Hp eq_refl). }
    change (swrap 32 p) with (as_int32 p) in E. rewrite Hh in E.
    destruct (tr_has t (as_int32 p) os) eqn:Eh; injection E as <- <- <-; cbn [progress]; rewrite D, H.
    + rewrite tr_has_app, Eh. auto.
    + left. split; [reflexivity|]. exists os. split; [assumption|]. split; [now apply prefix_app_r|assumption].
  - injection E as <- <- <-. destruct H as (-> & H & Hh). cbn [progress]. right. rewrite D, H, tr_has_app, Hh. auto.
  - injection E as <- <- <-. rewrite app_nil_r in *. exact H.
Qed.

Record tracked (os : list obs) (cl : list (list obs * call)) (s : sys) : Prop := {
  tk_len : length (sThreads s) = length cl;
  tk_prog : forall i A c a, cl !! i = Some (A, c) -> sThreads s !! i = Some a -> A `prefix_of` os /\ progress i A os c a;
  tk_none : forall i, (length cl <= i)%nat -> done_by i os = []
}.

Lemma api_or ev : (exists i, ev = EvApi i) \/ forall i, ev <> EvApi i.
Proof. destruct ev; try (right; discriminate). left. eauto. Qed.

Lemma start_progress i A c : done_by i A = [] -> progress i A A c (startCall c).
Proof. intros H. destruct c; cbn; auto. exists []. auto. Qed.

Lemma tracked_step port vers os cl s ev s' o : inv port vers os s -> tracked os cl s -> step s ev = (s', o) ->
  tracked (os ++ o) (cl ++ match ev with EvCall c => if negb (sCrash s) && call_ok c then [(os, c)] else [] | _ => [] end) s'.
Proof.
  intros Hi [Hl Hp Hn] H. destruct (api_or ev) as [[i ->]|Hev].
  - rewrite app_nil_r. unfold step in H. destruct (sCrash s) eqn:Hcr.
    { injection H as <- <-. rewrite app_nil_r. now split. }
    destruct (sThreads s !! i) as [a|] eqn:Ei.
    2: { injection H as <- <-. rewrite app_nil_r. now split. }
    destruct (astep i (sWall s) (sDs s) a) as [[ds a'] o'] eqn:Ea. injection H as <- <-.
    destruct (astep_by _ _ _ _ _ _ _ Ea) as [Hown Hoth]. split; cbn [sThreads].
    + now rewrite insert_length.
    + intros j A c b Hc Hb. destruct (decide (j = i)) as [->|Hne].
      * rewrite list_lookup_insert in Hb by (now apply lookup_lt_Some in Ei). injection Hb as <-.
        destruct (Hp _ _ _ _ Hc Ei) as [HA Hpr]. split; [now apply prefix_app_r|]. eapply progress_astep; eauto.
      * rewrite list_lookup_insert_ne in Hb by congruence. destruct (Hp _ _ _ _ Hc Hb) as [HA Hpr].
        split; [now apply prefix_app_r|]. apply progress_silent; [|assumption]. now apply done_none, Hoth.
    + intros j Hj. rewrite done_app, Hn by assumption. apply done_none, Hoth. intros ->.
      apply lookup_lt_Some in Ei. lia.
  - pose proof (step_by _ _ _ _ Hev H) as Hby. pose proof (step_threads _ _ _ _ Hev H) as Ht.
    assert (Hd : forall i, done_by i o = []) by (intros i; now apply done_none).
    set (new := match ev with EvCall c => if negb (sCrash s) && call_ok c then [(os, c)] else [] | _ => [] end).
    assert (Ht' : sThreads s' = sThreads s ++ map (fun x => startCall (snd x)) new).
    { rewrite Ht. f_equal. unfold new. destruct ev; try reflexivity. now destruct (_ && _). }
    assert (Ho : forall A c, In (A, c) new -> A = os /\ o = []).
    { intros A c Hin. unfold new in Hin. destruct ev; try contradiction. destruct (negb (sCrash s) && call_ok c0) eqn:E; [|contradiction].
      destruct Hin as [[= <- <-]|[]]. split; [reflexivity|]. unfold step in H. apply andb_true_iff in E as [E1 E2].
      apply negb_true_iff in E1. rewrite E1, E2 in H. now injection H as _ <-. }
    split.
    + rewrite Ht', !app_length, map_length. lia.
    + intros i A c a Hc Ha. rewrite Ht' in Ha.
      apply lookup_app_Some in Hc as [Hc|[Hge Hc]].
      * rewrite lookup_app_l in Ha by (rewrite Hl; now apply lookup_lt_Some in Hc).
        destruct (Hp _ _ _ _ Hc Ha) as [HA Hpr]. split; [now apply prefix_app_r|]. now apply progress_silent.
      * rewrite lookup_app_r in Ha by lia. rewrite Hl in Ha. change (list_lookup (i - length cl)%nat) with (lookup (M:=list (list obs * call)) (i - length cl)%nat) in Hc.
        rewrite list_lookup_fmap, Hc in Ha. cbn in Ha. injection Ha as <-.
        assert (Hin : In (A, c) new) by (apply elem_of_list_In; eapply elem_of_list_lookup_2; exact Hc).
        destruct (Ho _ _ Hin) as [-> ->]. rewrite app_nil_r. split; [reflexivity|]. apply start_progress. apply Hn. lia.
    + intros i Hi'. rewrite app_length in Hi'. rewrite done_app, Hd, app_nil_r. apply Hn. lia.
Qed.
Lemma tracked_run port vers evs : forall s os cl s' o, inv port vers os s -> tracked os cl s -> run s evs = (s', o) ->
  tracked (os ++ o) (cl ++ calls s os evs) s'.
Proof.
  induction evs as [|ev evs IH]; cbn [run calls]; intros s os cl s' o Hi Ht H.
  - injection H as <- <-. now rewrite !app_nil_r.
  - destruct (step s ev) as [s1 o1] eqn:E1. destruct (run s1 evs) as [s2 o2] eqn:E2. injection H as <- <-.
    cbn [fst snd]. rewrite !app_assoc. eapply IH; [eapply step_inv; eauto| |exact E2]. eapply tracked_step; eauto.
Qed.
Lemma tracked_reach port ch evs s os : run (init port ch) evs = (s, os) -> tracked os (calls (init port ch) [] evs) s.
Proof.
  intros H. change (calls (init port ch) [] evs) with ([] ++ calls (init port ch) [] evs). change os with ([] ++ os).
  eapply tracked_run; [apply init_inv| |exact H]. split; [reflexivity| |reflexivity]. intros i A c a Hc. discriminate.
Qed.

Lemma calls_effect port ch evs s os i A c : run (init port ch) evs = (s, os) ->
  calls (init port ch) [] evs !! i = Some (A, c) -> A `prefix_of` os /\ effect i A os c.
Proof.
  intros H Hc. apply tracked_reach in H as [Hl Hp _].
  destruct (lookup_lt_is_Some_2 (sThreads s) i) as [a Ha]; [rewrite Hl; now apply lookup_lt_Some in Hc|].
  destruct (Hp _ _ _ _ Hc Ha) as [HA Hpr]. split; [assumption|]. eapply progress_effect; eauto.
Qed.
(** Nothing is done by anyone else. *)
Lemma calls_only port ch evs s os o i : run (init port ch) evs = (s, os) -> In o os -> by_call i o = true ->
  (i < length (calls (init port ch) [] evs))%nat.
Proof.
  intros H Hin Hb. destruct (le_lt_dec (length (calls (init port ch) [] evs)) i) as [Hle|]; [|assumption].
  apply tracked_reach in H as [_ _ Hn]. specialize (Hn i Hle).
  assert (In o (done_by i os)) as Hd by (apply filter_In; auto). rewrite Hn in Hd. contradiction.
Qed.

(** ** Calls return *)
Definition ameas (a : athread) : nat :=
  match a with
  | APostTopic _ _ _ _ _ _ => 4 | APostPart _ _ _ _ _ _ => 3 | APostNow _ _ _ _ _ _ => 2 | APostRec _ _ _ => 1
  | ACreateTopic ts _ => 2 * length ts + 1 | ACreatePart _ ts _ => 2 * length ts + 2
  | ASetTopic _ _ _ _ => 3 | ASetPart _ _ _ _ => 2 | ASetWrite _ _ _ _ => 1
  | AReturned => 0
  end.
Lemma astep_meas i w ds a ds' a' o : astep i w ds a = (ds', a', o) -> (ameas a' <= pred (ameas a))%nat.
Proof.
  destruct a; cbn; intros H;
  repeat match type of H with
  | context [match ?x with _ => _ end] => destruct x; try discriminate
  end; injection H as _ <- _; cbn; lia.
Qed.
Lemma api_meas i evs : forall s s' o a, sCrash s' = false -> sThreads s !! i = Some a -> run s evs = (s', o) ->
  exists a', sThreads s' !! i = Some a' /\ (ameas a' + api_steps i evs <= ameas a \/ ameas a' = 0)%nat.
Proof.
  induction evs as [|ev evs IH]; cbn [run]; intros s s' o a Hcr Ha H.
  - injection H as <- <-. exists a. split; [assumption|]. cbn. lia.
  - destruct (step s ev) as [s1 o1] eqn:E1. destruct (run s1 evs) as [s2 o2] eqn:E2. injection H as <- <-.
    destruct (sCrash s1) eqn:Hc1; [apply run_frozen in E2 as [-> _]; congruence|].
    destruct (api_or ev) as [[j ->]|Hev].
    + unfold step in E1. destruct (sCrash s) eqn:Hcs; [injection E1 as <- <-; congruence|].
      unfold api_steps. cbn [List.filter]. destruct (Nat.eqb_spec i j) as [<-|Hij].
      * rewrite Ha in E1. destruct (astep i (sWall s) (sDs s) a) as [[ds a1] o'] eqn:Ea. injection E1 as <- <-.
        destruct (fun H => IH _ _ _ a1 Hcr H E2) as (a' & Ha' & Hm).
        { cbn. apply list_lookup_insert. now apply lookup_lt_Some in Ha. }
        exists a'. split; [assumption|]. apply astep_meas in Ea. cbn [length]. fold (api_steps i evs). lia.
      * destruct (sThreads s !! j) as [b|] eqn:Hb; [|injection E1 as <- <-; exact (IH _ _ _ a Hcr Ha E2)].
        destruct (astep j (sWall s) (sDs s) b) as [[ds a1] o'] eqn:Ea. injection E1 as <- <-.
        refine (IH _ _ _ a Hcr _ E2). cbn. rewrite list_lookup_insert_ne by congruence. assumption.
    + pose proof (step_threads _ _ _ _ Hev E1) as Ht.
      assert (Ha1 : sThreads s1 !! i = Some a) by (rewrite Ht; now apply lookup_app_l_Some).
      destruct (IH _ _ _ a Hcr Ha1 E2) as (a' & Ha' & Hm). exists a'. split; [assumption|].
      unfold api_steps in *. cbn [List.filter]. destruct ev; try exact Hm. exfalso; now apply (Hev i0).
Qed.
Lemma call_returns port ch e1 s1 A1 i A c e2 s2 B : run (init port ch) e1 = (s1, A1) ->
  calls (init port ch) [] e1 !! i = Some (A, c) -> run s1 e2 = (s2, B) -> crashed (A1 ++ B) = false ->
  (call_steps c <= api_steps i e2)%nat -> In (OReturn i) (A1 ++ B).
Proof.
  intros H1 Hc H2 Hcr Hn.
  pose proof (tracked_reach _ _ _ _ _ H1) as T1.
  pose proof (init_run_inv _ _ _ _ _ H1) as I1. pose proof (run_inv _ _ _ _ _ _ _ I1 H2) as I2.
  pose proof (tracked_run _ _ _ _ _ _ _ _ I1 T1 H2) as T2.
  destruct T1 as [L1 P1 _].
  destruct (lookup_lt_is_Some_2 (sThreads s1) i) as [a Ha]; [rewrite L1; now apply lookup_lt_Some in Hc|].
  destruct (P1 _ _ _ _ Hc Ha) as [_ Hp1].
  assert (Hcs : sCrash s2 = false) by (rewrite (i_crash _ _ _ _ I2); exact Hcr).
  destruct (api_meas _ _ _ _ _ _ Hcs Ha H2) as (a' & Ha' & Hm).
  assert (Hle : (ameas a <= call_steps c)%nat).
  { clear -Hp1. destruct a; cbn in *; try lia.
    - destruct Hp1 as [-> _]. cbn. lia.
    - destruct Hp1 as [-> _]. cbn. lia.
    - destruct Hp1 as [-> _]. cbn. lia.
    - destruct Hp1 as (?&?&?&?&?& -> & _). cbn. lia.
    - destruct Hp1 as (l & -> & _). cbn. rewrite app_length. lia.
    - destruct Hp1 as (l & -> & _). cbn. rewrite app_length. cbn. lia.
    - destruct Hp1 as [-> _]. cbn. lia.
    - destruct Hp1 as [-> _]. cbn. lia.
    - destruct Hp1 as [-> _]. cbn. lia. }
  assert (Hz : ameas a' = 0%nat) by lia.
  assert (a' = AReturned) by (destruct a'; cbn in Hz; try lia; reflexivity). subst a'.
  destruct T2 as [_ P2 _].
  destruct (P2 i A c AReturned (lookup_app_l_Some _ _ _ _ Hc) Ha') as [_ Hp2].
  assert (In (OReturn i) (done_by i (A1 ++ B))) as Hd.
  { cbn in Hp2. destruct c.
    - destruct Hp2 as (tm & _ & ->). cbn. auto.
    - rewrite Hp2. apply in_or_app. right. now left.
    - destruct Hp2 as [[-> _]|[-> _]]; cbn; auto. }
  now apply filter_In in Hd as [? _].
Qed.
