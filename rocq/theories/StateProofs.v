(** * StateProofs: what a step does to the data store *)
From Verif Require Export CallProofs CommitProofs RejectProofs.
From stdpp Require Import gmap list.
From Coq Require Import ZifyBool ZifyNat.
Open Scope Z_scope.
Open Scope list_scope.

Section Step.
  Context (port : Z) (ch : list nat) (evs : list event) (s : sys) (A : list obs) (ev : event) (s' : sys) (o : list obs).
  Context (H1 : run (init port ch) evs = (s, A)) (H2 : step s ev = (s', o)).
  Lemma step_two : inv port (initApiVersions ch) A s /\ inv port (initApiVersions ch) (A ++ o) s'.
  Proof. pose proof (init_run_inv _ _ _ _ _ H1) as Hi. split; [assumption|]. eapply step_inv; eauto. Qed.
  Lemma step_records t p : records_of s' t p = records_of s t p ++ tr_log t p o.
  Proof. destruct step_two as [I1 I2]. now rewrite (inv_records _ _ _ _ I2), (inv_records _ _ _ _ I1), tr_log_app. Qed.
  Lemma step_offset t p g : offset_of s' t p g = fold_left (off_step t p g) o (offset_of s t p g).
  Proof. destruct step_two as [I1 I2]. now rewrite (inv_offset _ _ _ _ I2), (inv_offset _ _ _ _ I1), tr_off_app. Qed.
  Lemma step_part t p : has_part s' t p <-> has_part s t p \/ tr_has t p o = true.
  Proof. destruct step_two as [I1 I2]. now rewrite (inv_part _ _ _ _ I2), (inv_part _ _ _ _ I1), tr_has_app, orb_true_iff. Qed.
  Lemma step_topic t : has_topic s' t <-> has_topic s t \/ tr_topic t o = true.
  Proof. destruct step_two as [I1 I2]. now rewrite (inv_topic _ _ _ _ I2), (inv_topic _ _ _ _ I1), tr_topic_app, orb_true_iff. Qed.
End Step.

(** The observations of one step. *)
Lemma step_commit s ev s' o c t p g x : step s ev = (s', o) -> In (OCommit c t p g x) o -> o = [OCommit c t p g x].
Proof.
  intros H Hin. unfold step in H. destruct (sCrash s); [injection H as <- <-; contradiction|].
  assert (K : forall l, Forall (fun y => forall c t p g x, y <> OCommit c t p g x) l -> ~ In (OCommit c t p g x) l).
  { intros l Hl Hi. rewrite List.Forall_forall in Hl. now apply (Hl _ Hi c t p g x). }
  destruct ev as [cl|j| |d chh|d chunk|d|d|d|d gone|d|w| |].
  - destruct (call_ok cl); injection H as <- <-; contradiction.
  - destruct (sThreads s !! j) as [a|]; [|injection H as <- <-; contradiction].
    destruct (astep j (sWall s) (sDs s) a) as [[ds a'] o'] eqn:Ea. injection H as <- <-.
    apply astep_obs in Ea. rewrite List.Forall_forall in Ea. apply Ea in Hin. discriminate.
  - destruct (sCancel s); injection H as <- <-; contradiction.
  - destruct (sConns s !! d) as [[inb st]|]; [|injection H as <- <-; contradiction].
    unfold conn_step in H. cbn [cSt cIn] in H.
    assert (T : forall tk corr extra, match tstep d (env_of s) chh (sDs s) tk with
        | TCont ds tk' os => (set_conn s d (Conn inb (CBusy corr extra tk')) ds, os)
        | TPanic => (crash s, [OCrash d]) end = (s', o) -> o = [OCommit c t p g x]).
    { intros tk corr extra E. destruct (tstep d (env_of s) chh (sDs s) tk) as [ds tk' o'|] eqn:Et; injection E as <- <-.
      - apply tstep_obs in Et as [->|(?&?&?&?&->)]; [contradiction|]. destruct Hin as [<-|[]]. reflexivity.
      - destruct Hin as [|[]]; discriminate. }
    destruct st as [| |corr extra tk|[|b bs]|]; try (injection H as <- <-; exfalso; revert Hin; apply K; repeat constructor; discriminate).
    + exfalso. destruct (getMessage inb); [destruct (sCancel s)|destruct (beginRequest _ _) as [[[? ?] ?]|]|];
        injection H as <- <-; revert Hin; apply K; repeat constructor; discriminate.
    + destruct tk as [t0 v| | | | | | | | | |];
        try (match type of H with context [tstep _ _ _ _ ?x] => exact (T x corr extra H) end).
      exfalso. destruct (finishRequest corr extra t0 v); injection H as <- <-; revert Hin; apply K; repeat constructor; discriminate.
  - exfalso. destruct (sConns s !! d) as [[inb [| | | |]]|]; try (injection H as <- <-; contradiction).
    destruct (_ && _); injection H as <- <-; revert Hin; apply K; repeat constructor; discriminate.
  - exfalso. destruct (sConns s !! d) as [[inb [| | | |]]|]; injection H as <- <-; revert Hin; apply K; repeat constructor; discriminate.
  - exfalso. destruct (sConns s !! d) as [[inb [| | | |]]|]; injection H as <- <-; revert Hin; apply K; repeat constructor; discriminate.
  - exfalso. destruct (sConns s !! d) as [[inb [| | | |]]|]; injection H as <- <-; revert Hin; apply K; repeat constructor; discriminate.
  - exfalso. destruct (sConns s !! d) as [[inb [| | | |]]|]; try (injection H as <- <-; contradiction).
    destruct gone; injection H as <- <-; revert Hin; apply K; repeat constructor; discriminate.
  - exfalso. injection H as <- <-. revert Hin; apply K; repeat constructor; discriminate.
  - exfalso. injection H as <- <-. revert Hin; apply K; repeat constructor; discriminate.
  - exfalso. injection H as <- <-. revert Hin; apply K; repeat constructor; discriminate.
  - exfalso. destruct (forallb closed (sConns s)); injection H as <- <-; revert Hin; apply K; repeat constructor; discriminate.
Qed.
Lemma step_call s ev s' o x i : step s ev = (s', o) -> In x o -> by_call i x = true ->
  exists a ds a', ev = EvApi i /\ sThreads s !! i = Some a /\ astep i (sWall s) (sDs s) a = (ds, a', o).
Proof.
  intros H Hin Hb. destruct (api_or ev) as [[j ->]|Hev].
  - unfold step in H. destruct (sCrash s); [injection H as <- <-; contradiction|].
    destruct (sThreads s !! j) as [a|] eqn:Ej; [|injection H as <- <-; contradiction].
    destruct (astep j (sWall s) (sDs s) a) as [[ds a'] o'] eqn:Ea. injection H as <- <-.
    destruct (Nat.eq_dec j i) as [->|Hne]; [eauto 6|]. exfalso.
    destruct (astep_by _ _ _ _ _ _ _ Ea) as [_ Ho]. specialize (Ho i ltac:(congruence)).
    rewrite List.Forall_forall in Ho. specialize (Ho _ Hin). congruence.
  - exfalso. pose proof (step_by _ _ _ _ Hev H i) as Ho. rewrite List.Forall_forall in Ho. specialize (Ho _ Hin). congruence.
Qed.
Lemma step_set s ev s' o i t p g x : step s ev = (s', o) -> In (OSet i t p g x) o -> o = [OSet i t p g x; OReturn i].
Proof.
  intros H Hin. destruct (step_call _ _ _ _ _ i H Hin) as (a & ds & a' & _ & _ & Ea); [cbn; now rewrite Nat.eqb_refl|].
  destruct a; cbn in Ea;
  repeat match type of Ea with
  | context [match ?x with _ => _ end] => destruct x; try discriminate
  end; injection Ea as _ _ <-; cbn in Hin; repeat destruct Hin as [Hin|Hin]; try discriminate; try contradiction.
  now injection Hin as <- <- <- <-.
Qed.
Lemma step_posted s ev s' o i t p r : step s ev = (s', o) -> In (OPosted i t p r) o -> o = [OPosted i t p r; OReturn i].
Proof.
  intros H Hin. destruct (step_call _ _ _ _ _ i H Hin) as (a & ds & a' & _ & _ & Ea); [cbn; now rewrite Nat.eqb_refl|].
  destruct a; cbn in Ea;
  repeat match type of Ea with
  | context [match ?x with _ => _ end] => destruct x; try discriminate
  end; injection Ea as _ _ <-; cbn in Hin; repeat destruct Hin as [Hin|Hin]; try discriminate; try contradiction.
  now injection Hin as <- <- <-.
Qed.
Lemma step_made s ev s' o i t p : step s ev = (s', o) -> In (OMade i t p) o -> o = [OMade i t p].
Proof.
  intros H Hin. destruct (step_call _ _ _ _ _ i H Hin) as (a & ds & a' & _ & _ & Ea); [cbn; now rewrite Nat.eqb_refl|].
  destruct a; cbn in Ea;
  repeat match type of Ea with
  | context [match ?x with _ => _ end] => destruct x; try discriminate
  end; injection Ea as _ _ <-; cbn in Hin; repeat destruct Hin as [Hin|Hin]; try discriminate; try contradiction.
  - now injection Hin as <- <-.
  - now injection Hin as <- <-.
Qed.
Lemma step_topic_obs s ev s' o i t : step s ev = (s', o) -> In (OTopic i t) o -> o = [OTopic i t].
Proof.
  intros H Hin. destruct (step_call _ _ _ _ _ i H Hin) as (a & ds & a' & _ & _ & Ea); [cbn; now rewrite Nat.eqb_refl|].
  destruct a; cbn in Ea;
  repeat match type of Ea with
  | context [match ?x with _ => _ end] => destruct x; try discriminate
  end; injection Ea as _ _ <-; cbn in Hin; repeat destruct Hin as [Hin|Hin]; try discriminate; try contradiction.
  - now injection Hin as <-.
  - now injection Hin as <-.
Qed.

(** ** Creation (C14) *)
Lemma made_kept port ch evs s A B i t p : run (init port ch) evs = (s, A ++ OMade i t p :: B) -> has_part s t p /\ has_topic s t.
Proof.
  intros H. pose proof (init_run_inv _ _ _ _ _ H) as Hi.
  assert (Hp : has_part s t p).
  { apply (inv_part _ _ _ _ Hi). apply tr_has_in. exists i. apply in_or_app. right. now left. }
  split; [assumption|]. destruct Hp as (kt & kp & E & _). exists kt. exact E.
Qed.
Lemma only_made port ch evs s os t p : run (init port ch) evs = (s, os) -> has_part s t p -> exists i, In (OMade i t p) os.
Proof. intros H Hp. apply tr_has_in. eapply inv_part; [eapply init_run_inv, H|exact Hp]. Qed.
Lemma creating port ch evs s A ev s' o i t p : run (init port ch) evs = (s, A) -> step s ev = (s', o) ->
  In (OTopic i t) o \/ In (OMade i t p) o ->
  (forall t' p', records_of s' t' p' = records_of s t' p') /\
  (forall t' p' g, offset_of s' t' p' g = offset_of s t' p' g) /\
  (forall t' p', has_part s' t' p' -> has_part s t' p' \/ (t', p') = (t, p)) /\
  (forall t' p', has_part s t' p' -> has_part s' t' p').
Proof.
  intros H1 H2 Hin.
  assert (Ho : o = [OTopic i t] \/ o = [OMade i t p]) by (destruct Hin; [left; eapply step_topic_obs|right; eapply step_made]; eauto).
  split; [|split; [|split]].
  - intros t' p'. rewrite (step_records _ _ _ _ _ _ _ _ H1 H2). destruct Ho as [->| ->]; cbn; now rewrite app_nil_r.
  - intros t' p' g. rewrite (step_offset _ _ _ _ _ _ _ _ H1 H2). destruct Ho as [->| ->]; reflexivity.
  - intros t' p' Hp. apply (step_part _ _ _ _ _ _ _ _ H1 H2) in Hp as [Hp|Hp]; [auto|]. right.
    destruct Ho as [->| ->]; [discriminate|]. cbn in Hp. rewrite orb_false_r in Hp. now apply same_true in Hp as [-> ->].
  - intros t' p' Hp. apply (step_part _ _ _ _ _ _ _ _ H1 H2). auto.
Qed.

(** ** Offsets (C15, C17) *)
Lemma other_offset t p g t' p' g' x cur c : (t', p', g') <> (t, p, g) -> off_step t' p' g' cur (OCommit c t p g x) = cur.
Proof.
  intros Hne. cbn. destruct (same t' p' t p) eqn:E; [|reflexivity]. apply same_true in E as [-> ->].
  rewrite bool_decide_false by congruence. reflexivity.
Qed.
Lemma other_set t p g t' p' g' x cur i : (t', p', g') <> (t, p, g) -> off_step t' p' g' cur (OSet i t p g x) = cur.
Proof.
  intros Hne. cbn. destruct (same t' p' t p) eqn:E; [|reflexivity]. apply same_true in E as [-> ->].
  rewrite bool_decide_false by congruence. reflexivity.
Qed.
Lemma committing port ch evs s A ev s' o c t p g x : run (init port ch) evs = (s, A) -> step s ev = (s', o) ->
  In (OCommit c t p g x) o -> offset_of s' t p g = Z.max (offset_of s t p g) x /\ only_offset t p g s s'.
Proof.
  intros H1 H2 Hin. pose proof (step_commit _ _ _ _ _ _ _ _ _ H2 Hin) as ->. split.
  - rewrite (step_offset _ _ _ _ _ _ _ _ H1 H2). cbn. now rewrite same_refl, bool_decide_true.
  - unfold only_offset. split; [|split; [|split]].
    + intros t' p' g' Hne. rewrite (step_offset _ _ _ _ _ _ _ _ H1 H2). cbn [fold_left]. now apply other_offset.
    + intros t' p'. rewrite (step_records _ _ _ _ _ _ _ _ H1 H2). cbn. apply app_nil_r.
    + intros t' p'. rewrite (step_part _ _ _ _ _ _ _ _ H1 H2). cbn. intuition discriminate.
    + intros t'. rewrite (step_topic _ _ _ _ _ _ _ _ H1 H2). cbn. intuition discriminate.
Qed.
Lemma setting port ch evs s A ev s' o i t p g x : run (init port ch) evs = (s, A) -> step s ev = (s', o) ->
  In (OSet i t p g x) o -> offset_of s' t p g = x /\ only_offset t p g s s'.
Proof.
  intros H1 H2 Hin. pose proof (step_set _ _ _ _ _ _ _ _ _ H2 Hin) as ->. split.
  - rewrite (step_offset _ _ _ _ _ _ _ _ H1 H2). cbn. now rewrite same_refl, bool_decide_true.
  - unfold only_offset. split; [|split; [|split]].
    + intros t' p' g' Hne. rewrite (step_offset _ _ _ _ _ _ _ _ H1 H2). cbn [fold_left].
      change (off_step t' p' g' ?z (OReturn i)) with z. now apply other_set.
    + intros t' p'. rewrite (step_records _ _ _ _ _ _ _ _ H1 H2). cbn. apply app_nil_r.
    + intros t' p'. rewrite (step_part _ _ _ _ _ _ _ _ H1 H2). cbn. intuition discriminate.
    + intros t'. rewrite (step_topic _ _ _ _ _ _ _ _ H1 H2). cbn. intuition discriminate.
Qed.

Lemma off_mono t p g B : (forall i x, ~ In (OSet i t p g x) B) -> forall z, z <= fold_left (off_step t p g) B z.
Proof.
  induction B as [|o B IH]; intros Hno z; [reflexivity|]. cbn [fold_left].
  etransitivity; [|apply IH; intros i x Hi; apply (Hno i x); now right].
  destruct o; cbn; try lia.
  - destruct (same t p t0 p0 && bool_decide (g = g0)) eqn:E; [|lia]. exfalso.
    apply andb_true_iff in E as [E1 E2]. apply same_true in E1 as [-> ->]. apply bool_decide_eq_true in E2 as ->.
    now apply (Hno i o); left.
  - destruct (same t p t0 p0 && bool_decide (g = g0)); lia.
Qed.
Lemma at_least port ch evs s A B c t p g x : run (init port ch) evs = (s, A ++ OCommit c t p g x :: B) ->
  (forall i y, ~ In (OSet i t p g y) B) -> x <= offset_of s t p g.
Proof.
  intros H Hno. rewrite (reach_offset _ _ _ _ _ H), tr_off_app. cbn [fold_left].
  etransitivity; [|apply off_mono, Hno]. cbn. rewrite same_refl, bool_decide_true by reflexivity. cbn. lia.
Qed.
Lemma never_lower port ch e1 s1 A e2 s2 B t p g : run (init port ch) e1 = (s1, A) -> run s1 e2 = (s2, B) ->
  (forall i y, ~ In (OSet i t p g y) B) -> offset_of s1 t p g <= offset_of s2 t p g.
Proof.
  intros H1 H2 Hno. pose proof (init_run_inv _ _ _ _ _ H1) as I1. pose proof (run_inv _ _ _ _ _ _ _ I1 H2) as I2.
  rewrite (inv_offset _ _ _ _ I1), (inv_offset _ _ _ _ I2), tr_off_app. now apply off_mono.
Qed.
Lemma off_supplied t p g B : forall z, fold_left (off_step t p g) B z = z \/
  exists x, fold_left (off_step t p g) B z = x /\ ((exists i, In (OSet i t p g x) B) \/ (exists c, In (OCommit c t p g x) B)).
Proof.
  induction B as [|o B IH]; intros z; [now left|]. cbn [fold_left].
  assert (S : off_step t p g z o = z \/ (exists i, o = OSet i t p g (off_step t p g z o)) \/ (exists c, o = OCommit c t p g (off_step t p g z o))).
  { destruct o; cbn; try (now left).
    - destruct (same t p t0 p0 && bool_decide (g = g0)) eqn:E; [|now left]. right. left.
      apply andb_true_iff in E as [E1 E2]. apply same_true in E1 as [-> ->]. apply bool_decide_eq_true in E2 as ->. eauto.
    - destruct (same t p t0 p0 && bool_decide (g = g0)) eqn:E; [|now left].
      apply andb_true_iff in E as [E1 E2]. apply same_true in E1 as [-> ->]. apply bool_decide_eq_true in E2 as ->.
      destruct (Z.max_spec z o) as [[_ ->]|[_ ->]]; [right; right; eauto|now left]. }
  destruct (IH (off_step t p g z o)) as [E|(x & E & Hx)].
  - rewrite E. destruct S as [->|[[i Hi]|[c Hc]]]; [now left|right|right]; eexists; (split; [reflexivity|]).
    + left. exists i. left. exact Hi.
    + right. exists c. left. exact Hc.
  - right. exists x. split; [assumption|]. destruct Hx as [[i Hi]|[c Hc]]; [left; exists i|right; exists c]; now right.
Qed.
Lemma supplied port ch evs s os t p g : run (init port ch) evs = (s, os) ->
  offset_of s t p g = 0 \/ (exists i, In (OSet i t p g (offset_of s t p g)) os) \/
  (exists c, In (OCommit c t p g (offset_of s t p g)) os).
Proof.
  intros H. rewrite (reach_offset _ _ _ _ _ H). destruct (off_supplied t p g os 0) as [E|(x & E & Hx)]; [now left|].
  right. unfold tr_off. rewrite E. exact Hx.
Qed.

(** ** Requests that only read (C28) *)
Lemma unchanged port ch evs s A ev s' o : run (init port ch) evs = (s, A) -> step s ev = (s', o) ->
  (forall x, In x o -> ~ changes_store x) ->
  (forall t p, records_of s' t p = records_of s t p) /\ (forall t p g, offset_of s' t p g = offset_of s t p g) /\
  (forall t p, has_part s' t p <-> has_part s t p) /\ (forall t, has_topic s' t <-> has_topic s t).
Proof.
  intros H1 H2 Hno. assert (Hn : Forall neutral o).
  { apply List.Forall_forall. intros x Hx. specialize (Hno x Hx). destruct x; cbn in *; tauto. }
  split; [|split; [|split]].
  - intros. rewrite (step_records _ _ _ _ _ _ _ _ H1 H2), neutral_log by assumption. apply app_nil_r.
  - intros. now rewrite (step_offset _ _ _ _ _ _ _ _ H1 H2), neutral_off.
  - intros. rewrite (step_part _ _ _ _ _ _ _ _ H1 H2), neutral_has by assumption. intuition discriminate.
  - intros. rewrite (step_topic _ _ _ _ _ _ _ _ H1 H2), neutral_topic by assumption. intuition discriminate.
Qed.

Definition reader (tk : task) : Prop := match tk with TkCommit _ _ _ _ _ => False | _ => True end.
Lemma reader_tstep c e ch ds tk ds' tk' o : reader tk -> tstep c e ch ds tk = TCont ds' tk' o -> o = [] /\ reader tk'.
Proof.
  assert (F : forall rq fds, fetchFinish ds rq fds = TCont ds' tk' o -> o = [] /\ reader tk').
  { intros rq fds. unfold fetchFinish. destruct (fetchReply rq fds); [|discriminate]. intros [= _ <- <-]. now split. }
  destruct tk; cbn [reader tstep]; intros Hr H; try contradiction;
  repeat match type of H with
  | context [match ?x with _ => _ end] => destruct x; try discriminate
  end; try (injection H as _ <- <-; now split); eauto.
Qed.
(** What a connection's handler does until the next request, given an invariant
    [P] of the handler under which each of its effects is [ok]. *)
Definition task_conn (P : task -> Prop) (k : conn) : Prop := match cSt k with CBusy _ _ tk => P tk | _ => True end.
Lemma task_run (P : task -> Prop) (ok : obs -> Prop) c evs :
  (forall x, ~ changes_store x -> ok x) ->
  (forall e ch ds tk ds' tk' o, P tk -> tstep c e ch ds tk = TCont ds' tk' o ->
     (forall x, In x o -> ok x) /\ frames c o = [] /\ P tk') ->
  forall s s' B k, sConns s !! c = Some k -> task_conn P k -> run s evs = (s', B) ->
  forall x, In x (until_frame c B) -> obs_conn x = Some c -> ok x.
Proof.
  intros Hneu HT. induction evs as [|ev evs IH]; cbn [run]; intros s s' B k Hk Hr H x Hx Hc.
  { injection H as <- <-. contradiction. }
  destruct (step s ev) as [s1 o1] eqn:E1. destruct (run s1 evs) as [s2 o2] eqn:E2. injection H as <- <-.
  assert (Q : frames c o1 = [] -> (forall x, In x o1 -> obs_conn x = Some c -> ok x) ->
     (sCrash s1 = true \/ exists k', sConns s1 !! c = Some k' /\ task_conn P k') -> ok x).
  { intros Hf Ho Hk'. rewrite until_frame_app in Hx by assumption. apply in_app_or in Hx as [Hx|Hx]; [now apply Ho|].
    destruct Hk' as [Hcr|(k' & Hk' & Hr')]; [|eapply IH; eauto]. apply run_frozen in E2 as [_ ->]; [contradiction|assumption]. }
  destruct (decide (ev_conn ev = Some c)) as [He|He].
  2: { destruct (step_other _ _ _ _ c _ He Hk E1) as [Hk' Ho]. apply Q; [now apply apart_frames| |eauto].
       intros y Hy Hyc. rewrite Forall_forall in Ho. specialize (Ho y). rewrite elem_of_list_In in Ho. exfalso; now apply (Ho Hy). }
  destruct (sCrash s) eqn:Hcr.
  { unfold step in E1. rewrite Hcr in E1. injection E1 as <- <-. apply Q; [reflexivity|intros ? []|now left]. }
  assert (Hset : forall k' ds, sConns (set_conn s c k' ds) !! c = Some k').
  { intros k' ds. cbn. apply list_lookup_insert. now apply lookup_lt_Some in Hk. }
  assert (One : forall y, ~ changes_store y -> o1 = [y] -> forall x, In x o1 -> obs_conn x = Some c -> ok x).
  { intros y Hy -> z [<-|[]] _. now apply Hneu. }
  assert (Nil : o1 = [] -> forall x, In x o1 -> obs_conn x = Some c -> ok x) by (intros -> z []).
  unfold step in E1. rewrite Hcr in E1. destruct k as [inb st].
  destruct ev; cbn [ev_conn] in He; try discriminate; injection He as ->; rewrite Hk in E1.
  - unfold conn_step in E1. cbn [cSt cIn] in E1. unfold task_conn in Hr. cbn [cSt] in Hr.
    assert (T : forall tk corr extra, P tk -> match tstep c (env_of s) ch (sDs s) tk with
        | TCont ds tk' os => (set_conn s c (Conn inb (CBusy corr extra tk')) ds, os)
        | TPanic => (crash s, [OCrash c]) end = (s1, o1) -> ok x).
    { intros tk corr extra Htk E. destruct (tstep c (env_of s) ch (sDs s) tk) as [ds tk' o'|] eqn:Et; injection E as <- <-.
      - destruct (HT _ _ _ _ _ _ _ Htk Et) as (Ho' & Hf' & Htk'). apply Q; [exact Hf'|intros z Hz _; now apply Ho'|right]. eexists. split; [apply Hset|exact Htk'].
      - apply Q; [reflexivity|(eapply One; [|reflexivity]; cbn; tauto)|now left]. }
    destruct st as [| |corr extra tk|[|b bs]|].
    + destruct (getMessage inb) as [|msg rest|].
      * destruct (sCancel s); injection E1 as <- <-; (apply Q; [reflexivity|first [now apply Nil|(eapply One; [|reflexivity]; cbn; tauto)]|right; eexists; split; [apply Hset|exact I]]).
      * assert (Hx' : x <> x); [|congruence]. exfalso.
        destruct (beginRequest (sPort s) msg) as [[[corr extra] tk]|]; injection E1 as <- <-; cbn in Hx; now rewrite Nat.eqb_refl in Hx.
      * injection E1 as <- <-. apply Q; [reflexivity|(eapply One; [|reflexivity]; cbn; tauto)|now left].
    + injection E1 as <- <-. apply Q; [reflexivity|now apply Nil|right; eauto].
    + destruct tk as [t v| | | | | | | | | |];
        try (match type of E1 with context [tstep _ _ _ _ ?x] => exact (T x corr extra Hr E1) end).
      destruct (finishRequest corr extra t v); injection E1 as <- <-; (apply Q; [reflexivity|first [now apply Nil|(eapply One; [|reflexivity]; cbn; tauto)]|]);
        [right; eexists; split; [apply Hset|exact I]|now left].
    + injection E1 as <- <-. apply Q; [reflexivity|now apply Nil|right; eexists; split; [apply Hset|exact I]].
    + injection E1 as <- <-. apply Q; [reflexivity|(eapply One; [|reflexivity]; cbn; tauto)|right; eexists; split; [apply Hset|now destruct bs]].
    + injection E1 as <- <-. apply Q; [reflexivity|now apply Nil|right; eauto].
  - destruct st; try (injection E1 as <- <-; apply Q; [reflexivity|now apply Nil|right; eauto]; fail).
    destruct (_ && _); injection E1 as <- <-; (apply Q; [reflexivity|first [now apply Nil|(eapply One; [|reflexivity]; cbn; tauto)]|right]); eauto using I.
  - destruct st; injection E1 as <- <-; (apply Q; [reflexivity|first [now apply Nil|(eapply One; [|reflexivity]; cbn; tauto)]|right]); eauto using I.
  - destruct st; injection E1 as <- <-; (apply Q; [reflexivity|first [now apply Nil|(eapply One; [|reflexivity]; cbn; tauto)]|right]); eauto using I.
  - destruct st; injection E1 as <- <-; (apply Q; [reflexivity|first [now apply Nil|(eapply One; [|reflexivity]; cbn; tauto)]|]); eauto.
  - destruct st; try (injection E1 as <- <-; apply Q; [reflexivity|now apply Nil|right; eauto]; fail).
    destruct gone; injection E1 as <- <-; (apply Q; [reflexivity|first [now apply Nil|(eapply One; [|reflexivity]; cbn; tauto)]|]); [right; eexists; split; [apply Hset|exact I]|now left].
Qed.
Lemma reader_run c evs s s' B k : sConns s !! c = Some k -> task_conn reader k -> run s evs = (s', B) ->
  forall x, In x (until_frame c B) -> obs_conn x = Some c -> ~ changes_store x.
Proof.
  apply (task_run reader (fun x => ~ changes_store x) c evs); [auto|].
  intros e ch ds tk ds' tk' o Hr Ht. apply reader_tstep in Ht as [-> Ht]; [|assumption]. now split.
Qed.
Lemma start_reader a port body extra tk : a <> ApiOffsetCommit -> startApi a port body = Some (extra, tk) -> reader tk.
Proof.
  intros Ha H. destruct a; try congruence; cbn [startApi] in H; unfold with_req in H;
    try (match type of H with context [readRequest ?t ?b] => destruct (readRequest t b) as [[v rest]|]; [|discriminate] end;
    match type of H with context [match ?x with Some _ => _ | None => _ end] => destruct x; [|discriminate] end);
    try (injection H as <- <-; exact I).
  destruct (z =? 0); [|discriminate]. injection H as <- <-. exact I.
Qed.
Lemma reading_only port ch A c m s : serving port ch A c m s -> (forall rest, m <> w_int16 8 ++ rest) ->
  forall evs s' B, run s evs = (s', B) -> forall x, In x (until_frame c B) -> obs_conn x = Some c -> ~ changes_store x.
Proof.
  intros Hs Hm evs s' B Hr x Hx Hc. pose proof (serving_bytes _ _ _ _ _ _ Hs) as Hb.
  destruct (beginRequest port m) as [[[corr extra] tk]|] eqn:E.
  - destruct (begin_sound _ _ _ _ _ Hb E) as (key & ver & h & b & a & body & Hreq & Hd & Hst).
    assert (Ha : a <> ApiOffsetCommit).
    { intros ->. rewrite dispatch_supported in Hd. unfold supported in Hd.
      repeat match type of Hd with
      | match ?x with _ => _ end = _ => is_var x; destruct x; try discriminate
      end. destruct Hreq as (-> & (client & -> & _) & _). apply (Hm ((w_int16 2 ++ w_int32 corr ++ client) ++ b ++ extra)).
      now rewrite <- !app_assoc. }
    destruct (serving_inv _ _ _ _ _ _ _ _ _ Hs E) as (inb & Hk & _ & _).
    eapply reader_run; eauto. exact (start_reader _ _ _ _ _ Ha Hst).
  - destruct (serving_none _ _ _ _ _ _ Hs E evs s' B Hr) as (_ & _ & _).
    destruct (serving_cases _ _ _ _ _ _ Hs) as [(?&?&?&?& E' & _)|[_ Hcr]]; [congruence|].
    apply run_frozen in Hr as [_ ->]; [contradiction|assumption].
Qed.

(** ** Consequences *)
Lemma append_only port ch e1 s1 A e2 s2 B : run (init port ch) e1 = (s1, A) -> run s1 e2 = (s2, B) ->
  forall t p, records_of s2 t p = records_of s1 t p ++ tr_log t p B.
Proof.
  intros H1 H2 t p. pose proof (init_run_inv _ _ _ _ _ H1) as I1. pose proof (run_inv _ _ _ _ _ _ _ I1 H2) as I2.
  rewrite (inv_records _ _ _ _ I1), (inv_records _ _ _ _ I2). apply tr_log_app.
Qed.
Lemma nothing_else_made port ch evs s os : run (init port ch) evs = (s, os) ->
  (forall t p, has_part s t p -> exists i, In (OMade i t p) os) /\
  (forall t, has_topic s t -> exists i, In (OTopic i t) os).
Proof.
  intros H. split; [intros t p; eapply only_made, H|].
  intros t Ht. apply tr_topic_in. eapply inv_topic; [eapply init_run_inv, H|exact Ht].
Qed.
Lemma created_by_call port ch evs s os i A ts p : run (init port ch) evs = (s, os) ->
  calls (init port ch) [] evs !! i = Some (A, CallCreate ts p) ->
  In (OReturn i) os -> forall t, In t ts -> has_part s t (as_int32 p) /\ has_topic s t.
Proof.
  intros H Hc Hr t Ht. destruct (calls_effect _ _ _ _ _ _ _ _ H Hc) as [_ Hp]. cbn [effect] in Hp.
  assert (Hd : In (OReturn i) (done_by i os)) by (apply filter_In; split; [assumption|cbn; apply Nat.eqb_refl]).
  assert (Hm : In (OMade i t (as_int32 p)) (done_by i os)).
  { destruct Hp as [k Hk].
    assert (K : k = []).
    { destruct k as [|y k']; [reflexivity|]. exfalso. destruct (exists_last (l := y :: k')) as (k0 & z & Ek); [discriminate|].
      rewrite Ek, app_assoc in Hk. apply app_inj_tail in Hk as [Hk _].
      assert (Hx : In (OReturn i) (flat_map (fun t => [OTopic i t; OMade i t (as_int32 p)]) ts)) by (rewrite Hk; apply in_or_app; now left).
      apply in_flat_map in Hx as (t' & _ & [Hx|[Hx|[]]]); discriminate. }
    subst k. rewrite app_nil_r in Hk. rewrite <- Hk. apply in_or_app. left. apply in_flat_map. exists t. split; [assumption|]. cbn. auto. }
  apply filter_In in Hm as [Hm _]. apply in_split in Hm as (l1 & l2 & ->).
  eapply made_kept, H.
Qed.
Lemma set_by_call port ch evs s os i A t p g x : run (init port ch) evs = (s, os) ->
  calls (init port ch) [] evs !! i = Some (A, CallSet t p g x) -> In (OReturn i) os ->
  (done_by i os = [OSet i t (as_int32 p) g x; OReturn i] /\ tr_has t (as_int32 p) os = true) \/
  (done_by i os = [OReturn i] /\ since A os (fun A1 => tr_has t (as_int32 p) A1 = false)).
Proof.
  intros H Hc Hr. destruct (calls_effect _ _ _ _ _ _ _ _ H Hc) as [_ Hp]. cbn [effect] in Hp.
  assert (Hd : In (OReturn i) (done_by i os)) by (apply filter_In; split; [assumption|cbn; apply Nat.eqb_refl]).
  destruct Hp as [E|[E|E]]; [rewrite E in Hd; contradiction|right; exact E|left; exact E].
Qed.
Lemma set_existing port ch evs s os i A t p g x : run (init port ch) evs = (s, os) ->
  calls (init port ch) [] evs !! i = Some (A, CallSet t p g x) -> In (OReturn i) os ->
  tr_has t (as_int32 p) A = true -> In (OSet i t (as_int32 p) g x) os.
Proof.
  intros H Hc Hr Ha. destruct (set_by_call _ _ _ _ _ _ _ _ _ _ _ H Hc Hr) as [[E _]|[_ (A1 & [k ->] & _ & E)]].
  - assert (Hd : In (OSet i t (as_int32 p) g x) (done_by i os)) by (rewrite E; now left). now apply filter_In in Hd.
  - exfalso. rewrite tr_has_app, Ha in E. discriminate.
Qed.
