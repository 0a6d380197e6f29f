(** * TimeProofs: the times records carry *)
From Verif Require Export TimeSpec CallProofs ReplyMore.
From stdpp Require Import gmap list.
From Coq Require Import ZifyBool ZifyNat Sorted.
Open Scope Z_scope.
Open Scope list_scope.

(** ** Where in a run an observation was made *)
Lemma run_at evs : forall s s' B x C, run s evs = (s', B ++ x :: C) ->
  exists e1 ev e2 s1 s2 B1 o1 o2, evs = e1 ++ ev :: e2 /\ run s e1 = (s1, B1) /\ step s1 ev = (s2, o1 ++ x :: o2) /\ B = B1 ++ o1.
Proof.
  induction evs as [|ev evs IH]; cbn [run]; intros s s' B x C H.
  - injection H as _ H. destruct B; discriminate.
  - destruct (step s ev) as [s1 o1] eqn:E1. destruct (run s1 evs) as [s2 o2] eqn:E2. injection H as <- H.
    apply app_eq_inv in H as [(k & -> & Hk)|(k & -> & Hk)].
    + destruct k as [|y k].
      * cbn in Hk. subst o2. destruct (IH _ _ [] _ _ E2) as (e1 & ev' & e2 & s3 & s4 & B1 & p1 & p2 & -> & Hr & Hs & HB).
        symmetry in HB. apply app_eq_nil in HB as [-> ->].
        exists (ev :: e1), ev', e2, s3, s4, (B ++ []), [], p2. cbn [run]. rewrite E1, Hr, !app_nil_r. auto.
      * cbn in Hk. injection Hk as <- Hk. exists [], ev, evs, s, s1, [], B, k. auto.
    + subst o2. destruct (IH _ _ _ _ _ E2) as (e1 & ev' & e2 & s3 & s4 & B1 & p1 & p2 & -> & Hr & Hs & ->).
      exists (ev :: e1), ev', e2, s3, s4, (o1 ++ B1), p1, p2. cbn [run]. rewrite E1, Hr. rewrite app_assoc. auto.
Qed.

Lemma calls_app e1 : forall s A e2, calls s A (e1 ++ e2) =
  calls s A e1 ++ calls (fst (run s e1)) (A ++ snd (run s e1)) e2.
Proof.
  induction e1 as [|ev e1 IH]; cbn [calls run app]; intros s A e2.
  - cbn. now rewrite app_nil_r.
  - destruct (step s ev) as [s1 o1] eqn:E1. cbn [fst snd]. rewrite IH. destruct (run s1 e1) as [s2 o2]. cbn [fst snd].
    now rewrite !app_assoc.
Qed.

Lemma posted_at port ch evs s B i t q r C : run (init port ch) evs = (s, B ++ OPosted i t q r :: C) ->
  exists e1 s1 p, run (init port ch) e1 = (s1, B) /\ sThreads s1 !! i = Some (APostRec t p r) /\
    forall c, calls (init port ch) [] evs !! i = Some c -> calls (init port ch) [] e1 !! i = Some c.
Proof.
  intros H. destruct (run_at _ _ _ _ _ _ H) as (e1 & ev & e2 & s1 & s2 & B1 & o1 & o2 & -> & Hr & Hs & ->).
  assert (Hev : ev = EvApi i /\ o1 = [] /\ exists p, sThreads s1 !! i = Some (APostRec t p r)).
  { destruct (api_or ev) as [[j ->]|Hne].
    - unfold step in Hs. destruct (sCrash s1); [injection Hs as _ Hs; destruct o1; discriminate|].
      destruct (sThreads s1 !! j) as [a|] eqn:Et; [|injection Hs as _ Hs; destruct o1; discriminate].
      destruct (astep j (sWall s1) (sDs s1) a) as [[ds' a'] o'] eqn:Ea. injection Hs as _ Hs.
      destruct a; cbn in Ea;
      repeat match type of Ea with context [match ?x with _ => _ end] => destruct x; try discriminate end;
      injection Ea as _ _ <-; destruct o1 as [|? [|? [|? ?]]]; cbn in Hs; try discriminate.
      injection Hs as <- <- _ <-. eauto.
    - pose proof (step_by _ _ _ _ Hne Hs i) as Hf. apply Forall_app in Hf as [_ Hf]. apply Forall_inv in Hf. cbn in Hf.
      now rewrite Nat.eqb_refl in Hf. }
  destruct Hev as (-> & -> & p & Hp). rewrite app_nil_r. exists e1, s1, p. split; [assumption|]. split; [assumption|].
  intros c Hc. rewrite calls_app, Hr in Hc. cbn [fst snd calls app] in Hc.
  rewrite lookup_app_l in Hc; [assumption|].
  assert (Hr2 : run (init port ch) (e1 ++ [EvApi i]) = (s2, B1 ++ [] ++ OPosted i t q r :: o2)) by (eapply run_snoc; eauto).
  eapply (calls_only _ _ _ _ _ (OPosted i t q r) i) in Hr2; [|apply in_or_app; right; now left|cbn; apply Nat.eqb_refl].
  rewrite calls_app in Hr2. cbn [calls] in Hr2. now rewrite !app_nil_r in Hr2.
Qed.

(** ** What a post has done before its record is in the log *)
Lemma posted_call port ch evs s os i t q r : run (init port ch) evs = (s, os) -> In (OPosted i t q r) os ->
  exists A c, calls (init port ch) [] evs !! i = Some (A, c) /\ post_to t q c.
Proof.
  intros H Hin. assert (Hb : by_call i (OPosted i t q r) = true) by (cbn; apply Nat.eqb_refl).
  assert (Hl := calls_only _ _ _ _ _ _ _ H Hin Hb).
  destruct (lookup_lt_is_Some_2 _ _ Hl) as [[A c] Hc]. exists A, c. split; [assumption|].
  destruct (calls_effect _ _ _ _ _ _ _ _ H Hc) as [HA He].
  assert (Hd : In (OPosted i t q r) (done_by i os)) by (apply filter_In; auto).
  destruct c as [t' p' k v h ts|ts p'|t' p' g o]; cbn [effect] in He.
  - destruct He as (tm & _ & [l Hl']).
    assert (Hd' : In (OPosted i t q r) (done_by i os ++ l)) by (apply in_or_app; now left). rewrite <- Hl' in Hd'. cbn in Hd'.
    destruct Hd' as [Hd'|[Hd'|[Hd'|[Hd'|[]]]]]; try discriminate. injection Hd' as <- <- _. now split.
  - destruct He as [l Hl']. exfalso.
    assert (Hd' : In (OPosted i t q r) (done_by i os ++ l)) by (apply in_or_app; now left). rewrite <- Hl' in Hd'.
    apply in_app_or in Hd' as [Hd'|[Hd'|[]]]; [|discriminate].
    apply in_flat_map in Hd' as (x & _ & [Hx|[Hx|[]]]); discriminate.
  - exfalso. destruct He as [He|[[He _]|[He _]]]; rewrite He in Hd; cbn in Hd; intuition discriminate.
Qed.

Lemma posted_before port ch evs s B i t q r C A c : run (init port ch) evs = (s, B ++ OPosted i t q r :: C) ->
  calls (init port ch) [] evs !! i = Some (A, c) ->
  A `prefix_of` B /\ done_by i B = [OTopic i t; OMade i t q] /\ (takes_now c -> since A B (fun A1 => rTs r = tr_wall A1)).
Proof.
  intros H Hc. destruct (posted_call _ _ _ _ _ i t q r H) as (A' & c' & Hc' & Hp); [apply in_or_app; right; now left|].
  rewrite Hc in Hc'. injection Hc' as <- <-. destruct c as [t' p' k v h ts|ts p'|t' p' g o]; try contradiction.
  destruct Hp as [-> <-].
  destruct (posted_at _ _ _ _ _ _ _ _ _ _ H) as (e1 & s1 & p & H1 & Ha & Hc1). specialize (Hc1 _ Hc).
  destruct (tracked_reach _ _ _ _ _ H1) as [Hl Hpr _].
  destruct (Hpr _ _ _ _ Hc1 Ha) as [HA Hprog]. cbn [progress] in Hprog.
  destruct Hprog as (k' & v' & h' & ts' & tm & [= <- <- <- <- <-] & -> & Htm & Hd).
  split; [assumption|]. split; [assumption|]. intros Hn. cbn in Hn. subst ts. exact Htm.
Qed.

Theorem time_of_post port ch evs s B i t q r C A c : run (init port ch) evs = (s, B ++ OPosted i t q r :: C) ->
  calls (init port ch) [] evs !! i = Some (A, c) -> takes_now c -> since A B (fun A1 => rTs r = tr_wall A1).
Proof. intros H Hc Hn. now apply (posted_before _ _ _ _ _ _ _ _ _ _ _ _ H Hc). Qed.

(** ** Order *)
Lemma prefix_mid {X} (A B : list X) x C : A `prefix_of` B -> A `prefix_of` B ++ x :: C.
Proof. apply prefix_app_r. Qed.

Lemma no_return port ch evs s B i t q r C A c : run (init port ch) evs = (s, B ++ OPosted i t q r :: C) ->
  calls (init port ch) [] evs !! i = Some (A, c) -> ~ In (OReturn i) B /\ forall t' q' r', ~ In (OPosted i t' q' r') B.
Proof.
  intros H Hc. destruct (posted_before _ _ _ _ _ _ _ _ _ _ _ _ H Hc) as (_ & Hd & _). split.
  - intros Hin. assert (Hf : In (OReturn i) (done_by i B)) by (apply filter_In; split; [assumption|cbn; apply Nat.eqb_refl]).
    rewrite Hd in Hf. cbn in Hf. intuition discriminate.
  - intros t' q' r' Hin. assert (Hf : In (OPosted i t' q' r') (done_by i B)) by (apply filter_In; split; [assumption|cbn; apply Nat.eqb_refl]).
    rewrite Hd in Hf. cbn in Hf. intuition discriminate.
Qed.

Theorem in_turn_order port ch evs s B i j t p r' C Ai Aj ci cj : run (init port ch) evs = (s, B ++ OPosted j t p r' :: C) ->
  calls (init port ch) [] evs !! i = Some (Ai, ci) -> calls (init port ch) [] evs !! j = Some (Aj, cj) ->
  post_to t p ci -> takes_now ci -> takes_now cj -> In (OReturn i) Aj -> clock_forward (B ++ OPosted j t p r' :: C) ->
  exists B1 r B2, B = B1 ++ OPosted i t p r :: B2 /\ rTs r <= rTs r'.
Proof.
  intros H Hi Hj Hp Hni Hnj Hret Hf.
  destruct (posted_before _ _ _ _ _ _ _ _ _ _ _ _ H Hj) as (HAj & _ & Htj). specialize (Htj Hnj).
  assert (HretB : In (OReturn i) B) by (destruct HAj as [l ->]; apply in_or_app; now left).
  destruct (calls_effect _ _ _ _ _ _ _ _ H Hi) as [_ He].
  destruct ci as [t' p' k v h ts|ts p'|t' p' g o]; try contradiction. destruct Hp as [-> <-].
  destruct He as (tm & _ & Hpre).
  assert (HP : In (OPosted i t (as_int32 p') (Rec 0 tm k v h)) (B ++ OPosted j t (as_int32 p') r' :: C) ).
  { assert (Hd : In (OReturn i) (done_by i (B ++ OPosted j t (as_int32 p') r' :: C))).
    { apply filter_In. split; [apply in_or_app; now left|cbn; apply Nat.eqb_refl]. }
    apply (filter_In (by_call i)). fold (done_by i (B ++ OPosted j t (as_int32 p') r' :: C)).
    destruct Hpre as [l Hl]. destruct (done_by i (B ++ OPosted j t (as_int32 p') r' :: C)) as [|x [|y [|z d]]];
    cbn in Hl; [contradiction| | |]; injection Hl; intros; subst; cbn in Hd |- *; try (intuition discriminate). }
  set (os := B ++ OPosted j t (as_int32 p') r' :: C) in *.
  destruct (in_split _ _ HP) as (B1 & B2 & Hsp).
  rewrite Hsp in H. destruct (posted_before _ _ _ _ _ _ _ _ _ _ _ _ H Hi) as (_ & _ & Hti). specialize (Hti Hni).
  destruct (no_return _ _ _ _ _ _ _ _ _ _ _ _ H Hi) as [Hno _].
  assert (HB1 : B1 `prefix_of` Aj /\ exists B2', B = B1 ++ OPosted i t (as_int32 p') (Rec 0 tm k v h) :: B2').
  { assert (Hjos : Aj `prefix_of` os) by (now apply prefix_mid).
    assert (H1os : B1 `prefix_of` os) by (rewrite Hsp; apply prefix_mid; reflexivity).
    assert (Hn : ~ Aj `prefix_of` B1) by (intros [l ->]; apply Hno, in_or_app; now left).
    destruct (prefix_weak_total _ _ _ Hjos H1os) as [?|Hle]; [contradiction|]. split; [assumption|].
    destruct HAj as [l2 ->]. destruct Hle as [l3 ->].
    destruct l3 as [|x l3]; [exfalso; apply Hn; rewrite app_nil_r; reflexivity|].
    unfold os in Hsp. rewrite <- !app_assoc in Hsp. apply app_inv_head in Hsp. cbn in Hsp. injection Hsp as -> _.
    exists (l3 ++ l2). now rewrite <- app_assoc. }
  destruct HB1 as [HB1 [B2' HB]]. exists B1, (Rec 0 tm k v h), B2'. split; [assumption|].
  destruct Hti as (X & _ & HX & ->). destruct Htj as (Y & HY & HYB & ->).
  apply Hf; [etrans; [exact HX|]; etrans; [exact HB1|exact HY]|]. unfold os. now apply prefix_mid.
Qed.

Lemma log_in t p r os : In r (tr_log t p os) -> exists i, In (OPosted i t p r) os.
Proof.
  unfold tr_log. intros H. apply in_flat_map in H as (o & Hin & Hr). destruct o; try contradiction.
  destruct (same t p t0 p0) eqn:E; [|contradiction]. destruct Hr as [->|[]]. unfold same in E.
  apply andb_prop in E as [E1 E2]. apply bool_decide_eq_true in E1 as ->. apply Z.eqb_eq in E2 as ->. eauto.
Qed.
Lemma log_app t p a b : tr_log t p (a ++ b) = tr_log t p a ++ tr_log t p b.
Proof. apply flat_map_app. Qed.

Theorem not_ahead port ch evs s os t p : run (init port ch) evs = (s, os) -> clock_forward os ->
  all_now t p (calls (init port ch) [] evs) -> forall r, In r (tr_log t p os) -> rTs r <= tr_wall os.
Proof.
  intros H Hf Ha r Hr. apply log_in in Hr as [i Hin].
  destruct (posted_call _ _ _ _ _ _ _ _ _ H Hin) as (A & c & Hc & Hp).
  destruct (in_split _ _ Hin) as (B & C & ->).
  destruct (time_of_post _ _ _ _ _ _ _ _ _ _ _ _ H Hc (Ha _ _ _ Hc Hp)) as (X & _ & HX & ->).
  apply Hf; [now apply prefix_mid|reflexivity].
Qed.

Lemma sorted_snoc l x : StronglySorted Z.le l -> Forall (fun y => y <= x) l -> StronglySorted Z.le (l ++ [x]).
Proof.
  induction 1 as [|y l Hs IH Hy]; intros Hf; cbn; [repeat constructor|]. inversion Hf; subst.
  constructor; [now apply IH|]. apply Forall_app. split; [assumption|]. now constructor.
Qed.
Lemma sorted_if t p os : (forall B j r C, os = B ++ OPosted j t p r :: C -> forall r0, In r0 (tr_log t p B) -> rTs r0 <= rTs r) ->
  in_time_order (tr_log t p os).
Proof.
  induction os as [|o os IH] using rev_ind; intros H; [constructor|].
  unfold in_time_order, times. rewrite log_app, map_app.
  assert (Hs : in_time_order (tr_log t p os)).
  { apply IH. intros B j r C -> r0. apply (H B j r (C ++ [o])). now rewrite <- app_assoc. }
  destruct o; cbn; try (rewrite app_nil_r; exact Hs).
  destruct (same t p t0 p0) eqn:E; [|cbn; rewrite app_nil_r; exact Hs].
  unfold same in E. apply andb_prop in E as [E1 E2]. apply bool_decide_eq_true in E1 as <-. apply Z.eqb_eq in E2 as <-.
  cbn. apply sorted_snoc; [exact Hs|]. apply Forall_forall. intros x Hx. apply elem_of_list_In, in_map_iff in Hx as (r0 & <- & Hr0).
  eapply (H os); [reflexivity|assumption].
Qed.

Theorem sorted_log port ch evs s os t p : run (init port ch) evs = (s, os) -> clock_forward os ->
  all_now t p (calls (init port ch) [] evs) -> one_by_one t p (calls (init port ch) [] evs) -> in_time_order (tr_log t p os).
Proof.
  intros H Hf Ha Ho. apply sorted_if. intros B j r C -> r0 Hr0.
  apply log_in in Hr0 as [i Hin].
  destruct (posted_call _ _ _ _ _ i t p r0 H) as (Ai & ci & Hi & Hpi); [apply in_or_app; now left|].
  destruct (posted_call _ _ _ _ _ j t p r H) as (Aj & cj & Hj & Hpj); [apply in_or_app; right; now left|].
  destruct (no_return _ _ _ _ _ _ _ _ _ _ _ _ H Hj) as [Hnr Hnp].
  destruct (lt_eq_lt_dec i j) as [[Hlt| ->]|Hlt].
  - destruct (in_turn_order _ _ _ _ _ _ _ _ _ _ _ _ _ _ _ H Hi Hj Hpi (Ha _ _ _ Hi Hpi) (Ha _ _ _ Hj Hpj) (Ho _ _ _ _ _ _ Hlt Hi Hj Hpi Hpj) Hf)
      as (B1 & r1 & B2 & -> & Hle).
    rewrite <- app_assoc in H. cbn in H. destruct (no_return _ _ _ _ _ _ _ _ _ _ _ _ H Hi) as [_ Hn1].
    apply in_app_or in Hin as [Hin|[Hin|Hin]]; [now apply Hn1 in Hin|now injection Hin as <-|]. exfalso.
    destruct (in_split _ _ Hin) as (B3 & B4 & ->).
    assert (H2 : run (init port ch) evs = (s, (B1 ++ OPosted i t p r1 :: B3) ++ OPosted i t p r0 :: (B4 ++ OPosted j t p r :: C))).
    { rewrite H. f_equal. rewrite <- !app_assoc. cbn. rewrite <- ?app_assoc. reflexivity. }
    destruct (no_return _ _ _ _ _ _ _ _ _ _ _ _ H2 Hi) as [_ Hn2]. apply (Hn2 t p r1). apply in_or_app. right. now left.
  - now apply Hnp in Hin.
  - exfalso. assert (Hr := Ho _ _ _ _ _ _ Hlt Hj Hi Hpj Hpi). apply Hnr.
    destruct (in_split _ _ Hin) as (B1 & B2 & ->). rewrite <- app_assoc in H. cbn in H.
    destruct (posted_before _ _ _ _ _ _ _ _ _ _ _ _ H Hi) as ([l ->] & _). apply in_or_app. left. apply in_or_app. now left.
Qed.

(** ** Asking for a time *)
Theorem ask_sorted port ch evs s os t p : run (init port ch) evs = (s, os) -> clock_forward os ->
  all_now t p (calls (init port ch) [] evs) -> one_by_one t p (calls (init port ch) [] evs) ->
  forall T o tm, by_time (tr_log t p os) T o tm -> forall k r, nth_error (tr_log t p os) k = Some r -> (Z.of_nat k < o <-> rTs r < T).
Proof. intros H Hf Ha Ho T o tm Hb. apply (by_time_first _ _ _ _ Hb). eapply sorted_log; eauto. Qed.

Theorem ask_future port ch evs s os t p : run (init port ch) evs = (s, os) -> clock_forward os ->
  all_now t p (calls (init port ch) [] evs) ->
  forall T o tm, by_time (tr_log t p os) T o tm -> tr_wall os < T -> o = zlen (tr_log t p os).
Proof.
  intros H Hf Ha T o tm (Hr & Hge & _) HT. destruct (Z_lt_le_dec o (zlen (tr_log t p os))) as [Hlt|]; [|lia]. exfalso.
  unfold zlen in *. destruct (nth_error (tr_log t p os) (Z.to_nat o)) as [r|] eqn:E; [|apply nth_error_None in E; lia].
  specialize (Hge (Z.to_nat o) r ltac:(lia) E). assert (Hle := not_ahead _ _ _ _ _ _ _ H Hf Ha r (nth_error_In _ _ E)). lia.
Qed.

Lemma right_by_time os t p T i tm o : T <> -1 -> T <> -2 -> list_right os t (p, T) (i, 0, tm, o) -> by_time (tr_log t p os) T o tm.
Proof.
  intros H1 H2 H. unfold list_right in H. destruct H as [_ H]. destruct (tr_has t p os); [|lia].
  replace (T =? -1) with false in H by lia. replace (T =? -2) with false in H by lia. apply H.
Qed.

(** ** Two posts at the same time; a clock set back *)
Definition ttA : bytes := [116].
Definition tpost (v : Z) : event := EvCall (CallPost ttA 0 None (Some [v]) [] None).
Definition t_over : list event :=
  [EvWall 10; tpost 1; tpost 2; EvApi 0; EvApi 0; EvApi 0; EvWall 20; EvApi 1; EvApi 1; EvApi 1; EvApi 1; EvApi 0].
Definition t_back : list event :=
  [EvWall 20; tpost 1; EvApi 0; EvApi 0; EvApi 0; EvApi 0; EvWall 10; tpost 2; EvApi 1; EvApi 1; EvApi 1; EvApi 1].
Definition t_turn : list event :=
  [EvWall 10; tpost 1; EvApi 0; EvApi 0; EvApi 0; EvApi 0; EvWall 20; tpost 2; EvApi 1; EvApi 1; EvApi 1; EvApi 1].

(** The clock goes forward if the values it is set to do. *)
Fixpoint walls (w : Z) (os : list obs) : bool :=
  match os with
  | [] => true
  | OWall w' :: os' => (w <=? w') && walls w' os'
  | _ :: os' => walls w os'
  end.
Lemma walls_ge : forall l w, walls w l = true -> w <= fold_left (fun n o => match o with OWall w => w | _ => n end) l w.
Proof.
  induction l as [|o l IH]; cbn; intros w H; [lia|]. destruct o; try (now apply IH).
  apply andb_prop in H as [H1 H2]. specialize (IH _ H2). lia.
Qed.
Lemma walls_app l1 : forall l2 w, walls w (l1 ++ l2) = true -> walls w l1 = true /\
  walls (fold_left (fun n o => match o with OWall w => w | _ => n end) l1 w) l2 = true.
Proof.
  induction l1 as [|o l1 IH]; cbn; intros l2 w H; [auto|]. destruct o; try (now apply IH).
  apply andb_prop in H as [H1 H2]. destruct (IH _ _ H2). now rewrite H1.
Qed.
Lemma walls_forward os : walls 0 os = true -> clock_forward os.
Proof.
  intros H A B [l ->] [l' ->]. rewrite <- app_assoc in H. apply walls_app in H as [_ H]. apply walls_app in H as [H _].
  unfold tr_wall. rewrite fold_left_app. now apply walls_ge.
Qed.

Definition all_nowb (cl : list (list obs * call)) : bool :=
  forallb (fun x => match snd x with CallPost _ _ _ _ _ (Some _) => false | _ => true end) cl.
Lemma all_nowb_ok t p cl : all_nowb cl = true -> all_now t p cl.
Proof.
  intros H i A c Hc Hp. assert (Hin : In (A, c) cl) by (apply elem_of_list_In; eapply elem_of_list_lookup_2; exact Hc).
  apply (proj1 (forallb_forall _ _) H) in Hin. cbn in Hin. destruct c; try contradiction. cbn. now destruct ts.
Qed.
Definition returned (i : nat) (os : list obs) : bool := existsb (fun o => match o with OReturn j => Nat.eqb i j | _ => false end) os.
Lemma returned_in i os : returned i os = true -> In (OReturn i) os.
Proof.
  intros H. apply existsb_exists in H as (o & Hin & Ho). destruct o; try discriminate. apply Nat.eqb_eq in Ho as ->. assumption.
Qed.
Lemma two_one_by_one t p A c B d : returned 0 B = true -> one_by_one t p [(A, c); (B, d)].
Proof.
  intros H i j A' B' c' d' Hij Hi Hj _ _. destruct i as [|[|i]], j as [|[|j]]; try lia; try discriminate.
  cbn in Hj. injection Hj as <- <-. now apply returned_in.
Qed.

Definition t_fin (evs : list event) : sys := fst (run (init 9092 []) evs).
Definition t_trace (evs : list event) : list obs := snd (run (init 9092 []) evs).
Definition t_calls (evs : list event) : list (list obs * call) := calls (init 9092 []) [] evs.

Lemma fin_run evs : run (init 9092 []) evs = (t_fin evs, t_trace evs).
Proof. unfold t_fin, t_trace. now destruct (run (init 9092 []) evs). Qed.

Lemma over_times : times (tr_log ttA 0 (t_trace t_over)) = [20; 10].
Proof. vm_compute. reflexivity. Qed.
Lemma over_forward : clock_forward (t_trace t_over).
Proof. apply walls_forward. vm_compute. reflexivity. Qed.
Lemma over_now : all_now ttA 0 (t_calls t_over).
Proof. apply all_nowb_ok. vm_compute. reflexivity. Qed.
Lemma over_returned : forall i, (i < Datatypes.length (t_calls t_over))%nat -> In (OReturn i) (t_trace t_over).
Proof.
  assert (E : Datatypes.length (t_calls t_over) = 2%nat) by (vm_compute; reflexivity). rewrite E. intros i Hi.
  apply returned_in. destruct i as [|[|i]]; [vm_compute; reflexivity|vm_compute; reflexivity|lia].
Qed.
Lemma unsorted log : times log = [20; 10] -> ~ in_time_order log.
Proof. unfold in_time_order. intros -> H. inversion H as [|? ? ? Hf]; subst. inversion Hf; subst. lia. Qed.
Lemma missed log : times log = [20; 10] -> by_time log 15 2 10 /\ exists r, nth_error log 0 = Some r /\ 15 <= rTs r.
Proof.
  unfold times. intros H. destruct log as [|a [|b [|? ?]]]; try discriminate. cbn in H. injection H as Ha Hb. split.
  - unfold by_time, zlen. cbn [Datatypes.length]. split; [lia|]. split.
    + intros k r Hk Hn. destruct k as [|[|k]]; [lia|lia|]. destruct k; discriminate.
    + split; [right; exists b; cbn; split; [reflexivity|lia]|lia].
  - exists a. cbn. split; [reflexivity|lia].
Qed.

Theorem overlap_unsorted : exists port ch evs s os t p, run (init port ch) evs = (s, os) /\ clock_forward os /\
  all_now t p (calls (init port ch) [] evs) /\ (forall i, (i < Datatypes.length (calls (init port ch) [] evs))%nat -> In (OReturn i) os) /\
  ~ in_time_order (tr_log t p os) /\
  exists T o tm r, by_time (tr_log t p os) T o tm /\ 0 < o /\ nth_error (tr_log t p os) 0 = Some r /\ T <= rTs r.
Proof.
  exists 9092, [], t_over, (t_fin t_over), (t_trace t_over), ttA, 0. split; [apply fin_run|]. split; [apply over_forward|].
  split; [apply over_now|]. split; [apply over_returned|]. split; [apply unsorted, over_times|].
  destruct (missed _ over_times) as [Hb (r & Hr & Hle)]. exists 15, 2, 10, r. split; [assumption|]. split; [lia|]. auto.
Qed.

Lemma back_calls : t_calls t_back = [([OWall 20], CallPost ttA 0 None (Some [1]) [] None);
  ([OWall 20; OTopic 0 ttA; OMade 0 ttA 0; OPosted 0 ttA 0 (Rec 0 20 None (Some [1]) []); OReturn 0; OWall 10], CallPost ttA 0 None (Some [2]) [] None)].
Proof. vm_compute. reflexivity. Qed.
Theorem back_unsorted : exists port ch evs s os t p, run (init port ch) evs = (s, os) /\
  all_now t p (calls (init port ch) [] evs) /\ one_by_one t p (calls (init port ch) [] evs) /\ ~ in_time_order (tr_log t p os).
Proof.
  exists 9092, [], t_back, (t_fin t_back), (t_trace t_back), ttA, 0. split; [apply fin_run|].
  split; [apply all_nowb_ok; vm_compute; reflexivity|].
  split; [fold (t_calls t_back); rewrite back_calls; apply two_one_by_one; reflexivity|].
  apply unsorted. vm_compute. reflexivity.
Qed.

Lemma turn_calls : t_calls t_turn = [([OWall 10], CallPost ttA 0 None (Some [1]) [] None);
  ([OWall 10; OTopic 0 ttA; OMade 0 ttA 0; OPosted 0 ttA 0 (Rec 0 10 None (Some [1]) []); OReturn 0; OWall 20], CallPost ttA 0 None (Some [2]) [] None)].
Proof. vm_compute. reflexivity. Qed.
Lemma turn_ok : clock_forward (t_trace t_turn) /\ all_now ttA 0 (t_calls t_turn) /\ one_by_one ttA 0 (t_calls t_turn) /\
  times (tr_log ttA 0 (t_trace t_turn)) = [10; 20].
Proof.
  split; [apply walls_forward; vm_compute; reflexivity|]. split; [apply all_nowb_ok; vm_compute; reflexivity|].
  split; [rewrite turn_calls; apply two_one_by_one; reflexivity|]. vm_compute. reflexivity.
Qed.

(** ** Only logs in time order are found exactly *)
Lemma by_time_some log T : exists o tm, by_time log T o tm.
Proof.
  induction log as [|a log IH] using rev_ind.
  - exists 0, 0. unfold by_time, zlen. cbn. split; [lia|]. split; [intros [|k] r _ H; discriminate|]. auto.
  - destruct (Z_lt_le_dec (rTs a) T) as [Hlt|Hge].
    + exists (zlen (log ++ [a])), (rTs a). assert (E : zlen (log ++ [a]) = Z.of_nat (Datatypes.length log) + 1) by (unfold zlen; rewrite app_length; cbn; lia).
      unfold by_time. rewrite E. split; [lia|]. split.
      * intros k r Hk Hn. assert (nth_error (log ++ [a]) k <> None) as Hs by congruence. apply nth_error_Some in Hs. rewrite app_length in Hs. cbn in Hs. lia.
      * split; [right|lia]. exists a. replace (Z.to_nat _) with (Datatypes.length log) by lia. rewrite nth_error_app2, Nat.sub_diag by lia. auto.
    + destruct IH as (o & tm & H1 & H2 & H3 & H4). unfold zlen in H1.
      exists o, (if o =? 0 then match log ++ [a] with [] => 0 | r :: _ => rTs r end else tm).
      unfold by_time, zlen. rewrite app_length. cbn [Datatypes.length]. split; [lia|]. split; [|split].
      * intros k r Hk Hn. destruct (lt_dec k (Datatypes.length log)) as [Hl|Hl].
        -- rewrite nth_error_app1 in Hn by assumption. eauto.
        -- rewrite nth_error_app2 in Hn by lia. destruct (k - Datatypes.length log)%nat as [|n]; cbn in Hn; [now injection Hn as <-|destruct n; discriminate].
      * destruct H3 as [->|(r & Hn & Hl & ->)]; [now left|]. destruct (Z.eq_dec o 0) as [->|Hne]; [now left|]. right.
        exists r. replace (o =? 0) with false by lia. rewrite nth_error_app1; [auto|]. lia.
      * intros ->. reflexivity.
Qed.
Lemma ordered_nth l : (forall i j x y, (i < j)%nat -> nth_error l i = Some x -> nth_error l j = Some y -> x <= y) -> StronglySorted Z.le l.
Proof.
  induction l as [|a l IH]; intros H; constructor.
  - apply IH. intros i j x y Hij Hi Hj. apply (H (S i) (S j) x y); [lia|assumption|assumption].
  - apply Forall_forall. intros y Hy. apply elem_of_list_In, In_nth_error in Hy as [n Hn]. apply (H 0%nat (S n) a y); [lia|reflexivity|assumption].
Qed.
Theorem exact_iff_sorted log : (forall T o tm, by_time log T o tm -> forall k r, nth_error log k = Some r -> (Z.of_nat k < o <-> rTs r < T)) <->
  in_time_order log.
Proof.
  split.
  - intros H. apply ordered_nth. intros i j x y Hij Hi Hj. unfold times in *.
    rewrite nth_error_map in Hi, Hj. destruct (nth_error log i) as [a|] eqn:Ei; [|discriminate]. destruct (nth_error log j) as [b|] eqn:Ej; [|discriminate].
    injection Hi as <-. injection Hj as <-. destruct (Z_lt_le_dec (rTs b) (rTs a)) as [Hlt|]; [|assumption]. exfalso.
    destruct (by_time_some log (rTs a)) as (o & tm & Hb).
    apply (H _ _ _ Hb _ _ Ej) in Hlt. assert (Hi : Z.of_nat i < o) by lia. apply (H _ _ _ Hb _ _ Ei) in Hi. lia.
  - intros Hs T o tm Hb. now apply by_time_first with tm.
Qed.
