(** * StoreProofs: the data store in terms of the trace *)
From Verif Require Export Store TraceSpec.
From stdpp Require Import gmap.
Open Scope Z_scope.
Open Scope list_scope.

(** ** Reading after writing *)
Lemma lookupPart_createTopic ds n t p : lookupPart (createTopic ds n) t p = lookupPart ds t p.
Proof.
  unfold createTopic, lookupPart. destruct (ds !! n) eqn:E; [reflexivity|].
  destruct (decide (n = t)) as [->|H].
  - rewrite lookup_insert, E. apply lookup_empty.
  - now rewrite lookup_insert_ne.
Qed.
Lemma getTopic_createTopic ds n t : getTopic (createTopic ds n) t = bool_decide (t = n) || getTopic ds t.
Proof.
  unfold createTopic, getTopic. destruct (ds !! n) eqn:E.
  - destruct (decide (t = n)) as [->|H].
    + now rewrite E, orb_true_r.
    + now rewrite bool_decide_false.
  - destruct (decide (t = n)) as [->|H].
    + now rewrite lookup_insert, bool_decide_true.
    + now rewrite lookup_insert_ne, bool_decide_false by congruence.
Qed.

Lemma getTopic_lookup ds n : getTopic ds n = true <-> exists kt, ds !! n = Some kt.
Proof. unfold getTopic. destruct (ds !! n); naive_solver. Qed.

Lemma lookupPart_createPartition ds n q t p :
  getTopic ds n = true ->
  lookupPart (createPartition ds n q) t p =
  match lookupPart ds t p with
  | Some kp => Some kp
  | None => if same t p n q then Some (new_part q) else None
  end.
Proof.
  intros [kt Hn]%getTopic_lookup. unfold createPartition, lookupPart, same. rewrite Hn.
  destruct (decide (t = n)) as [->|Ht].
  - rewrite Hn, bool_decide_true by reflexivity. cbn [andb].
    destruct (kt !! q) eqn:Eq.
    + rewrite Hn. destruct (kt !! p) eqn:Ep; [reflexivity|].
      destruct (Z.eqb_spec p q); [congruence|reflexivity].
    + rewrite lookup_insert. destruct (Z.eqb_spec p q) as [->|Hpq].
      * now rewrite lookup_insert, Eq.
      * rewrite lookup_insert_ne by congruence. now destruct (kt !! p).
  - rewrite bool_decide_false by assumption. cbn [andb].
    destruct (kt !! q) eqn:Eq.
    + now destruct (ds !! t) as [x|]; [destruct (x !! p)|].
    + rewrite lookup_insert_ne by congruence. now destruct (ds !! t) as [x|]; [destruct (x !! p)|].
Qed.
Lemma getTopic_createPartition ds n q t : getTopic (createPartition ds n q) t = getTopic ds t.
Proof.
  unfold createPartition, getTopic. destruct (ds !! n) as [kt|] eqn:E; [|reflexivity].
  destruct (kt !! q); [reflexivity|].
  destruct (decide (n = t)) as [->|Ht].
  - now rewrite lookup_insert, E.
  - now rewrite lookup_insert_ne.
Qed.

Lemma lookupPart_updPart ds n q f t p :
  lookupPart (updPart ds n q f) t p =
  match lookupPart ds t p with
  | Some kp => Some (if same t p n q then f kp else kp)
  | None => None
  end.
Proof.
  unfold updPart, lookupPart, same.
  destruct (ds !! n) as [kt|] eqn:En.
  - destruct (kt !! q) as [kp|] eqn:Eq.
    + destruct (decide (t = n)) as [->|Ht].
      * rewrite lookup_insert, En, bool_decide_true by reflexivity. cbn [andb].
        destruct (Z.eqb_spec p q) as [->|Hpq].
        -- now rewrite lookup_insert, Eq.
        -- rewrite lookup_insert_ne by congruence. now destruct (kt !! p).
      * rewrite lookup_insert_ne by congruence. rewrite bool_decide_false by assumption. cbn [andb].
        now destruct (ds !! t) as [x|]; [destruct (x !! p)|].
    + destruct (decide (t = n)) as [->|Ht].
      * rewrite En, bool_decide_true by reflexivity. cbn [andb].
        destruct (kt !! p) eqn:Ep; [|reflexivity].
        destruct (Z.eqb_spec p q) as [->|Hpq]; [congruence|reflexivity].
      * rewrite bool_decide_false by assumption. cbn [andb].
        now destruct (ds !! t) as [x|]; [destruct (x !! p)|].
  - destruct (decide (t = n)) as [->|Ht].
    + now rewrite En.
    + rewrite bool_decide_false by assumption. cbn [andb].
      now destruct (ds !! t) as [x|]; [destruct (x !! p)|].
Qed.
Lemma getTopic_updPart ds n q f t : getTopic (updPart ds n q f) t = getTopic ds t.
Proof.
  unfold updPart, getTopic. destruct (ds !! n) as [kt|] eqn:E; [|reflexivity].
  destruct (kt !! q); [|reflexivity].
  destruct (decide (n = t)) as [->|Ht].
  - now rewrite lookup_insert, E.
  - now rewrite lookup_insert_ne.
Qed.

Lemma same_true t p t' p' : same t p t' p' = true <-> t = t' /\ p = p'.
Proof. unfold same. rewrite andb_true_iff, bool_decide_eq_true, Z.eqb_eq. tauto. Qed.
Lemma same_refl t p : same t p t p = true.
Proof. now apply same_true. Qed.

(** ** The trace projections on concatenations *)
Lemma tr_log_app t p a b : tr_log t p (a ++ b) = tr_log t p a ++ tr_log t p b.
Proof. apply flat_map_app. Qed.
Lemma tr_has_app t p a b : tr_has t p (a ++ b) = tr_has t p a || tr_has t p b.
Proof. apply existsb_app. Qed.
Lemma tr_topic_app t a b : tr_topic t (a ++ b) = tr_topic t a || tr_topic t b.
Proof. apply existsb_app. Qed.
Lemma writes_app c a b : writes c (a ++ b) = writes c a ++ writes c b.
Proof. apply flat_map_app. Qed.
Lemma reads_app c a b : reads c (a ++ b) = reads c a ++ reads c b.
Proof. apply flat_map_app. Qed.
Lemma frames_app c a b : frames c (a ++ b) = frames c a ++ frames c b.
Proof. apply flat_map_app. Qed.
Lemma crashed_app a b : crashed (a ++ b) = crashed a || crashed b.
Proof. apply existsb_app. Qed.
Lemma crashed_by_app c a b : crashed_by c (a ++ b) = crashed_by c a || crashed_by c b.
Proof. apply existsb_app. Qed.
Lemma tr_off_app t p g a b : tr_off t p g (a ++ b) = fold_left (off_step t p g) b (tr_off t p g a).
Proof. apply fold_left_app. Qed.

(** ** The store described by a trace *)
Record part_ok (os : list obs) (t : bytes) (p : Z) (kp : kpart) : Prop := {
  po_has : tr_has t p os = true;
  po_index : pIndex kp = p;
  po_error : pError kp = 0;
  po_meta : pMeta kp = None;
  po_recs : pRecs kp = tr_log t p os;
  po_off : forall g, offsetOf kp g = tr_off t p g os
}.
Record no_part (os : list obs) (t : bytes) (p : Z) : Prop := {
  np_has : tr_has t p os = false;
  np_recs : tr_log t p os = [];
  np_off : forall g, tr_off t p g os = 0
}.
Definition store_ok (os : list obs) (ds : store) : Prop :=
  (forall t, getTopic ds t = tr_topic t os) /\
  (forall t p, match lookupPart ds t p with
               | Some kp => part_ok os t p kp
               | None => no_part os t p
               end).

Lemma store_ok_init : store_ok [] new_store.
Proof.
  split.
  - intros t. unfold getTopic, new_store. now rewrite lookup_empty.
  - intros t p. unfold lookupPart, new_store. rewrite lookup_empty. now split.
Qed.

(** An observation that does not concern the store. *)
Definition neutral (o : obs) : Prop :=
  match o with OPosted _ _ _ _ | OTopic _ _ | OMade _ _ _ | OSet _ _ _ _ _ | OCommit _ _ _ _ _ => False | _ => True end.

Lemma neutral_log t p os : Forall neutral os -> tr_log t p os = [].
Proof. induction 1 as [|o os Ho _ IH]; [reflexivity|]. destruct o; try contradiction; exact IH. Qed.
Lemma neutral_has t p os : Forall neutral os -> tr_has t p os = false.
Proof. induction 1 as [|o os Ho _ IH]; [reflexivity|]. destruct o; try contradiction; exact IH. Qed.
Lemma neutral_topic t os : Forall neutral os -> tr_topic t os = false.
Proof. induction 1 as [|o os Ho _ IH]; [reflexivity|]. destruct o; try contradiction; exact IH. Qed.
Lemma neutral_off t p g os z : Forall neutral os -> fold_left (off_step t p g) os z = z.
Proof. intros H. revert z. induction H as [|o os Ho _ IH]; [reflexivity|]. intros z. destruct o; try contradiction; exact (IH z). Qed.

Lemma part_ok_neutral os l t p kp : Forall neutral l -> part_ok os t p kp -> part_ok (os ++ l) t p kp.
Proof.
  intros Hl []. split; auto.
  - now rewrite tr_has_app, po_has0.
  - now rewrite tr_log_app, (neutral_log _ _ l), app_nil_r.
  - intros g. now rewrite tr_off_app, neutral_off.
Qed.
Lemma no_part_neutral os l t p : Forall neutral l -> no_part os t p -> no_part (os ++ l) t p.
Proof.
  intros Hl []. split.
  - now rewrite tr_has_app, np_has0, (neutral_has _ _ l).
  - now rewrite tr_log_app, np_recs0, (neutral_log _ _ l).
  - intros g. now rewrite tr_off_app, neutral_off.
Qed.
Lemma store_ok_neutral os l ds : Forall neutral l -> store_ok os ds -> store_ok (os ++ l) ds.
Proof.
  intros Hl [H1 H2]. split.
  - intros t. now rewrite tr_topic_app, (neutral_topic _ l), orb_false_r.
  - intros t p. specialize (H2 t p). destruct (lookupPart ds t p).
    + now apply part_ok_neutral.
    + now apply no_part_neutral.
Qed.

Lemma store_ok_topic os ds i n : store_ok os ds -> store_ok (os ++ [OTopic i n]) (createTopic ds n).
Proof.
  intros [H1 H2]. split.
  - intros t. rewrite getTopic_createTopic, tr_topic_app, H1. cbn. rewrite orb_false_r. apply orb_comm.
  - intros t p. rewrite lookupPart_createTopic. specialize (H2 t p).
    destruct (lookupPart ds t p).
    + destruct H2. split; auto.
      * now rewrite tr_has_app, po_has0.
      * rewrite tr_log_app; cbn; now rewrite app_nil_r.
      * intros g. rewrite tr_off_app; cbn; auto.
    + destruct H2. split.
      * now rewrite tr_has_app, np_has0.
      * now rewrite tr_log_app, np_recs0.
      * intros g. rewrite tr_off_app; cbn; auto.
Qed.

Lemma store_ok_made os ds i n q : getTopic ds n = true -> store_ok os ds ->
  store_ok (os ++ [OMade i n q]) (createPartition ds n q).
Proof.
  intros Hn [H1 H2]. split.
  - intros t. rewrite getTopic_createPartition, tr_topic_app, H1. cbn. now rewrite orb_false_r.
  - intros t p. rewrite lookupPart_createPartition by assumption. specialize (H2 t p).
    destruct (lookupPart ds t p).
    + destruct H2. split; auto.
      * now rewrite tr_has_app, po_has0.
      * rewrite tr_log_app; cbn; now rewrite app_nil_r.
      * intros g. rewrite tr_off_app; cbn; auto.
    + destruct H2. destruct (same t p n q) eqn:E.
      * apply same_true in E as [-> ->]. split; try reflexivity.
        -- rewrite tr_has_app. cbn. now rewrite same_refl, orb_true_r.
        -- cbn. now rewrite tr_log_app, np_recs0.
        -- intros g. rewrite tr_off_app. cbn. rewrite np_off0. unfold offsetOf. cbn. now rewrite lookup_empty.
      * split.
        -- rewrite tr_has_app, np_has0. cbn. now rewrite E.
        -- now rewrite tr_log_app, np_recs0.
        -- intros g. rewrite tr_off_app; cbn; auto.
Qed.

Lemma store_ok_post os ds i n q r : hasPart ds n q = true -> store_ok os ds ->
  store_ok (os ++ [OPosted i n q r]) (postRecord ds n q r).
Proof.
  intros Hn [H1 H2]. split.
  - intros t. unfold postRecord. rewrite getTopic_updPart, tr_topic_app, H1. cbn. now rewrite orb_false_r.
  - intros t p. unfold postRecord. rewrite lookupPart_updPart. pose proof (H2 t p) as H3.
    destruct (lookupPart ds t p) eqn:El.
    + destruct H3. destruct (same t p n q) eqn:E.
      * split; cbn [pIndex pError pMeta pRecs]; auto.
        -- now rewrite tr_has_app, po_has0.
        -- rewrite tr_log_app. cbn. rewrite E. now rewrite po_recs0.
        -- intros g. rewrite tr_off_app. exact (po_off0 g).
      * split; auto.
        -- now rewrite tr_has_app, po_has0.
        -- rewrite tr_log_app. cbn. now rewrite E, app_nil_r.
        -- intros g. rewrite tr_off_app; cbn; auto.
    + destruct H3. assert (E : same t p n q = false).
      { destruct (same t p n q) eqn:E; [|reflexivity]. apply same_true in E as [-> ->].
        unfold hasPart in Hn. now rewrite El in Hn. }
      split.
      * now rewrite tr_has_app, np_has0.
      * rewrite tr_log_app, np_recs0. cbn. now rewrite E.
      * intros g. rewrite tr_off_app; cbn; auto.
Qed.

Lemma offsetOf_insert i e r m l g o g' :
  offsetOf (Part i e r (<[g := o]> m) l) g' = if bool_decide (g' = g) then o else offsetOf (Part i e r m l) g'.
Proof.
  unfold offsetOf. cbn. destruct (decide (g' = g)) as [->|H].
  - now rewrite lookup_insert, bool_decide_true.
  - now rewrite lookup_insert_ne, bool_decide_false by congruence.
Qed.
Lemma part_eta kp : Part (pIndex kp) (pError kp) (pRecs kp) (pOffs kp) (pMeta kp) = kp.
Proof. now destruct kp. Qed.

Lemma lookupPart_setOffset ds n q g o t p :
  lookupPart (setOffset ds n q g o) t p =
  match lookupPart ds t p with
  | Some kp => Some (if same t p n q
       then Part (pIndex kp) (pError kp) (pRecs kp) (<[g := o]> (pOffs kp)) (pMeta kp) else kp)
  | None => None end.
Proof. apply lookupPart_updPart. Qed.

(** An offset update described by an observation. *)
Lemma store_ok_upd os ds n q f ob :
  hasPart ds n q = true ->
  (forall t, tr_topic t [ob] = false) -> (forall t p, tr_has t p [ob] = false) ->
  (forall t p, tr_log t p [ob] = []) ->
  (forall t p g z, same t p n q = false -> off_step t p g z ob = z) ->
  (forall kp, lookupPart ds n q = Some kp ->
     pIndex (f kp) = pIndex kp /\ pError (f kp) = pError kp /\ pMeta (f kp) = pMeta kp /\ pRecs (f kp) = pRecs kp /\
     forall g, offsetOf (f kp) g = off_step n q g (offsetOf kp g) ob) ->
  store_ok os ds -> store_ok (os ++ [ob]) (updPart ds n q f).
Proof.
  intros Hn Ht Hh Hl Ho Hf [H1 H2]. split.
  - intros t. rewrite getTopic_updPart, tr_topic_app, H1, Ht. now rewrite orb_false_r.
  - intros t p. rewrite lookupPart_updPart. pose proof (H2 t p) as H3.
    destruct (lookupPart ds t p) as [kp|] eqn:El.
    + destruct H3. destruct (same t p n q) eqn:E.
      * apply same_true in E as [-> ->]. destruct (Hf kp El) as (E1 & E2 & E3 & E4 & E5).
        split.
        -- now rewrite tr_has_app, po_has0.
        -- congruence.
        -- congruence.
        -- congruence.
        -- rewrite tr_log_app, Hl, app_nil_r. congruence.
        -- intros g. rewrite E5, tr_off_app, po_off0. reflexivity.
      * split; auto.
        -- now rewrite tr_has_app, po_has0.
        -- now rewrite tr_log_app, Hl, app_nil_r.
        -- intros g. rewrite tr_off_app. cbn [fold_left]. now rewrite Ho, po_off0.
    + destruct H3. assert (E : same t p n q = false).
      { destruct (same t p n q) eqn:E; [|reflexivity]. apply same_true in E as [-> ->].
        unfold hasPart in Hn. now rewrite El in Hn. }
      split.
      * now rewrite tr_has_app, np_has0, Hh.
      * now rewrite tr_log_app, np_recs0, Hl.
      * intros g. rewrite tr_off_app. cbn [fold_left]. now rewrite Ho, np_off0.
Qed.

Lemma store_ok_set os ds i n q g o : hasPart ds n q = true -> store_ok os ds ->
  store_ok (os ++ [OSet i n q g o]) (setOffset ds n q g o).
Proof.
  intros Hn. apply store_ok_upd; try reflexivity; auto.
  - intros t p g' z E. cbn. now rewrite E.
  - intros kp _. cbn. repeat split. intros g'. rewrite offsetOf_insert, part_eta, same_refl. reflexivity.
Qed.

Lemma updPart_same ds n q f kp : lookupPart ds n q = Some kp -> f kp = kp -> updPart ds n q f = ds.
Proof.
  unfold lookupPart, updPart. destruct (ds !! n) as [kt|] eqn:En; [|reflexivity].
  intros Hq Hf. rewrite Hq, Hf. rewrite (insert_id kt) by assumption. now apply insert_id.
Qed.

Lemma store_ok_commit os ds c n q g o : hasPart ds n q = true -> store_ok os ds ->
  store_ok (os ++ [OCommit c n q g o]) (commitOffset ds n q g o).
Proof.
  intros Hn Hs. unfold hasPart in Hn. destruct (lookupPart ds n q) as [kp|] eqn:El; [|discriminate].
  unfold commitOffset. rewrite El.
  destruct (offsetOf kp g <? o) eqn:Ec.
  - apply store_ok_upd; try reflexivity; auto.
    + unfold hasPart. now rewrite El.
    + intros t p g' z E. cbn. now rewrite E.
    + intros kp' Hk. rewrite El in Hk. injection Hk as <-. cbn. repeat split.
      intros g'. rewrite offsetOf_insert, part_eta, same_refl. cbn.
      destruct (decide (g' = g)) as [->|Hg].
      * rewrite bool_decide_true by reflexivity. lia.
      * now rewrite bool_decide_false by assumption.
  - rewrite <- (updPart_same ds n q (fun k => k) kp El eq_refl).
    apply store_ok_upd; try reflexivity; auto.
    + unfold hasPart. now rewrite El.
    + intros t p g' z E. cbn. now rewrite E.
    + intros kp' Hk. rewrite El in Hk. injection Hk as <-. repeat split.
      intros g'. cbn. rewrite same_refl. cbn.
      destruct (decide (g' = g)) as [->|Hg].
      * rewrite bool_decide_true by reflexivity. lia.
      * now rewrite bool_decide_false by assumption.
Qed.

Lemma store_ok_touch os ds n q g : store_ok os ds -> store_ok os (touchGroup ds n q g).
Proof.
  intros [H1 H2]. unfold touchGroup. destruct (lookupPart ds n q) as [kp|] eqn:El; [|now split].
  destruct (pOffs kp !! g) eqn:Eg; [now split|]. split.
  - intros t. unfold setOffset. rewrite getTopic_updPart. apply H1.
  - intros t p. rewrite lookupPart_setOffset. pose proof (H2 t p) as H3.
    destruct (lookupPart ds t p) as [kp'|] eqn:El'; [|assumption].
    destruct (same t p n q) eqn:E; [|assumption].
    apply same_true in E as [-> ->]. rewrite El in El'. injection El' as <-.
    destruct H3. split; auto. intros g'. rewrite offsetOf_insert, part_eta.
    destruct (decide (g' = g)) as [->|Hg].
    + rewrite bool_decide_true by reflexivity. rewrite <- po_off0. unfold offsetOf. now rewrite Eg.
    + now rewrite bool_decide_false by assumption.
Qed.

(** ** Nothing ever disappears *)
Definition grows (ds ds' : store) : Prop :=
  (forall t, getTopic ds t = true -> getTopic ds' t = true) /\
  (forall t p, hasPart ds t p = true -> hasPart ds' t p = true).

Lemma grows_refl ds : grows ds ds.
Proof. now split. Qed.
Lemma grows_createTopic ds n : grows ds (createTopic ds n).
Proof.
  split; intros t.
  - intros H. now rewrite getTopic_createTopic, H, orb_true_r.
  - intros p. unfold hasPart. now rewrite lookupPart_createTopic.
Qed.
Lemma grows_updPart ds n q f : grows ds (updPart ds n q f).
Proof.
  split; intros t.
  - now rewrite getTopic_updPart.
  - intros p. unfold hasPart. rewrite lookupPart_updPart. now destruct (lookupPart ds t p).
Qed.
Lemma grows_createPartition ds n q : grows ds (createPartition ds n q).
Proof.
  split; intros t.
  - now rewrite getTopic_createPartition.
  - intros p. destruct (getTopic ds n) eqn:E.
    + unfold hasPart. rewrite lookupPart_createPartition by assumption. now destruct (lookupPart ds t p).
    + unfold createPartition, getTopic in *. now destruct (ds !! n).
Qed.
Lemma grows_touch ds n q g : grows ds (touchGroup ds n q g).
Proof.
  unfold touchGroup. destruct (lookupPart ds n q); [|apply grows_refl].
  destruct (_ !! _); [apply grows_refl|apply grows_updPart].
Qed.
Lemma grows_commit ds n q g o : grows ds (commitOffset ds n q g o).
Proof.
  unfold commitOffset. destruct (lookupPart ds n q); [|apply grows_refl].
  destruct (_ <? _); [apply grows_updPart|apply grows_refl].
Qed.
