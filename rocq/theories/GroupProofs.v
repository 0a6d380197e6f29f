(** * GroupProofs: no record is passed over by a group's offset *)
From Verif Require Export GroupSpec ConsumerProofs.
From stdpp Require Import gmap list.
From Coq Require Import ZifyBool ZifyNat.
Open Scope Z_scope.
Open Scope list_scope.

Lemma nth_slice {A} (l : list A) n k j y : nth_error (firstn n (skipn k l)) j = Some y -> nth_error l (k + j) = Some y.
Proof.
  revert k j l. induction n as [|n IH]; intros k j l H; [now destruct j|]. revert l H. induction k as [|k IHk]; intros l H.
  - destruct l as [|x l]; [now destruct j|]. destruct j as [|j]; [exact H|]. cbn in H |- *. exact (IH 0%nat j l H).
  - destruct l as [|x l]; [now destruct j|]. exact (IHk l H).
Qed.

Section Group.
Context (port : Z) (ch : list nat) (t : bytes) (p : Z) (g : bytes).

Lemma batch_right A2 o batch A2' A : gets_batch port ch t p A2 o batch A2' -> 0 <= o -> posts_small A -> A2' `prefix_of` A ->
  (exists evs s, run (init port ch) evs = (s, A)) ->
  batch = firstn (length batch) (skipn (Z.to_nat o) (map msg_of_rec (tr_log t p A))).
Proof.
  intros Hb Hpos Hsm H3 (evs & s & Hrun).
  assert (HsmB : posts_small A2').
  { intros i t' p' r' Hi2. apply (Hsm i t' p' r'). destruct H3 as [k ->]. apply in_or_app. now left. }
  destruct (gets_right _ _ _ _ _ _ _ _ Hb Hpos HsmB) as (rs & Y1 & Y2 & HY1 & HY2 & HY3 & Henc & Hrs & Hsome).
  assert (Hlegal : Forall rec_legal rs).
  { apply List.Forall_forall. intros r Hr. assert (Hr' : In r (tr_log t p A)).
    { rewrite Hrs in Hr. destruct (tr_log_prefix t p Y2 A) as [l ->]; [etransitivity; eauto|]. apply in_or_app. left.
      rewrite <- (firstn_skipn (Z.to_nat o) (tr_log t p Y2)). apply in_or_app. right.
      rewrite <- (firstn_skipn (length rs) (skipn _ _)). apply in_or_app. now left. }
    apply log_posted in Hr' as [i Hr']. split; [now apply (Hsm _ _ _ _ Hr')|].
    destruct (run64 _ _ _ _ (init64 _ _) Hrun) as [_ Ho]. rewrite List.Forall_forall in Ho. apply int64_l. exact (Ho _ Hr'). }
  assert (Hmsgs : map msg_of_rec (map rec_of_msg batch) = map msg_of_rec rs).
  { apply (w_records_inj _ _ o); [|assumption..].
    destruct Hb as (? & ? & ? & ? & ? & ? & ? & ? & ? & _ & _ & _ & Hok & _).
    apply Forall_map. eapply Forall_impl; [exact Hok|]. intros y [? ?]. now split. }
  rewrite map_map in Hmsgs. rewrite (map_ext _ (fun x => x) rec_msg), map_id in Hmsgs.
  assert (Hlen : length batch = length rs) by (rewrite Hmsgs; apply map_length).
  destruct (tr_log_prefix t p Y2 A) as [l ->]; [etransitivity; eauto|].
  rewrite <- map_firstn_skipn, Hlen, <- (firstn_grow rs _ _ _ Hrs). exact Hmsgs.
Qed.

(** ** The step that takes up a request *)
Lemma run_at_frame evs : forall s s' A c m B, run s evs = (s', A ++ OFrame c m :: B) ->
  exists e1 s1 ev s2 o e2 B', run s e1 = (s1, A) /\ step s1 ev = (s2, OFrame c m :: o) /\ run s2 e2 = (s', B') /\ B = o ++ B' /\
    (forall x, In x o -> x = OCrash c).
Proof.
  induction evs as [|ev evs IH]; intros s s' A c m B H.
  - cbn in H. injection H as _ H. now destruct A.
  - cbn [run] in H. destruct (step s ev) as [s1 o1] eqn:E1. destruct (run s1 evs) as [s2 o2] eqn:E2. injection H as <- H.
    destruct (decide (length o1 <= length A)%nat) as [Hle|Hgt].
    + assert (exists A', A = o1 ++ A') as [A' ->].
      { exists (skipn (length o1) A). rewrite <- (firstn_skipn (length o1) A) at 1. f_equal.
        apply (f_equal (firstn (length o1))) in H. rewrite !firstn_app, Nat.sub_diag, firstn_all in H.
        replace (length o1 - length A)%nat with 0%nat in H by lia. rewrite !firstn_O, !app_nil_r in H. now symmetry. }
      rewrite <- app_assoc in H. apply app_inv_head in H. subst o2.
      destruct (IH _ _ _ _ _ _ E2) as (e1 & s3 & ev' & s4 & o & e2 & B' & R1 & R2 & R3 & R4 & R5).
      exists (ev :: e1), s3, ev', s4, o, e2, B'. split; [|auto]. cbn [run]. now rewrite E1, R1.
    + assert (Hin : In (OFrame c m) o1).
      { apply (f_equal (fun l => nth_error l (length A))) in H. rewrite nth_error_app1 in H by lia.
        rewrite nth_error_app2, Nat.sub_diag in H by lia. cbn in H. now apply nth_error_In in H. }
      assert (Hfr : frames c o1 <> []).
      { intros Hx. assert (In m (frames c o1)); [|now rewrite Hx in *].
        unfold frames. apply in_flat_map. exists (OFrame c m). split; [assumption|]. rewrite Nat.eqb_refl. now left. }
      destruct (step_frame _ _ _ _ c E1 Hfr) as (inb & msg & rest & ch' & -> & _ & _ & _ & K).
      destruct K as [(corr & extra & tk & _ & -> & _)|(_ & -> & _)].
      * destruct A as [|a A]; [|cbn in Hgt; lia]. cbn in H. injection H as -> ->.
        exists [], s, (EvConn c ch'), s1, [], evs, B. split; [reflexivity|]. split; [assumption|]. split; [assumption|]. split; [reflexivity|]. intros ? [].
      * destruct A as [|a [|? ?]]; cbn in Hgt; try lia; cbn in H.
        -- injection H as -> <-. exists [], s, (EvConn c ch'), s1, [OCrash c], evs, o2. split; [reflexivity|]. split; [assumption|].
           split; [assumption|]. split; [reflexivity|]. intros x [<-|[]]. reflexivity.
        -- injection H as <- H _. discriminate H.
Qed.
Lemma commit_value A c m E2 y D2 t' p' g' o evs s :
  run (init port ch) evs = (s, A ++ OFrame c m :: E2 ++ OCommit c t' p' g' y :: D2) -> frames c E2 = [] ->
  asks_commit t p g m o -> y = o.
Proof.
  intros Hr Hf (corr & client & gen & mem & ret & md & Hh & Hl & Hz & ->).
  destruct (run_at_frame _ _ _ _ _ _ _ Hr) as (e1 & s1 & ev & s2 & ob & e2 & B & R1 & R2 & R3 & R4 & R5).
  assert (Hs : serving port ch A c (w_request 8 2 corr client (w_commit_req g gen mem ret [(t, [(p, o, md)])])) s2) by (exists e1, s1, ev, ob; auto).
  assert (Hin : In (OCommit c t' p' g' y) (until_frame c B)).
  { assert (U : forall E F, frames c E = [] -> In (OCommit c t' p' g' y) (until_frame c (E ++ OCommit c t' p' g' y :: F))).
    { clear. induction E as [|x E IH]; intros F H; [now left|]. cbn [app until_frame].
      destruct x; cbn in H |- *; try (right; apply IH; exact H). destruct (Nat.eqb c c0); [discriminate|]. right. now apply IH. }
    destruct (decide (length ob <= length E2)%nat) as [Hle|Hgt].
    - assert (exists E', E2 = ob ++ E') as [E' ->].
      { exists (skipn (length ob) E2). rewrite <- (firstn_skipn (length ob) E2) at 1. f_equal.
        apply (f_equal (firstn (length ob))) in R4. rewrite !firstn_app, Nat.sub_diag, firstn_all in R4.
        replace (length ob - length E2)%nat with 0%nat in R4 by lia. rewrite !firstn_O, !app_nil_r in R4. exact R4. }
      rewrite <- app_assoc in R4. apply app_inv_head in R4. subst B. apply U. unfold frames in *. rewrite flat_map_app in Hf. now apply app_eq_nil in Hf.
    - exfalso. assert (In (OCommit c t' p' g' y) ob).
      { apply (f_equal (fun l => nth_error l (length E2))) in R4. rewrite (nth_error_app1 ob) in R4 by lia.
        rewrite nth_error_app2, Nat.sub_diag in R4 by lia. cbn in R4. symmetry in R4. now apply nth_error_In in R4. }
      now apply R5 in H. }
  assert (Hb : beginRequest port (w_request 8 2 corr client (w_commit_req g gen mem ret [(t, [(p, o, md)])])) =
     Some (corr, [], TkCommit (mk_commit_req g gen mem ret [(t, [(p, o, md)])]) (plan (mk_topics mk_commit_part [(t, [(p, o, md)])])) None None [])).
  { rewrite begin_request by assumption. change (dispatch 8 2) with (Some ApiOffsetCommit). cbn [startApi].
    rewrite <- (app_nil_r (w_commit_req _ _ _ _ _)).
    rewrite (with_req_good _ _ _ _ _ [] _ (commit_good _ _ _ _ _ Hl)) by (try assumption; apply commit_req_of_val).
    reflexivity. }
  destruct (serving_inv _ _ _ _ _ _ _ _ _ Hs Hb) as (inb & Hk & _).
  refine (task_run (commit_of o) (commit_ok_obs o) c e2 _ (commit_of_tstep o c) s2 s B _ Hk _ R3 _ Hin eq_refl).
  - intros [] Hx; cbn in *; tauto.
  - cbn. split; [|discriminate]. intros q [Hq|[Hq|[]]]; [discriminate|]. now injection Hq as <-.
Qed.

(** ** The offset only grows *)
Definition commits64 (D : list obs) : Prop := forall x, In x D -> moves t p g x -> exists c y, x = OCommit c t p g y /\ l_i64 y = true.
Lemma off_up D : commits64 D -> forall z, l_i64 z = true -> z <= fold_left (off_step t p g) D z /\ l_i64 (fold_left (off_step t p g) D z) = true.
Proof.
  induction D as [|x D IH]; intros H z Hz; [split; [cbn; lia|assumption]|]. cbn [fold_left].
  assert (Hx : z <= off_step t p g z x /\ l_i64 (off_step t p g z x) = true).
  { specialize (H x (or_introl eq_refl)). destruct x; cbn in H |- *; try (split; [lia|assumption]);
     (destruct (same t p t0 p0 && bool_decide (g = g0)) eqn:E; [|split; [lia|assumption]];
      apply andb_true_iff in E as [E1 E2]; apply same_true in E1 as [-> ->]; apply bool_decide_eq_true in E2 as ->;
      destruct (H eq_refl) as (c' & y & Hy & Hl)); [discriminate|]. injection Hy as -> ->. unfold l_i64 in *. lia. }
  destruct Hx as [Hx1 Hx2]. destruct (IH ltac:(intros y Hy; apply H; now right) _ Hx2). split; [lia|assumption].
Qed.
Lemma careful_64 A0 D evs s : run (init port ch) evs = (s, A0 ++ D) -> careful port ch t p g A0 D -> commits64 D.
Proof.
  intros Hr Hc x Hin Hm. apply in_split in Hin as (D1 & D2 & ->). destruct (Hc D1 x D2 eq_refl Hm) as (c & y & E1 & m & E2 & o & b & -> & -> & Hf & Ha & _).
  exists c, y. split; [reflexivity|].
  rewrite <- app_assoc in Hr. cbn in Hr. rewrite app_assoc in Hr. rewrite (commit_value _ _ _ _ _ _ _ _ _ _ _ _ Hr Hf Ha).
  destruct Ha as (corr & client & gen & mem & ret & md & _ & Hl & _). unfold l_commit, l_topics in Hl. cbn in Hl. clear - Hl. unfold l_i64 in *. lia.
Qed.
Lemma careful_app A0 D E : careful port ch t p g A0 (D ++ E) -> careful port ch t p g A0 D.
Proof. intros H D1 x D2 -> Hm. apply (H D1 x (D2 ++ E)); [|assumption]. now rewrite <- app_assoc. Qed.

Lemma has_read_prefix A0 A A' o b : has_read port ch t p g A0 A o b -> A `prefix_of` A' -> has_read port ch t p g A0 A' o b.
Proof. intros (A1 & A1' & A2 & A2' & H1 & H2 & H3 & H4 & H5) H. exists A1, A1', A2, A2'. split_and!; auto. etransitivity; eauto. Qed.

Lemma has_read_right A0 D o batch evs s : run (init port ch) evs = (s, A0 ++ D) -> careful port ch t p g A0 D -> posts_small (A0 ++ D) ->
  0 <= tr_off t p g A0 -> l_i64 (tr_off t p g A0) = true -> has_read port ch t p g A0 (A0 ++ D) o batch ->
  tr_off t p g A0 <= o <= tr_off t p g (A0 ++ D) /\ batch = firstn (length batch) (skipn (Z.to_nat o) (map msg_of_rec (tr_log t p (A0 ++ D)))).
Proof.
  intros Hr Hc Hsm Hpos H64 (A1 & A1' & A2 & A2' & H1 & Hq & H12 & Hb & H2).
  destruct (asks_right _ _ _ _ _ _ _ _ Hq) as (X & HX1 & HX2 & HX).
  assert (P1 : A0 `prefix_of` X) by (etransitivity; eauto).
  assert (P2 : X `prefix_of` (A0 ++ D)).
  { etransitivity; [exact HX2|]. etransitivity; [exact H12|]. etransitivity; [eapply gets_prefix, Hb|exact H2]. }
  destruct P1 as [D1 ->]. destruct P2 as [D2 E]. rewrite <- app_assoc in E. apply app_inv_head in E. subst D.
  pose proof (careful_64 _ _ _ _ Hr Hc) as H6.
  destruct (off_up D1 ltac:(intros x Hx; apply H6; apply in_or_app; now left) _ H64) as [K1 K2].
  destruct (off_up D2 ltac:(intros x Hx; apply H6; apply in_or_app; now right) _ K2) as [K3 K4].
  assert (o = tr_off t p g (A0 ++ D1)) as ->.
  { apply w_int64_inj; [now destruct Hq as (? & ? & ? & ? & ? & _ & _ & _ & Ho & _)| |assumption]. unfold tr_off. rewrite fold_left_app. exact K2. }
  assert (E1 : tr_off t p g (A0 ++ D1) = fold_left (off_step t p g) D1 (tr_off t p g A0)) by (unfold tr_off; now rewrite fold_left_app).
  assert (E2 : tr_off t p g (A0 ++ D1 ++ D2) = fold_left (off_step t p g) D2 (fold_left (off_step t p g) D1 (tr_off t p g A0))) by (unfold tr_off; now rewrite !fold_left_app).
  split; [rewrite E1, E2; lia|]. eapply batch_right; eauto. rewrite E1. lia.
Qed.

(** Whatever the offset has passed somebody has received. *)
Lemma group_received A0 D evs s : run (init port ch) evs = (s, A0 ++ D) -> careful port ch t p g A0 D -> posts_small (A0 ++ D) ->
  0 <= tr_off t p g A0 -> l_i64 (tr_off t p g A0) = true ->
  forall i, tr_off t p g A0 <= i < tr_off t p g (A0 ++ D) ->
  exists o batch, has_read port ch t p g A0 (A0 ++ D) o batch /\ o <= i < o + zlen batch.
Proof.
  intros Hr Hc Hsm Hpos H64. pose proof (careful_64 _ _ _ _ Hr Hc) as H6.
  enough (G : forall E F, D = E ++ F -> forall i, tr_off t p g A0 <= i < tr_off t p g (A0 ++ E) ->
     exists o batch, has_read port ch t p g A0 (A0 ++ D) o batch /\ o <= i < o + zlen batch).
  { apply (G D []). now rewrite app_nil_r. }
  induction E as [|x E IH] using rev_ind; intros F EF i Hi; [rewrite app_nil_r in Hi; lia|].
  rewrite <- app_assoc in EF. cbn in EF. specialize (IH (x :: F) EF i).
  assert (K : forall Y Z', D = Y ++ Z' -> l_i64 (tr_off t p g (A0 ++ Y)) = true).
  { intros Y Z' ->. destruct (off_up Y ltac:(intros y Hy; apply H6; apply in_or_app; now left) _ H64) as [_ K]. unfold tr_off. rewrite fold_left_app. exact K. }
  assert (E1 : tr_off t p g (A0 ++ E ++ [x]) = off_step t p g (tr_off t p g (A0 ++ E)) x).
  { unfold tr_off. now rewrite !app_assoc, fold_left_app. }
  rewrite E1 in Hi. destruct (decide (i < tr_off t p g (A0 ++ E))) as [Hlt|Hge]; [apply IH; lia|].
  assert (Hm : moves t p g x).
  { destruct x; cbn in Hi |- *; try lia;
     (destruct (same t p t0 p0 && bool_decide (g = g0)) eqn:Eq; [|lia]; apply andb_true_iff in Eq as [Q1 Q2];
      apply same_true in Q1 as [-> ->]; apply bool_decide_eq_true in Q2 as ->; reflexivity). }
  destruct (Hc E x F EF Hm) as (c & y & F1 & m & F2 & o & b & -> & -> & Hf & Ha & Hfe).
  assert (y = o + zlen b) as ->.
  { subst D. rewrite <- app_assoc in Hr. cbn in Hr. rewrite app_assoc in Hr. exact (commit_value _ _ _ _ _ _ _ _ _ _ _ _ Hr Hf Ha). }
  exists o, b. split; [eapply has_read_prefix; [exact Hfe|]; subst D; rewrite <- !app_assoc; exists (OFrame c m :: F2 ++ OCommit c t p g (o + zlen b) :: F); now rewrite <- !app_assoc|].
  cbn in Hi. rewrite same_refl, bool_decide_true in Hi by reflexivity. cbn in Hi.
  assert (o <= tr_off t p g (A0 ++ F1 ++ OFrame c m :: F2)); [|lia].
  destruct Hfe as (A1 & A1' & A2 & A2' & H1 & Hq & H12 & Hb & H2).
  destruct (asks_right _ _ _ _ _ _ _ _ Hq) as (X & HX1 & HX2 & HX).
  assert (P1 : A0 `prefix_of` X) by (etransitivity; eauto).
  assert (P2 : X `prefix_of` (A0 ++ F1)).
  { etransitivity; [exact HX2|]. etransitivity; [exact H12|]. etransitivity; [eapply gets_prefix, Hb|exact H2]. }
  destruct P1 as [D1 ->]. destruct P2 as [D2 E3]. rewrite <- app_assoc in E3. apply app_inv_head in E3. subst F1.
  assert (o = tr_off t p g (A0 ++ D1)) as ->.
  { apply w_int64_inj; [now destruct Hq as (? & ? & ? & ? & ? & _ & _ & _ & Ho & _)| |assumption]. eapply K. rewrite EF, <- !app_assoc. reflexivity. }
  assert (K1 : l_i64 (tr_off t p g (A0 ++ D1)) = true) by (eapply K; rewrite EF, <- !app_assoc; reflexivity).
  destruct (off_up (D2 ++ OFrame c m :: F2)) with (z := tr_off t p g (A0 ++ D1)) as [K3 _]; [|exact K1|].
  { intros z Hz. apply H6. subst D. rewrite <- !app_assoc. apply in_app_iff in Hz. cbn in Hz. rewrite !in_app_iff. cbn. rewrite ?in_app_iff. tauto. }
  unfold tr_off in *. rewrite <- fold_left_app, <- !app_assoc in K3. rewrite <- !app_assoc. exact K3.
Qed.

Theorem group_complete A0 D evs s : run (init port ch) evs = (s, A0 ++ D) -> careful port ch t p g A0 D -> posts_small (A0 ++ D) ->
  0 <= tr_off t p g A0 -> l_i64 (tr_off t p g A0) = true ->
  tr_off t p g A0 <= tr_off t p g (A0 ++ D) /\
  (forall o batch, has_read port ch t p g A0 (A0 ++ D) o batch ->
     tr_off t p g A0 <= o <= tr_off t p g (A0 ++ D) /\ batch = firstn (length batch) (skipn (Z.to_nat o) (map msg_of_rec (tr_log t p (A0 ++ D))))) /\
  forall i, tr_off t p g A0 <= i < tr_off t p g (A0 ++ D) ->
    exists o batch x, has_read port ch t p g A0 (A0 ++ D) o batch /\ o <= i < o + zlen batch /\
      nth_error (tr_log t p (A0 ++ D)) (Z.to_nat i) = Some x /\ nth_error batch (Z.to_nat (i - o)) = Some (msg_of_rec x).
Proof.
  intros Hr Hc Hsm Hpos H64. split; [|split].
  - destruct (off_up D (careful_64 _ _ _ _ Hr Hc) _ H64) as [K _]. unfold tr_off in *. rewrite fold_left_app. exact K.
  - intros o b. eapply has_read_right; eauto.
  - intros i Hi. destruct (group_received _ _ _ _ Hr Hc Hsm Hpos H64 i Hi) as (o & b & Hf & Ho).
    destruct (has_read_right _ _ _ _ _ _ Hr Hc Hsm Hpos H64 Hf) as [Hoo Hb].
    destruct (nth_error b (Z.to_nat (i - o))) as [y|] eqn:E.
    2: { apply nth_error_None in E. unfold zlen in Ho. lia. }
    assert (E2 : nth_error (map msg_of_rec (tr_log t p (A0 ++ D))) (Z.to_nat i) = Some y).
    { rewrite Hb in E. apply nth_slice in E. rewrite <- E. f_equal. lia. }
    rewrite nth_error_map in E2. destruct (nth_error (tr_log t p (A0 ++ D)) (Z.to_nat i)) as [x|] eqn:Ex; [|discriminate].
    injection E2 as <-. exists o, b, x. auto.
Qed.
End Group.
