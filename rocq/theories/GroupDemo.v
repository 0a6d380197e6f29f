(** * GroupDemo: a consumer that stops before committing, and another *)
From Verif Require Export GroupProofs ConsumerDemo.
From stdpp Require Import gmap list.
From Coq Require Import ZifyBool.
Open Scope Z_scope.
Open Scope list_scope.

(** Reading on connection c from offset o. *)
Section Read.
Context (t : bytes) (p : Z) (g : bytes) (c : nat) (e : list event) (x : list event) (o : Z) (batch : list msg).
Definition read_check : bool :=
  l_off g [(t, [p])] && (zlen (w_off_req g [(t, [p])]) <=? 4096) && l_i64 o &&
  dialogue_check 9092 [] (r1 t p g c e x) c ch0 (turns c 20) (req1 t p g) (w_reply 1 (w_off_resp [(t, [(p, o, None, 0)])])) &&
  (l_fetch (-1) 100 1 [(t, [(p, o, 10000)])] && (zlen (w_fetch_req (-1) 100 1 [(t, [(p, o, 10000)])]) <=? 4096) &&
   forallb msgb batch &&
   dialogue_check 9092 [] (r2 t p g c e x o) c ch0 (turns c 20) (req2 t p o)
     (w_reply 2 (w_fetch_resp 0 [(t, [(p, 0, o + zlen batch, w_records o (map rec_of_msg batch))])]))).
Lemma read_intro : read_check = true -> has_read 9092 [] t p g (trace_of e) (trace_of (r2' t p g c e x o)) o batch.
Proof.
  intros Hc. unfold read_check in Hc.
  repeat match goal with Hx : _ && _ = true |- _ => apply andb_true_iff in Hx as [Hx ?] end.
  repeat match goal with Hx : dialogue_check _ _ _ _ _ _ _ _ = true |- _ => apply dialogue_intro in Hx end.
  exists (trace_of (r1 t p g c e x)), (trace_of (r1' t p g c e x)), (trace_of (r2 t p g c e x o)), (trace_of (r2' t p g c e x o)).
  split; [apply trace_prefix|]. split; [|split; [apply trace_prefix|split; [|reflexivity]]].
  - exists c, 1, clientA, None, 0. split; [reflexivity|]. split; [assumption|]. split; [lia|]. split; assumption.
  - exists c, 2, clientA, (-1), 100, 1, 10000, 0, (o + zlen batch). split; [reflexivity|]. split; [assumption|]. split; [lia|].
    split; [|assumption]. apply List.Forall_forall. intros m Hm.
    match goal with Hf : forallb msgb batch = true |- _ => rewrite forallb_forall in Hf; specialize (Hf m Hm); unfold msgb in Hf; apply andb_true_iff in Hf as [? Hf]; split; [assumption|lia] end.
Qed.
End Read.

Definition g_half : list event := r2' topicA 2 groupA 0 demo_setup [] 1.
Definition g_hello : list event := [EvAccept; EvConn 1 ch0].
Definition g_read : list event := r2' topicA 2 groupA 1 g_half g_hello 1.
Definition g_asked : list event := r3 topicA 2 groupA 1 g_half g_hello 1 batch1.
Definition g_full : list event := r3' topicA 2 groupA 1 g_half g_hello 1 batch1.
Definition tail_of (a b : list event) : list obs := skipn (length (trace_of a)) (trace_of b).
Lemma tail_app a b : trace_of (a ++ b) = trace_of a ++ tail_of a (a ++ b).
Proof. unfold tail_of. rewrite trace_app, skipn_app, Nat.sub_diag, skipn_all. reflexivity. Qed.
Lemma one_split {A} (P : A -> Prop) (a : list A) x b c y d : (forall z, In z a -> ~ P z) -> (forall z, In z b -> ~ P z) ->
  a ++ x :: b = c ++ y :: d -> P y -> c = a /\ y = x /\ d = b.
Proof.
  revert c. induction a as [|u a IH]; intros c Ha Hb E Py.
  - destruct c as [|v c]; cbn in E; injection E as E1 E2; [auto|]. subst. exfalso. apply (Hb y); [|assumption]. apply in_or_app. right. now left.
  - destruct c as [|v c]; cbn in E; injection E as E1 E2.
    + subst. exfalso. apply (Ha y); [now left|assumption].
    + subst. destruct (IH c) as (-> & -> & ->); auto. intros z Hz. apply Ha. now right.
Qed.

Lemma g_reads : has_read 9092 [] topicA 2 groupA (trace_of demo_setup) (trace_of g_half) 1 batch1 /\
  has_read 9092 [] topicA 2 groupA (trace_of g_half) (trace_of g_read) 1 batch1.
Proof. split; apply read_intro; vm_compute; reflexivity. Qed.

Definition cut_move (l : list obs) : list obs * list obs :=
  (fix go l := match l with [] => ([], []) | x :: l' => if movesb topicA 2 groupA x then ([], l) else let '(a, b) := go l' in (x :: a, b) end) l.
Lemma g_shape : exists E2 D2, tail_of demo_setup g_full =
    tail_of demo_setup g_asked ++ OFrame 1 (req3 topicA 2 groupA 2) :: E2 ++ OCommit 1 topicA 2 groupA 2 :: D2 /\ frames 1 E2 = [] /\
  forallb (fun y => negb (movesb topicA 2 groupA y)) (tail_of demo_setup g_asked ++ OFrame 1 (req3 topicA 2 groupA 2) :: E2) = true /\
  forallb (fun y => negb (movesb topicA 2 groupA y)) D2 = true.
Proof.
  set (r := skipn (S (length (tail_of demo_setup g_asked))) (tail_of demo_setup g_full)).
  exists (fst (cut_move r)), (tl (snd (cut_move r))). vm_compute. auto.
Qed.
(** The pieces put together, for any traces. *)
Lemma group_pieces (t : bytes) (p : Z) (g : bytes) (m : bytes) (y : Z) b S0 H R K F X1 X2 X3 X4 E2 D2 :
  S0 ++ X1 = H -> H ++ X2 = F -> S0 ++ X3 = F -> S0 ++ X4 = K -> H `prefix_of` R -> R `prefix_of` K -> K `prefix_of` F ->
  has_read 9092 [] t p g S0 H y b -> has_read 9092 [] t p g H R y b ->
  X3 = X4 ++ OFrame 1 m :: E2 ++ OCommit 1 t p g (y + zlen b) :: D2 -> frames 1 E2 = [] ->
  forallb (fun y => negb (movesb t p g y)) (X4 ++ OFrame 1 m :: E2) = true -> forallb (fun y => negb (movesb t p g y)) D2 = true ->
  asks_commit t p g m (y + zlen b) ->
  careful 9092 [] t p g S0 (X1 ++ X2) /\ S0 ++ X1 ++ X2 = F /\
  has_read 9092 [] t p g S0 (S0 ++ X1) y b /\ has_read 9092 [] t p g (S0 ++ X1) (S0 ++ X1 ++ X2) y b.
Proof.
  intros H1 H2 H3 H5 P0 P1 P2 R1 R2 E Hf N1 N2 Ha.
  assert (H4 : X1 ++ X2 = X3) by (apply (app_inv_head S0); rewrite app_assoc, H1, H2, H3; reflexivity).
  assert (H6 : S0 ++ X1 ++ X2 = F) by (rewrite app_assoc, H1, H2; reflexivity).
  split; [|split; [exact H6|split; [rewrite H1; exact R1|]]].
  - rewrite H4. intros X x Y EX Hm. rewrite E in EX. rewrite app_comm_cons, app_assoc in EX. rewrite forallb_forall in N1, N2.
    destruct (one_split (moves t p g) _ _ _ _ _ _ (fun z Hz => movesb_ok _ _ _ _ (proj1 (negb_true_iff _) (N1 z Hz)))
      (fun z Hz => movesb_ok _ _ _ _ (proj1 (negb_true_iff _) (N2 z Hz))) EX Hm) as (-> & -> & ->).
    exists 1%nat, (y + zlen b), X4, m, E2, y, b. split; [reflexivity|]. split; [reflexivity|]. split; [assumption|]. split; [assumption|].
    rewrite H5. destruct R2 as (A1 & A1' & A2 & A2' & Q1 & Q2 & Q3 & Q4 & Q5). exists A1, A1', A2, A2'. split_and!; auto.
    + etransitivity; [|exact Q1]. rewrite <- H1. now apply prefix_app_r.
    + etransitivity; eauto.
  - rewrite H1, H6. apply (has_read_prefix _ _ _ _ _ _ _ _ _ _ R2). etransitivity; eauto.
Qed.
Lemma g1 : trace_of demo_setup ++ tail_of demo_setup g_half = trace_of g_half.
Proof. unfold g_half, r2', r2, r1', r1. rewrite <- !app_assoc. symmetry. apply tail_app. Qed.
Lemma g2 : trace_of g_half ++ tail_of g_half g_full = trace_of g_full.
Proof. unfold g_full, r3', r3, r2', r2, r1', r1. rewrite <- !app_assoc. symmetry. apply tail_app. Qed.
Lemma g3 : trace_of demo_setup ++ tail_of demo_setup g_full = trace_of g_full.
Proof. unfold g_full, r3', r3, r2', r2, r1', r1, g_half, r2', r2, r1', r1. rewrite <- !app_assoc. symmetry. apply tail_app. Qed.
Lemma g5 : trace_of demo_setup ++ tail_of demo_setup g_asked = trace_of g_asked.
Proof. unfold g_asked, r3, r2', r2, r1', r1, g_half, r2', r2, r1', r1. rewrite <- !app_assoc. symmetry. apply tail_app. Qed.
Lemma gp0 : trace_of g_half `prefix_of` trace_of g_read.
Proof. unfold g_read, r2', r2, r1', r1. rewrite <- !app_assoc. apply trace_prefix. Qed.
Lemma g_commit : asks_commit topicA 2 groupA (req3 topicA 2 groupA 2) 2.
Proof. exists 3, clientA, 0, [], (-1), None. split; [reflexivity|]. split; [vm_compute; reflexivity|]. split; [vm_compute; discriminate|reflexivity]. Qed.
Lemma g_small : posts_small (trace_of g_full).
Proof. apply posts_small_check. vm_compute. reflexivity. Qed.
Lemma g_off0 : tr_off topicA 2 groupA (trace_of demo_setup) = 1.
Proof. vm_compute. reflexivity. Qed.
Lemma g_off1 : tr_off topicA 2 groupA (trace_of g_full) = 2.
Proof. vm_compute. reflexivity. Qed.
Lemma g_run : run (init 9092 []) g_full = (fst (run (init 9092 []) g_full), trace_of g_full).
Proof. apply surjective_pairing. Qed.
Definition g_batch : list msg := [(77, None, Some [])].
Lemma group_demo : exists D1 D2 evs s, run (init 9092 []) evs = (s, trace_of demo_setup ++ D1 ++ D2) /\
  careful 9092 [] topicA 2 groupA (trace_of demo_setup) (D1 ++ D2) /\ posts_small (trace_of demo_setup ++ D1 ++ D2) /\
  tr_off topicA 2 groupA (trace_of demo_setup) = 1 /\ tr_off topicA 2 groupA (trace_of demo_setup ++ D1 ++ D2) = 2 /\
  has_read 9092 [] topicA 2 groupA (trace_of demo_setup) (trace_of demo_setup ++ D1) 1 g_batch /\
  has_read 9092 [] topicA 2 groupA (trace_of demo_setup ++ D1) (trace_of demo_setup ++ D1 ++ D2) 1 g_batch.
Proof.
  destruct g_shape as (E2 & D2 & E & Hf & N1 & N2). destruct g_reads as [R1 R2].
  assert (P1 : trace_of g_read `prefix_of` trace_of g_asked) by (unfold g_asked, r3; apply trace_prefix).
  assert (P2 : trace_of g_asked `prefix_of` trace_of g_full) by (unfold g_full, r3'; apply trace_prefix).
  destruct (group_pieces topicA 2 groupA (req3 topicA 2 groupA 2) 1 batch1 _ _ _ _ _ _ _ _ _ E2 D2 g1 g2 g3 g5 gp0 P1 P2 R1 R2 E Hf N1 N2 g_commit) as (C1 & C2 & C3 & C4).
  exists (tail_of demo_setup g_half), (tail_of g_half g_full), g_full, (fst (run (init 9092 []) g_full)).
  revert C1 C2 C3 C4. generalize (tail_of demo_setup g_half) (tail_of g_half g_full). intros Y1 Y2 C1 C2 C3 C4.
  split; [etransitivity; [exact g_run|]; f_equal; symmetry; exact C2|]. split; [exact C1|].
  split; [exact (eq_rect_r (fun z => posts_small z) g_small C2)|]. split; [exact g_off0|].
  split; [exact (eq_trans (f_equal (tr_off topicA 2 groupA) C2) g_off1)|]. split; [exact C3|exact C4].
Qed.
