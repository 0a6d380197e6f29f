(** * ConsumerDemo: a concrete run of the consumer loop *)
From Verif Require Export ConsumerProofs Demo.
From stdpp Require Import gmap list.
From Coq Require Import ZifyBool.
Open Scope Z_scope.
Open Scope list_scope.

Definition trace_of (evs : list event) : list obs := snd (run (init 9092 []) evs).
Lemma trace_app e x : trace_of (e ++ x) = trace_of e ++ snd (run (fst (run (init 9092 []) e)) x).
Proof. unfold trace_of. rewrite run_app. reflexivity. Qed.
Lemma trace_prefix e x : trace_of e `prefix_of` trace_of (e ++ x).
Proof. rewrite trace_app. now apply prefix_app_r. Qed.

Definition movesb (t : bytes) (p : Z) (g : bytes) (x : obs) : bool :=
  match x with
  | OSet _ t' p' g' _ | OCommit _ t' p' g' _ => bool_decide ((t', p', g') = (t, p, g))
  | _ => false
  end.
Lemma movesb_ok t p g x : movesb t p g x = false -> ~ moves t p g x.
Proof. destruct x; cbn; auto; intros H; now apply bool_decide_eq_false in H. Qed.

(** One round on connection c: offset o, the messages in [batch]. *)
Definition req1 (t : bytes) (p : Z) (g : bytes) := w_request 9 1 1 clientA (w_off_req g [(t, [p])]).
Definition req2 (t : bytes) (p o : Z) := w_request 1 2 2 clientA (w_fetch_req (-1) 100 1 [(t, [(p, o, 10000)])]).
Definition req3 (t : bytes) (p : Z) (g : bytes) (o : Z) :=
  w_request 8 2 3 clientA (w_commit_req g 0 [] (-1) [(t, [(p, o, None)])]).
Definition turns (c : nat) (k : nat) : list event := repeat (EvConn c ch0) k.
Section Round.
Context (t : bytes) (p : Z) (g : bytes) (c : nat) (e : list event) (x : list event) (o : Z) (batch : list msg).
Definition r1 := e ++ x ++ [EvRecv c (w_frame (req1 t p g))].
Definition r1' := r1 ++ EvConn c ch0 :: turns c 20.
Definition r2 := r1' ++ [EvConn c ch0; EvRecv c (w_frame (req2 t p o))].
Definition r2' := r2 ++ EvConn c ch0 :: turns c 20.
Definition r3 := r2' ++ [EvConn c ch0; EvRecv c (w_frame (req3 t p g (o + zlen batch)))].
Definition r3' := r3 ++ EvConn c ch0 :: turns c 20.

Definition msgb (m : msg) : bool := l_i64 (rTs (rec_of_msg m)) && (rec_size (rec_of_msg m) <=? 2147483647).
Definition round_check : bool :=
  l_off g [(t, [p])] && (zlen (w_off_req g [(t, [p])]) <=? 4096) && l_i64 o &&
  dialogue_check 9092 [] r1 c ch0 (turns c 20) (req1 t p g) (w_reply 1 (w_off_resp [(t, [(p, o, None, 0)])])) &&
  (l_fetch (-1) 100 1 [(t, [(p, o, 10000)])] && (zlen (w_fetch_req (-1) 100 1 [(t, [(p, o, 10000)])]) <=? 4096) &&
   forallb msgb batch &&
   dialogue_check 9092 [] r2 c ch0 (turns c 20) (req2 t p o)
     (w_reply 2 (w_fetch_resp 0 [(t, [(p, 0, o + zlen batch, w_records o (map rec_of_msg batch))])]))) &&
  (l_commit g 0 [] (-1) [(t, [(p, o + zlen batch, None)])] &&
   (zlen (w_commit_req g 0 [] (-1) [(t, [(p, o + zlen batch, None)])]) <=? 4096) &&
   dialogue_check 9092 [] r3 c ch0 (turns c 20) (req3 t p g (o + zlen batch)) (w_reply 3 (w_commit_resp [(t, [(p, 0)])]))) &&
  forallb (fun y => negb (movesb t p g y)) (skipn (length (trace_of e)) (trace_of r3)) &&
  forallb (fun y => negb (movesb t p g y) || match y with OCommit c' _ _ _ _ => Nat.eqb c c' | _ => false end)
    (skipn (length (trace_of r3)) (trace_of r3')).

Lemma round_intro A0 got F : consumes 9092 [] t p g A0 (trace_of e) got F -> round_check = true ->
  consumes 9092 [] t p g A0 (trace_of r3') (got ++ batch) (trace_of r2).
Proof.
  intros H Hc. unfold round_check in Hc.
  repeat match goal with Hx : _ && _ = true |- _ => apply andb_true_iff in Hx as [Hx ?] end.
  repeat match goal with Hx : dialogue_check _ _ _ _ _ _ _ _ = true |- _ => apply dialogue_intro in Hx end.
  assert (S : forall a b, skipn (length (trace_of a)) (trace_of (a ++ b)) = snd (run (fst (run (init 9092 []) a)) b)).
  { intros a b. rewrite trace_app, skipn_app, Nat.sub_diag, skipn_all. reflexivity. }
  eapply (con_round 9092 [] t p g A0 (trace_of e) got F (trace_of r1) o (trace_of r1') (trace_of r2) batch (trace_of r2') (trace_of r3)).
  - exact H.
  - apply trace_prefix.
  - exists c, 1, clientA, None, 0. split; [reflexivity|]. split; [assumption|]. split; [lia|]. split; assumption.
  - apply trace_prefix.
  - exists c, 2, clientA, (-1), 100, 1, 10000, 0, (o + zlen batch). split; [reflexivity|]. split; [assumption|]. split; [lia|].
    split; [|assumption]. apply List.Forall_forall. intros m Hm.
    match goal with Hf : forallb msgb batch = true |- _ => rewrite forallb_forall in Hf; specialize (Hf m Hm); unfold msgb in Hf; apply andb_true_iff in Hf as [? Hf]; split; [assumption|lia] end.
  - apply trace_prefix.
  - exists (skipn (length (trace_of e)) (trace_of r3)). split.
    + unfold r3, r2', r2, r1', r1. rewrite <- !app_assoc. rewrite S. apply trace_app.
    + intros y Hy. apply movesb_ok.
      match goal with Hf : forallb _ (skipn (length (trace_of e)) _) = true |- _ => rewrite forallb_forall in Hf; specialize (Hf y Hy); now apply negb_true_iff in Hf end.
  - exists c, 3, clientA, 0, [], (-1), None. split; [reflexivity|]. split; [assumption|]. split; [lia|]. split; [assumption|].
    exists (skipn (length (trace_of r3)) (trace_of r3')). split.
    + unfold r3'. rewrite S. apply trace_app.
    + intros y Hy Hm.
      match goal with Hf : forallb _ (skipn (length (trace_of r3)) _) = true |- _ => rewrite forallb_forall in Hf; specialize (Hf y Hy); apply orb_true_iff in Hf as [H0|H0] end.
      * apply negb_true_iff, movesb_ok in H0. contradiction.
      * destruct y; try discriminate. apply Nat.eqb_eq in H0 as <-. cbn in Hm. injection Hm as -> -> ->. eauto.
Qed.
End Round.

Definition batch1 : list msg := [(77, None, Some [])].
Definition batch2 : list msg := [(200, Some [9], None)].
Definition demo_round1 : list event := r3' topicA 2 groupA 0 demo_setup [] 1 batch1.
Definition between : list event :=
  [EvCancel; EvTimeout 0; EvConn 0 ch0; EvRestart; EvAccept; EvConn 1 ch0;
   EvCall (CallPost topicA 2 (Some [9]) None [] (Some 200)); EvApi 4; EvApi 4; EvApi 4; EvApi 4].
Definition demo_round2 : list event := r3' topicA 2 groupA 1 demo_round1 between 2 batch2.

Lemma posts_small_check os : forallb (fun o => match o with OPosted _ _ _ r => rec_size r <=? 2147483647 | _ => true end) os = true -> posts_small os.
Proof. intros H i t p r Hin. rewrite forallb_forall in H. specialize (H _ Hin). cbn in H. lia. Qed.

Lemma consumer_demo : exists A F,
  consumes 9092 [] topicA 2 groupA (trace_of demo_setup) A [(77, None, Some []); (200, Some [9], None)] F /\
  posts_small A /\ tr_off topicA 2 groupA (trace_of demo_setup) = 1 /\ In ORestart A.
Proof.
  exists (trace_of demo_round2), (trace_of (r2 topicA 2 groupA 1 demo_round1 between 2)). split; [|split; [|split]].
  - apply (round_intro topicA 2 groupA 1 demo_round1 between 2 batch2 (trace_of demo_setup) batch1 (trace_of (r2 topicA 2 groupA 0 demo_setup [] 1))).
    + apply (round_intro topicA 2 groupA 0 demo_setup [] 1 batch1 (trace_of demo_setup) [] []); [constructor|]. vm_compute. reflexivity.
    + vm_compute. reflexivity.
  - apply posts_small_check. vm_compute. reflexivity.
  - vm_compute. reflexivity.
  - vm_compute. auto 99.
Qed.
