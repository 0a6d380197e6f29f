(** * RaceReal: the two kinds of races do happen. *)
From Verif Require Import Race RaceSpec StoreProofs RaceProofs RaceCode.
From stdpp Require Import gmap.
Open Scope Z_scope.
Open Scope list_scope.

Definition free (mu : mutex -> option nat) : Prop := forall m, mu m = None.

(** Goroutine [i] runs alone from code [c] to code [c']. *)
Definition sol (i : nat) ds mu c tr ds' mu' c' : Prop :=
  forall th : list (list mop), th !! i = Some c ->
    exists n, frun (FSys ds mu th) (replicate n i) = (FSys ds' mu' (<[i := c']> th), tr).

Lemma frun_app s a b : frun s (a ++ b) =
  (let '(s1, e1) := frun s a in let '(s2, e2) := frun s1 b in (s2, e1 ++ e2)).
Proof.
  revert s. induction a as [|x a IH]; intros s; cbn.
  - destruct (frun s b). reflexivity.
  - destruct (fstep s x) as [s1 e1]. rewrite IH. destruct (frun s1 a) as [s2 e2]. destruct (frun s2 b) as [s3 e3].
    rewrite app_assoc. reflexivity.
Qed.
Lemma frun_tid i n : forall s s' tr e, frun s (replicate n i) = (s', tr) -> In e tr -> evTid e = i.
Proof.
  induction n as [|n IH]; intros s s' tr e; cbn; [intros [= <- <-] []|].
  destruct (fstep s i) as [s1 e1] eqn:E1. destruct (frun s1 (replicate n i)) as [s2 e2] eqn:E2.
  intros [= <- <-] Hin. apply in_app_or in Hin as [Hin|Hin]; [|eapply IH; eassumption].
  unfold fstep in E1. destruct (fTh s !! i) as [[|[m|m|l k|l u|l] c]|]; try (injection E1 as <- <-; cbn in Hin; naive_solver).
  destruct (fMu s m); injection E1 as <- <-; cbn in Hin; naive_solver.
Qed.

Lemma sol_refl i ds mu c : sol i ds mu c [] ds mu c.
Proof. intros th H. exists 0%nat. cbn. rewrite list_insert_id by exact H. reflexivity. Qed.
Lemma sol_trans i ds mu c tr ds1 mu1 c1 tr1 ds2 mu2 c2 : sol i ds mu c tr ds1 mu1 c1 -> sol i ds1 mu1 c1 tr1 ds2 mu2 c2 ->
  sol i ds mu c (tr ++ tr1) ds2 mu2 c2.
Proof.
  intros H1 H2 th Hth. destruct (H1 th Hth) as [n1 E1].
  pose proof (lookup_lt_Some _ _ _ Hth) as Hlt.
  destruct (H2 (<[i := c1]> th)) as [n2 E2]; [apply list_lookup_insert; exact Hlt|].
  exists (n1 + n2)%nat. rewrite replicate_add, frun_app, E1, E2. rewrite list_insert_insert. reflexivity.
Qed.
Lemma sol_step i ds mu o c s' e ds' mu' c' : sol i ds mu (o :: c) [e] ds' mu' c' -> s' = [e] -> sol i ds mu (o :: c) s' ds' mu' c'.
Proof. intros H ->. exact H. Qed.

Lemma sol_lock i ds mu m c : free mu -> sol i ds mu (MLock m :: c) [Ev i (ALock m) ds] ds (set_mu mu m (Some i)) c.
Proof. intros H th Hth. exists 1%nat. cbn. unfold fstep. cbn. rewrite Hth, (H m). reflexivity. Qed.
Lemma sol_unlock i ds mu m c : sol i ds mu (MUnlock m :: c) [Ev i (AUnlock m) ds] ds (set_mu mu m None) c.
Proof. intros th Hth. exists 1%nat. cbn. unfold fstep. cbn. rewrite Hth. reflexivity. Qed.
Lemma sol_read i ds mu l k c : sol i ds mu (Rd l k :: c) [Ev i (ARead l) ds] ds mu (k ds ++ c).
Proof. intros th Hth. exists 1%nat. cbn. unfold fstep. cbn. rewrite Hth. reflexivity. Qed.
Lemma sol_write i ds mu l u c : sol i ds mu (Wr l u :: c) [Ev i (AWrite l) (u ds)] (u ds) mu c.
Proof. intros th Hth. exists 1%nat. cbn. unfold fstep. cbn. rewrite Hth. reflexivity. Qed.
Lemma sol_write' i ds ds' mu l u c : ds' = u ds -> sol i ds mu (Wr l u :: c) [Ev i (AWrite l) ds'] ds' mu c.
Proof. intros ->. apply sol_write. Qed.
Lemma sol_init i ds mu l c : sol i ds mu (Init l :: c) [Ev i (AInit l) ds] ds mu c.
Proof. intros th Hth. exists 1%nat. cbn. unfold fstep. cbn. rewrite Hth. reflexivity. Qed.

Lemma free_back i mu m : free mu -> free (set_mu (set_mu mu m (Some i)) m None).
Proof. intros H m'. unfold set_mu. destruct (decide (m' = m)); [reflexivity|apply H]. Qed.

(** [c] can be finished, the store unchanged and no mutex held. *)
Definition done (i : nat) ds (c : list mop) : Prop :=
  forall mu c2, free mu -> exists tr mu', free mu' /\ sol i ds mu (c ++ c2) tr ds mu' c2.
(** [c] comes to a read of [l] with no mutex held. *)
Definition hits (i : nat) ds (l : loc) (c : list mop) : Prop :=
  forall mu c2, free mu -> exists tr mu' c', free mu' /\ sol i ds mu (c ++ c2) (tr ++ [Ev i (ARead l) ds]) ds mu' c'.

Lemma done_nil i ds : done i ds [].
Proof. intros mu c2 H. exists [], mu. split; [exact H|apply sol_refl]. Qed.
Lemma done_app i ds a b : done i ds a -> done i ds b -> done i ds (a ++ b).
Proof.
  intros Ha Hb mu c2 Hf. destruct (Ha mu (b ++ c2) Hf) as (t1 & m1 & F1 & S1). destruct (Hb m1 c2 F1) as (t2 & m2 & F2 & S2).
  exists (t1 ++ t2), m2. split; [exact F2|]. rewrite <- app_assoc. eapply sol_trans; eassumption.
Qed.
Lemma hits_app_l i ds l a b : hits i ds l a -> hits i ds l (a ++ b).
Proof. intros H mu c2 Hf. rewrite <- app_assoc. apply H. exact Hf. Qed.
Lemma hits_app_r i ds l a b : done i ds a -> hits i ds l b -> hits i ds l (a ++ b).
Proof.
  intros Ha Hb mu c2 Hf. destruct (Ha mu (b ++ c2) Hf) as (t1 & m1 & F1 & S1).
  destruct (Hb m1 c2 F1) as (t2 & m2 & c' & F2 & S2).
  exists (t1 ++ t2), m2, c'. split; [exact F2|]. rewrite <- !app_assoc. eapply sol_trans; [exact S1|].
  exact S2.
Qed.
Lemma done_flat {A} i ds (f : A -> list mop) xs : (forall x, In x xs -> done i ds (f x)) -> done i ds (flat_map f xs).
Proof.
  induction xs as [|x xs IH]; intros H; cbn; [apply done_nil|].
  apply done_app; [apply H; left; reflexivity|apply IH; intros y Hy; apply H; right; exact Hy].
Qed.
Lemma hits_flat {A} i ds l (f : A -> list mop) xs x : (forall x, done i ds (f x)) -> In x xs -> hits i ds l (f x) ->
  hits i ds l (flat_map f xs).
Proof.
  intros Hd Hin Hx. induction xs as [|y xs IH]; [destruct Hin|]. cbn.
  destruct Hin as [->|Hin]; [apply hits_app_l; exact Hx|]. apply hits_app_r; [apply Hd|apply IH; exact Hin].
Qed.
Lemma done_read i ds l k : done i ds (k ds) -> done i ds [Rd l k].
Proof.
  intros H mu c2 Hf. destruct (H mu c2 Hf) as (t & m & F & S). exists ([Ev i (ARead l) ds] ++ t), m. split; [exact F|].
  eapply sol_trans; [apply sol_read|exact S].
Qed.
Lemma hits_read i ds l k : hits i ds l [Rd l k].
Proof. intros mu c2 Hf. exists [], mu, (k ds ++ c2). split; [exact Hf|]. apply sol_read. Qed.

(** A locked look-up. *)
Lemma sol_look (i : nat) (ds : store) (mu : mutex -> option nat) (m : mutex) (l : loc) (k : store -> list mop) (c2 : list mop) : free mu -> exists tr mu', free mu' /\
  sol i ds mu (MLock m :: Rd l (fun s => MUnlock m :: k s) :: c2) tr ds mu' (k ds ++ c2).
Proof.
  intros Hf. eexists _, _. split; [|eapply sol_trans; [apply sol_lock; exact Hf|]; eapply sol_trans; [apply sol_read|];
    cbn; apply sol_unlock]. apply free_back. exact Hf.
Qed.
Lemma done_look (i : nat) (ds : store) (m : mutex) (l : loc) (k : store -> list mop) : done i ds (k ds) -> done i ds [MLock m; Rd l (fun s => MUnlock m :: k s)].
Proof.
  intros H mu c2 Hf. destruct (sol_look i ds mu m l k c2 Hf) as (t1 & m1 & F1 & S1).
  destruct (H m1 c2 F1) as (t2 & m2 & F2 & S2). exists (t1 ++ t2), m2. split; [exact F2|]. eapply sol_trans; eassumption.
Qed.
Lemma hits_look (i : nat) (ds : store) (l0 : loc) (m : mutex) (l : loc) (k : store -> list mop) : hits i ds l0 (k ds) ->
  hits i ds l0 [MLock m; Rd l (fun s => MUnlock m :: k s)].
Proof.
  intros H mu c2 Hf. destruct (sol_look i ds mu m l k c2 Hf) as (t1 & m1 & F1 & S1).
  destruct (H m1 c2 F1) as (t2 & m2 & c' & F2 & S2). exists (t1 ++ t2), m2, c'. split; [exact F2|].
  rewrite <- app_assoc. eapply sol_trans; eassumption.
Qed.

Lemma done_list_scan i ds t p T n : done i ds (m_list_scan t p T n).
Proof.
  induction n as [|n IH]; cbn; [apply done_nil|]. apply done_read. apply done_read.
  destruct (rec_time ds t p n <? T); [apply done_nil|exact IH].
Qed.
Lemma done_list1 i ds t q : done i ds (m_list1 t q).
Proof.
  unfold m_list1, m_getPartition. apply done_look. destruct (hasPart ds t (lpIndex q)); [|apply done_nil].
  destruct (lpTime q =? -1); [apply done_read, done_nil|]. destruct (lpTime q =? -2).
  - apply done_read. destruct (recs_of ds t (lpIndex q)); [apply done_nil|]. apply done_read, done_read, done_nil.
  - apply done_read. apply done_list_scan.
Qed.
Lemma done_list_topic i ds t ps : done i ds (m_getTopic t (fun b => if b then flat_map (m_list1 t) ps else [])).
Proof.
  unfold m_getTopic. apply done_look. destruct (getTopic ds t); [|apply done_nil]. apply done_flat. intros q _. apply done_list1.
Qed.

Lemma hasPart_topic (s : store) (t : bytes) (p : Z) : hasPart s t p = true -> getTopic s t = true.
Proof. unfold hasPart, lookupPart, getTopic. destruct (s !! t); [reflexivity|discriminate]. Qed.
Lemma hits_list i ds rq t p : lists (DList rq) t p -> hasPart ds t p = true -> hits i ds (LRecs t p) (dsop_code (DList rq)).
Proof.
  intros (rq' & ps & q & [= <-] & Ht & Hq & <-) Hp. cbn.
  eapply (hits_flat i ds _ _ _ (t, ps)); [intros [t' ps']; apply done_list_topic|exact Ht|].
  cbn [fst snd]. unfold m_getTopic. apply hits_look. rewrite (hasPart_topic _ _ _ Hp).
  eapply hits_flat; [intros q'; apply done_list1|exact Hq|].
  unfold m_list1, m_getPartition. apply hits_look. rewrite Hp.
  destruct (lpTime q =? -1); [apply hits_read|]. destruct (lpTime q =? -2); apply hits_read.
Qed.

(** The post, run alone on a store that has the partition. *)
Lemma done_createTopic i ds t : getTopic ds t = true -> done i ds (m_createTopic t).
Proof.
  intros H mu c2 Hf. eexists _, _. split; [|unfold m_createTopic; eapply sol_trans; [apply sol_lock; exact Hf|];
    eapply sol_trans; [apply sol_read|]; cbv beta; rewrite H; apply sol_unlock]. apply free_back. exact Hf.
Qed.
Lemma done_createPartition i ds t p : hasPart ds t p = true -> done i ds (m_createPartition t p).
Proof.
  intros H mu c2 Hf. eexists _, _. split; [|unfold m_createPartition; eapply sol_trans; [apply sol_lock; exact Hf|];
    eapply sol_trans; [apply sol_read|]; cbv beta; rewrite H; apply sol_unlock]. apply free_back. exact Hf.
Qed.
Definition writes (i : nat) ds (l : loc) (c : list mop) : Prop :=
  forall mu c2, free mu -> exists tr ds' mu' c', sol i ds mu (c ++ c2) (tr ++ [Ev i (AWrite l) ds']) ds' mu' c'.
Lemma writes_app_l i ds l a b : writes i ds l a -> writes i ds l (a ++ b).
Proof. intros H mu c2 Hf. rewrite <- app_assoc. apply H. exact Hf. Qed.
Lemma writes_app_r i ds l a b : done i ds a -> writes i ds l b -> writes i ds l (a ++ b).
Proof.
  intros Ha Hb mu c2 Hf. destruct (Ha mu (b ++ c2) Hf) as (t1 & m1 & F1 & S1).
  destruct (Hb m1 c2 F1) as (t2 & ds' & m2 & c' & S2).
  exists (t1 ++ t2), ds', m2, c'. rewrite <- !app_assoc. eapply sol_trans; [exact S1|]. exact S2.
Qed.
Lemma writes_post i ds o t p : posts o t p -> hasPart ds t p = true -> writes i ds (LRecs t p) (dsop_code o).
Proof.
  intros (w & p0 & k & v & h & ts & -> & <-) Hp. cbn [dsop_code m_call].
  apply writes_app_r; [apply done_createTopic; eapply hasPart_topic; exact Hp|].
  apply writes_app_r; [apply done_createPartition; exact Hp|].
  intros mu c2 Hf. eexists [_; _; _], _, _, _.
  unfold m_postRecord. eapply (sol_trans _ _ _ _ [_]); [apply sol_lock; exact Hf|].
  eapply (sol_trans _ _ _ _ [_]); [apply sol_read|]. cbn [app].
  eapply (sol_trans _ _ _ _ [_]); [apply sol_init|]. apply sol_write'. reflexivity.
Qed.
Lemma writes_make i o : makes o -> writes i ∅ LTopics (dsop_code o).
Proof.
  intros H.
  assert (forall t c, writes i ∅ LTopics (m_createTopic t ++ c)) as Hw.
  { intros t c. apply writes_app_l. intros mu c2 Hf. eexists [_; _; _], _, _, _.
    unfold m_createTopic. eapply (sol_trans _ _ _ _ [_]); [apply sol_lock; exact Hf|].
    eapply (sol_trans _ _ _ _ [_]); [apply sol_read|].
    cbv beta. assert (getTopic ∅ t = false) as -> by reflexivity. cbn [app].
    eapply (sol_trans _ _ _ _ [_]); [apply sol_init|]. apply sol_write'. reflexivity. }
  destruct H as [(t & p & w & p0 & k & v & h & ts & -> & _)|(w & t & ts & p & ->)]; cbn [dsop_code m_call flat_map].
  - apply Hw.
  - rewrite <- !app_assoc. apply Hw.
Qed.

(** First one goroutine alone up to a read outside all locks, then the other up
    to a write of the same memory. *)
Lemma read_then_write ds os i j l oi oj : i <> j -> os !! i = Some oi -> os !! j = Some oj ->
  hits i ds l (dsop_code oi) -> writes j ds l (dsop_code oj) ->
  exists is_ s tr a b e f, frun (finit ds os) is_ = (s, tr) /\ race tr a b e f.
Proof.
  intros Hij Hi Hj Hh Hw.
  destruct (Hh (fun _ => None) [] (fun _ => eq_refl)) as (t1 & m1 & c1 & F1 & S1). rewrite app_nil_r in S1.
  destruct (Hw m1 [] F1) as (t2 & ds2 & m2 & c2 & S2). rewrite app_nil_r in S2.
  destruct (S1 (map dsop_code os)) as [n1 E1]; [rewrite list_lookup_fmap, Hi; reflexivity|].
  destruct (S2 (<[i := c1]> (map dsop_code os))) as [n2 E2].
  { rewrite list_lookup_insert_ne by congruence. rewrite list_lookup_fmap, Hj. reflexivity. }
  set (e := Ev i (ARead l) ds) in *. set (f := Ev j (AWrite l) ds2) in *.
  eexists (replicate n1 i ++ replicate n2 j), _, _, (length t1), (length t1 + S (length t2))%nat, e, f.
  split; [unfold finit; rewrite frun_app, E1, E2; reflexivity|].
  assert (Ha : ((t1 ++ [e]) ++ t2 ++ [f]) !! length t1 = Some e).
  { rewrite <- app_assoc. rewrite lookup_app_r by lia. rewrite Nat.sub_diag. reflexivity. }
  split; [exact Ha|]. split.
  { rewrite lookup_app_r by (rewrite app_length; cbn; lia). rewrite lookup_app_r by (rewrite app_length; cbn; lia).
    rewrite app_length. cbn. replace (_ - _ - _)%nat with 0%nat by lia. reflexivity. }
  split; [lia|]. split; [exact Hij|]. split; [exists l, false, true; auto|].
  assert (forall x y, hb ((t1 ++ [e]) ++ t2 ++ [f]) x y -> x = length t1 -> False) as Hno.
  { intros x y H. induction H as [x y g k Hx Hy Hlt Ht|x y g k m Hx Hy Hlt H1 H2|x y z H1 IH1 H2 IH2]; intros ->.
    - rewrite Ha in Hx. injection Hx as <-.
      rewrite lookup_app_r in Hy by (rewrite app_length; cbn; lia).
      apply elem_of_list_lookup_2, elem_of_list_In in Hy.
      assert (evTid k = j) by (eapply frun_tid; eassumption). cbn in Ht. congruence.
    - rewrite Ha in Hx. injection Hx as <-. discriminate H1.
    - auto. }
  intros H. exact (Hno _ _ H eq_refl).
Qed.

Lemma pair_can (os : list dsop) (i j : nat) (oi oj : dsop) : i <> j -> os !! i = Some oi -> os !! j = Some oj -> pair_races oi oj ->
  exists ds is_ s tr a b e f, frun (finit ds os) is_ = (s, tr) /\ race tr a b e f.
Proof.
  intros Hij Hi Hj H. destruct H as [(t & p & Hl & Hp)|[Hs Hm]].
  - exists {[t := {[p := new_part p]}]}.
    assert (hasPart {[t := {[p := new_part p]}]} t p = true) as Hh
      by (unfold hasPart, lookupPart; rewrite lookup_singleton, lookup_singleton; reflexivity).
    destruct Hl as (rq & ps & q & -> & Hl). eapply (read_then_write _ os i j (LRecs t p)); eauto.
    + apply hits_list; [|exact Hh]. exists rq, ps, q. auto.
    + apply writes_post; assumption.
  - exists ∅. eapply (read_then_write _ os i j LTopics); eauto; [|apply writes_make; exact Hm].
    destruct Hs as (ch & chs & ->). cbn. intros mu c2 Hf. eexists [], mu, _. split; [exact Hf|]. apply sol_read.
Qed.

Theorem races_exactly o1 o2 : can_race o1 o2 <-> pair_races o1 o2 \/ pair_races o2 o1.
Proof.
  split.
  - intros (ds & is_ & s & tr & a & b & e & f & E & H).
    destruct (races_known _ _ _ _ _ _ _ _ _ E H) as (x & y & Hx & Hy & Hp).
    assert (evTid e <> evTid f) as Hne by apply H.
    destruct (evTid e) as [|[|n]]; destruct (evTid f) as [|[|m]]; cbn in Hx, Hy; try congruence; try discriminate;
      injection Hx as <-; injection Hy as <-; tauto.
  - intros [H|H].
    + exact (pair_can [o1; o2] 0 1 o1 o2 ltac:(discriminate) eq_refl eq_refl H).
    + exact (pair_can [o1; o2] 1 0 o2 o1 ltac:(discriminate) eq_refl eq_refl H).
Qed.
