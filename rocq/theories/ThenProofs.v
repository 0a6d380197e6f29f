(** * ThenProofs: one request after the reply to another *)
From Verif Require Export ThenSpec SeenProofs.
From Verif Require Import ReplyMore.
From Verif Require ConsumerProofs.
From Verif Require TurnProofs OddReplies CallProofs.
From stdpp Require Import gmap list.
Open Scope Z_scope.
Open Scope list_scope.

Lemma turn_in {P E} A B (R : list obs -> bytes -> P -> E -> Prop) es t p e : in_turn A B R es -> In (t, p, e) es ->
  exists n, (n <= length B)%nat /\ R (A ++ firstn n B) t p e.
Proof.
  intros (ns & _ & HF) Hi. induction HF as [|n x ns es Hx _ IH]; [destruct Hi|].
  destruct Hi as [->|Hi]; [exists n; exact Hx|exact (IH Hi)].
Qed.
Lemma pre_has t p X Y : X `prefix_of` Y -> tr_has t p X = true -> tr_has t p Y = true.
Proof. intros [Z ->]. apply tr_has_mono. Qed.
Lemma first_pre {T} (A : list T) n B Y : (A ++ B) `prefix_of` Y -> (A ++ firstn n B) `prefix_of` Y.
Proof. intros H. etransitivity; [|exact H]. apply prefix_app. exists (skipn n B). symmetry. apply firstn_skipn. Qed.

(** What a ListOffsets reply says is so from then on. *)
Lemma end_so A corr ts B r ents : r = w_reply corr (w_list_resp ents) -> in_turn A B list_right (pairs ts ents) ->
  forall t p o Y, says_end ts ents t p o -> (A ++ B) `prefix_of` Y -> tr_has t p Y = true /\ o <= zlen (tr_log t p Y).
Proof.
  intros _ HI t p o Y (i & tm & Hi) HP. destruct (turn_in _ _ _ _ _ _ _ HI Hi) as (n & _ & HR).
  unfold list_right in HR. destruct HR as [_ HR]. destruct (tr_has t p (A ++ firstn n B)) eqn:Hh; [|destruct HR as [HR _]; discriminate].
  cbn [Z.eqb Pos.eqb] in HR. destruct HR as (_ & -> & _). pose proof (first_pre A n B Y HP) as HQ.
  split; [exact (pre_has _ _ _ _ HQ Hh)|]. now apply zlen_log_pre.
Qed.

Theorem list_list port ch A1 c1 corr1 client1 r1 ts1 s1 :
  let m1 := w_request 2 1 corr1 client1 (w_list_req r1 ts1) in
  l_header 2 1 corr1 client1 = true -> l_list r1 ts1 = true -> zlen (w_list_req r1 ts1) <= 4096 ->
  serving port ch A1 c1 m1 s1 ->
  answers c1 s1 (fun B1 rep1 => exists ents1, rep1 = w_reply corr1 (w_list_resp ents1) /\ same_shape ts1 ents1 /\
    forall A2 c2 corr2 client2 r2 ts2 s2,
    let m2 := w_request 2 1 corr2 client2 (w_list_req r2 ts2) in
    l_header 2 1 corr2 client2 = true -> l_list r2 ts2 = true -> zlen (w_list_req r2 ts2) <= 4096 ->
    serving port ch A2 c2 m2 s2 -> ((A1 ++ [OFrame c1 m1]) ++ B1) `prefix_of` A2 ->
    answers c2 s2 (fun _ rep2 => list_after (says_end ts1 ents1) corr2 ts2 rep2) (2 * entries ts2 + 5)) (2 * entries ts1 + 5).
Proof.
  cbv zeta. intros H1 H2 H3 H4. eapply answers_mono; [|exact (TurnProofs.list_turns _ _ _ _ _ _ _ _ _ H1 H2 H3 H4)].
  intros B1 rep1 (ents1 & E1 & S1 & I1). exists ents1. split; [exact E1|]. split; [exact S1|].
  intros A2 c2 corr2 client2 r2 ts2 s2 G1 G2 G3 G4 HP.
  eapply answers_mono; [|exact (TurnProofs.list_turns _ _ _ _ _ _ _ _ _ G1 G2 G3 G4)].
  intros B2 rep2 (ents2 & E2 & S2 & I2). exists ents2. split; [exact E2|]. split; [exact S2|].
  intros t p o i er tm o2 HK Hi. destruct (turn_in _ _ _ _ _ _ _ I2 Hi) as (n & _ & HR). unfold list_right in HR. destruct HR as [_ HR].
  assert (HQ : ((A1 ++ [OFrame c1 (w_request 2 1 corr1 client1 (w_list_req r1 ts1))]) ++ B1) `prefix_of`
    ((A2 ++ [OFrame c2 (w_request 2 1 corr2 client2 (w_list_req r2 ts2))]) ++ firstn n B2)) by (apply prefix_app_r; apply prefix_app_r; exact HP).
  destruct (end_so _ _ _ _ _ _ E1 I1 t p o _ HK HQ) as [Hh Ho].
  rewrite Hh in HR. cbn [Z.eqb Pos.eqb] in HR. destruct HR as (-> & -> & _). split; [reflexivity|exact Ho].
Qed.

Theorem list_fetch port ch A1 c1 corr1 client1 r1 ts1 s1 :
  let m1 := w_request 2 1 corr1 client1 (w_list_req r1 ts1) in
  l_header 2 1 corr1 client1 = true -> l_list r1 ts1 = true -> zlen (w_list_req r1 ts1) <= 4096 ->
  serving port ch A1 c1 m1 s1 ->
  answers c1 s1 (fun B1 rep1 => exists ents1, rep1 = w_reply corr1 (w_list_resp ents1) /\ same_shape ts1 ents1 /\
    forall A2 c2 corr2 client2 r2 w2 mb2 ts2 s2,
    let m2 := w_request 1 2 corr2 client2 (w_fetch_req r2 w2 mb2 ts2) in
    l_header 1 2 corr2 client2 = true -> l_fetch r2 w2 mb2 ts2 = true -> zlen (w_fetch_req r2 w2 mb2 ts2) <= 4096 ->
    nonneg_offsets ts2 -> (length ts2 <= length (flat ts2))%nat ->
    serving port ch A2 c2 m2 s2 -> ((A1 ++ [OFrame c1 m1]) ++ B1) `prefix_of` A2 ->
    answers_right c2 s2 (fun B2 rep2 => posts_small ((A2 ++ [OFrame c2 m2]) ++ B2) ->
      fetch_after (says_end ts1 ents1) corr2 ts2 rep2)) (2 * entries ts1 + 5).
Proof.
  cbv zeta. intros H1 H2 H3 H4. eapply answers_mono; [|exact (TurnProofs.list_turns _ _ _ _ _ _ _ _ _ H1 H2 H3 H4)].
  intros B1 rep1 (ents1 & E1 & S1 & I1). exists ents1. split; [exact E1|]. split; [exact S1|].
  intros A2 c2 corr2 client2 r2 w2 mb2 ts2 s2 G1 G2 G3 G4 G5 G6 HP.
  eapply OddReplies.answers_right_mono; [|exact (fetch_seen _ _ _ _ _ _ _ _ _ _ _ G1 G2 G3 G4 G5 G6)].
  intros B2 rep2 HS Hp. destruct (HS Hp) as (res & E2 & F). exists res. split; [exact E2|].
  split; [symmetry; exact (Forall2_length _ _ _ F)|]. intros t p o k off mx x HK Q R.
  assert (HQ : ((A1 ++ [OFrame c1 (w_request 2 1 corr1 client1 (w_list_req r1 ts1))]) ++ B1) `prefix_of`
    (A2 ++ [OFrame c2 (w_request 1 2 corr2 client2 (w_fetch_req r2 w2 mb2 ts2))])) by (apply prefix_app_r; exact HP).
  destruct (end_so _ _ _ _ _ _ E1 I1 t p o _ HK HQ) as [Hh Ho].
  revert Hh Ho F Q R. clear. generalize (A2 ++ [OFrame c2 (w_request 1 2 corr2 client2 (w_fetch_req r2 w2 mb2 ts2))]) as X.
  intros X Hh Ho F. revert k. induction F as [|q y qs res Hy _ IH]; intros k Q R; [now destruct k|].
  destruct k as [|k]; [|exact (IH k Q R)]. injection Q as ->. injection R as ->. specialize (Hy Hh). cbn [fst snd] in Hy. lia.
Qed.

Theorem commit_off port ch A1 c1 corr1 client1 g gen mem ret ts1 s1 :
  let m1 := w_request 8 2 corr1 client1 (w_commit_req g gen mem ret ts1) in
  l_header 8 2 corr1 client1 = true -> l_commit g gen mem ret ts1 = true -> zlen (w_commit_req g gen mem ret ts1) <= 4096 ->
  serving port ch A1 c1 m1 s1 ->
  answers c1 s1 (fun B1 rep1 => exists ents1, rep1 = w_reply corr1 (w_commit_resp ents1) /\ same_shape ts1 ents1 /\
    forall C c2 corr2 client2 ts2 s2,
    let A2 := ((A1 ++ [OFrame c1 m1]) ++ B1) ++ C in
    let m2 := w_request 9 1 corr2 client2 (w_off_req g ts2) in
    l_header 9 1 corr2 client2 = true -> l_off g ts2 = true -> zlen (w_off_req g ts2) <= 4096 ->
    serving port ch A2 c2 m2 s2 ->
    answers c2 s2 (fun B2 rep2 => off_after (says_done ts1 ents1) corr2 g ts2 (B1 ++ C ++ B2) rep2) (3 * entries ts2 + 6)) (2 * entries ts1 + 5).
Proof.
  cbv zeta. intros H1 H2 H3 H4. eapply answers_mono; [|exact (TurnProofs.commit_turns _ _ _ _ _ _ _ _ _ _ _ _ H1 H2 H3 H4)].
  intros B1 rep1 (ents1 & E1 & S1 & _ & I1). exists ents1. split; [exact E1|]. split; [exact S1|].
  intros C c2 corr2 client2 ts2 s2 G1 G2 G3 G4.
  eapply answers_mono; [|exact (off_seen _ _ _ _ _ _ _ _ _ G1 G2 G3 G4)].
  intros B2 rep2. revert I1. generalize (A1 ++ [OFrame c1 (w_request 8 2 corr1 client1 (w_commit_req g gen mem ret ts1))]) as X.
  generalize (w_request 9 1 corr2 client2 (w_off_req g ts2)) as m2. intros m2 X I1 (ents & E2 & HA & HB).
  exists ents. split; [exact E2|]. intros t p o (md & i & Hi) Hin HS.
  destruct (turn_in _ _ _ _ _ _ _ I1 Hi) as (n & _ & [_ [(_ & os0 & Eo & Hh)|[Hbad _]]]); [|cbn in Hbad; discriminate].
  assert (EX : (((X ++ B1) ++ C) ++ [OFrame c2 m2]) = (X ++ firstn n B1) ++ (skipn n B1 ++ C ++ [OFrame c2 m2])).
  { rewrite <- (firstn_skipn n B1) at 1. now rewrite <- !app_assoc. }
  rewrite EX in HA, HB. rewrite Eo in HA, HB. split.
  - apply (HA t p Hin). rewrite <- app_assoc. now apply tr_has_mono.
  - intros l o2 md2 er Hl Hx. assert (HS2 : forall i' y, ~ In (OSet i' t p g y) B2).
    { intros i' y Hy. apply (HS i' y). apply in_or_app. right. apply in_or_app. now right. }
    specialize (HB t l p o2 md2 er Hl Hx HS2). etransitivity; [|exact HB]. unfold tr_off. rewrite (fold_left_app _ (os0 ++ _)).
    etransitivity; [|apply off_grows].
    + rewrite fold_left_app. cbn [fold_left off_step]. rewrite same_refl, bool_decide_eq_true_2 by reflexivity. cbn [andb]. lia.
    + intros i' y Hy. apply in_app_or in Hy as [Hy|Hy].
      { apply (HS i' y). apply in_or_app. left. rewrite <- (firstn_skipn n B1). apply in_or_app. now right. }
      apply in_app_or in Hy as [Hy|[Hy|[]]]; [|discriminate]. apply (HS i' y). apply in_or_app. right. apply in_or_app. now left.
Qed.

(** ** A post that has returned *)
Lemma post_returned port ch evs s os i A0 t p key v h ts0 : run (init port ch) evs = (s, os) ->
  calls (init port ch) [] evs !! i = Some (A0, CallPost t p key v h ts0) -> In (OReturn i) os ->
  exists tm, (forall x, ts0 = Some x -> tm = x) /\ tr_has t (as_int32 p) os = true /\
    exists X Y, os = X ++ OPosted i t (as_int32 p) (Rec 0 tm key v h) :: Y.
Proof.
  intros H Hc Hr. destruct (CallProofs.calls_effect _ _ _ _ _ _ _ _ H Hc) as [_ Hp]. cbn [effect] in Hp. destruct Hp as (tm & Ht & Hp).
  assert (HR : In (OReturn i) (done_by i os)) by (apply filter_In; split; [exact Hr|]; cbn; apply Nat.eqb_refl).
  assert (HD : done_by i os = [OTopic i t; OMade i t (as_int32 p); OPosted i t (as_int32 p) (Rec 0 tm key v h); OReturn i]).
  { destruct Hp as [rest Hp]. destruct (done_by i os) as [|a [|b [|d [|e l]]]]; cbn [app] in Hp.
    - destruct HR.
    - injection Hp as <- _. destruct HR as [HR|[]]; discriminate.
    - injection Hp as <- <- _. destruct HR as [HR|[HR|[]]]; discriminate.
    - injection Hp as <- <- <- _. destruct HR as [HR|[HR|[HR|[]]]]; discriminate.
    - injection Hp as <- <- <- <- Hp. symmetry in Hp. now apply app_eq_nil in Hp as [-> _]. }
  assert (HI : forall o, In o (done_by i os) -> In o os) by (intros o Ho; apply filter_In in Ho as [Ho _]; exact Ho).
  exists tm. split; [intros x ->; exact Ht|]. rewrite HD in HI. split.
  - unfold tr_has. apply existsb_exists. exists (OMade i t (as_int32 p)). split; [apply HI; right; now left|]. apply same_refl.
  - apply in_split. apply HI. right. right. now left.
Qed.
Theorem post_fetch port ch evs s0 A i A0 t p key v h ts0 c corr client r w mb ts s :
  let m := w_request 1 2 corr client (w_fetch_req r w mb ts) in
  run (init port ch) evs = (s0, A) ->
  calls (init port ch) [] evs !! i = Some (A0, CallPost t p key v h ts0) -> In (OReturn i) A ->
  l_header 1 2 corr client = true -> l_fetch r w mb ts = true -> zlen (w_fetch_req r w mb ts) <= 4096 ->
  nonneg_offsets ts -> (length ts <= length (flat ts))%nat ->
  serving port ch A c m s ->
  exists n tm, nth_error (tr_log t (as_int32 p) A) n = Some (Rec 0 tm key v h) /\ (forall x, ts0 = Some x -> tm = x) /\
  answers_right c s (fun B rep => posts_small ((A ++ [OFrame c m]) ++ B) ->
    exists res, rep = w_reply corr (w_fetch_resp 0 (fetch_ents ts res)) /\ length res = length (flat ts) /\
    forall k off mx x, nth_error (flat ts) k = Some (t, (as_int32 p, off, mx)) -> nth_error res k = Some x -> off <= Z.of_nat n ->
      exists pre post, snd x = w_records off (pre ++ Rec 0 tm key v h :: post) /\ off + zlen pre = Z.of_nat n).
Proof.
  cbv zeta. intros HR Hc Hret H1 H2 H3 H4 H5 H6.
  destruct (post_returned _ _ _ _ _ _ _ _ _ _ _ _ _ HR Hc Hret) as (tm & Htm & Hh & X & Y & EA).
  exists (length (tr_log t (as_int32 p) X)), tm.
  assert (HN : tr_log t (as_int32 p) A = tr_log t (as_int32 p) X ++ Rec 0 tm key v h :: tr_log t (as_int32 p) Y).
  { rewrite EA, (tr_log_app t (as_int32 p) X). f_equal. change (OPosted i t (as_int32 p) (Rec 0 tm key v h) :: Y) with ([OPosted i t (as_int32 p) (Rec 0 tm key v h)] ++ Y).
    rewrite tr_log_app. unfold tr_log at 1. cbn [flat_map]. now rewrite same_refl. }
  split; [rewrite HN, nth_error_app2, Nat.sub_diag by lia; reflexivity|]. split; [exact Htm|].
  eapply OddReplies.answers_right_mono; [|exact (fetch_snapshot _ _ _ _ _ _ _ _ _ _ _ H1 H2 H3 H4 H5 H6)].
  intros B rep HS Hp. destruct (HS Hp) as (res & B0 & _ & F & E). exists res. split; [exact E|].
  split; [symmetry; exact (Forall2_length _ _ _ F)|]. clear HS Hp E H1 H2 H3 H5 H6 HR Hc Hret EA.
  revert F. generalize (OFrame c (w_request 1 2 corr client (w_fetch_req r w mb ts))) as fr. intros fr F k off mx x Q R Hle.
  assert (W : as_it_was (A ++ [fr]) ((A ++ [fr]) ++ B0) (t, (as_int32 p, off, mx)) x /\ 0 <= off).
  { unfold nonneg_offsets in H4. revert k H4 Q R. induction F as [|q y qs res Hy _ IH]; intros k HF Q R; [now destruct k|].
    apply Forall_cons_1 in HF as [HF1 HF2]. destruct k as [|k]; [|exact (IH k HF2 Q R)]. injection Q as ->. injection R as ->. now split. }
  destruct W as [[W|[W _]] Hoff].
  - unfold exactly in W. subst x. cbn [snd]. rewrite (tr_log_app _ _ (A ++ [fr])), (tr_log_app _ _ A), HN.
    exists (skipn (Z.to_nat off) (tr_log t (as_int32 p) X)). exists ((tr_log t (as_int32 p) Y ++ tr_log t (as_int32 p) [fr]) ++ tr_log t (as_int32 p) B0).
    split.
    + f_equal. rewrite <- !app_assoc. cbn [app]. rewrite skipn_app.
      replace (Z.to_nat off - length (tr_log t (as_int32 p) X))%nat with 0%nat by lia. reflexivity.
    + unfold zlen. rewrite skipn_length. lia.
  - cbn [fst snd] in W. rewrite (tr_has_mono _ _ A [fr] Hh) in W. discriminate.
Qed.

(** ** CreatePartitionTopics and SetConsumerGroupOffset that have returned *)
Lemma create_returned port ch evs s os i A0 tns p : run (init port ch) evs = (s, os) ->
  calls (init port ch) [] evs !! i = Some (A0, CallCreate tns p) -> In (OReturn i) os ->
  forall t, In t tns -> tr_has t (as_int32 p) os = true.
Proof.
  intros H Hc Hr t Ht. destruct (CallProofs.calls_effect _ _ _ _ _ _ _ _ H Hc) as [_ Hp]. cbn [effect] in Hp.
  assert (Hd : In (OReturn i) (done_by i os)) by (apply filter_In; split; [assumption|cbn; apply Nat.eqb_refl]).
  assert (Hm : In (OMade i t (as_int32 p)) (done_by i os)).
  { destruct Hp as [k Hk].
    assert (K : k = []).
    { destruct k as [|y k']; [reflexivity|]. exfalso. destruct (exists_last (l := y :: k')) as (k0 & z & Ek); [discriminate|].
      rewrite Ek, app_assoc in Hk. apply app_inj_tail in Hk as [Hk _].
      assert (Hx : In (OReturn i) (flat_map (fun t => [OTopic i t; OMade i t (as_int32 p)]) tns)) by (rewrite Hk; apply in_or_app; now left).
      apply in_flat_map in Hx as (t' & _ & [Hx|[Hx|[]]]); discriminate. }
    subst k. rewrite app_nil_r in Hk. rewrite <- Hk. apply in_or_app. left. apply in_flat_map. exists t. split; [assumption|]. cbn. auto. }
  apply filter_In in Hm as [Hm _]. unfold tr_has. apply existsb_exists. exists (OMade i t (as_int32 p)). split; [exact Hm|apply same_refl].
Qed.
Theorem create_list port ch evs s0 A i A0 tns p c corr client r ts s :
  let m := w_request 2 1 corr client (w_list_req r ts) in
  run (init port ch) evs = (s0, A) -> calls (init port ch) [] evs !! i = Some (A0, CallCreate tns p) -> In (OReturn i) A ->
  l_header 2 1 corr client = true -> l_list r ts = true -> zlen (w_list_req r ts) <= 4096 ->
  serving port ch A c m s ->
  answers c s (fun B rep => exists ents, rep = w_reply corr (w_list_resp ents) /\ same_shape ts ents /\
    forall t T j er tm o, In t tns -> In (t, (as_int32 p, T), (j, er, tm, o)) (pairs ts ents) -> er = 0) (2 * entries ts + 5).
Proof.
  cbv zeta. intros HR Hc Hret H1 H2 H3 H4. eapply answers_mono; [|exact (TurnProofs.list_turns _ _ _ _ _ _ _ _ _ H1 H2 H3 H4)].
  intros B rep (ents & E & S & I). exists ents. split; [exact E|]. split; [exact S|]. intros t T j er tm o Ht Hi.
  destruct (turn_in _ _ _ _ _ _ _ I Hi) as (n & _ & HL). unfold list_right in HL. destruct HL as [_ HL].
  rewrite <- app_assoc in HL. rewrite (tr_has_mono t (as_int32 p) A _ (create_returned _ _ _ _ _ _ _ _ _ HR Hc Hret t Ht)) in HL.
  now destruct HL as [-> _].
Qed.

(** An OffsetFetch reply with, for each partition that was there, the group's offset at
    some moment. *)
Definition off_at (A : list obs) (corr : Z) (g : bytes) (ts : list (bytes * list Z)) (B : list obs) (r : bytes) : Prop :=
  exists ents, r = w_reply corr (w_off_resp ents) /\
    (forall t p, In (t, p) (flat ts) -> tr_has t p A = true -> exists l o, In (t, l) ents /\ In (p, o, None, 0) l) /\
    (forall t l p o m er, In (t, l) ents -> In (p, o, m, er) l -> sometime A B (fun os => o = tr_off t p g os)).
Lemma answers_and_off port ch A c corr client g ts s :
  let m := w_request 9 1 corr client (w_off_req g ts) in
  l_header 9 1 corr client = true -> l_off g ts = true -> zlen (w_off_req g ts) <= 4096 ->
  serving port ch A c m s -> answers c s (off_at (A ++ [OFrame c m]) corr g ts) (3 * entries ts + 6).
Proof.
  cbv zeta. intros H1 H2 H3 H4. eapply answers_mono; [|exact (off_answered _ _ _ _ _ _ _ _ _ H1 H2 H3 H4)].
  intros B rep. generalize (A ++ [OFrame c (w_request 9 1 corr client (w_off_req g ts))]) as A0.
  intros A0 (ents & inc & -> & HF & _ & HT & HE). exists ents. split; [reflexivity|]. split.
  - intros t p Hi Ha. pose proof (found_in _ _ _ _ _ _ HF Hi Ha) as Hn.
    assert (Ht : In t (map fst ents)) by (apply HT; exact (in_map fst _ _ Hn)).
    apply in_map_iff in Ht as ([t' l] & Ht & Hl). cbn [fst] in Ht. subst t'. destruct (HE t l Hl) as [Hm Hr].
    assert (Hp : In p (map (fun e : Z * Z * option bytes * Z => let '(i, _, _, _) := e in i) l)).
    { rewrite Hm. apply (in_map snd _ (t, p)). apply filter_In. split; [exact Hn|]. apply bool_decide_eq_true. reflexivity. }
    apply in_map_iff in Hp as ([[[p' o] m] er] & Hp & Hl2). cbv beta iota in Hp. subst p'.
    rewrite List.Forall_forall in Hr. destruct (Hr _ Hl2) as (-> & -> & _). exists l, o. split; assumption.
  - intros t l p o m er Hl Hx. destruct (HE t l Hl) as [_ Hr]. rewrite List.Forall_forall in Hr.
    now destruct (Hr _ Hx) as (_ & _ & Hs).
Qed.
Theorem set_off port ch evs s0 A i A0 t p g x c corr client ts s :
  let m := w_request 9 1 corr client (w_off_req g ts) in
  run (init port ch) evs = (s0, A) -> calls (init port ch) [] evs !! i = Some (A0, CallSet t p g x) -> In (OReturn i) A ->
  tr_has t (as_int32 p) A0 = true ->
  l_header 9 1 corr client = true -> l_off g ts = true -> zlen (w_off_req g ts) <= 4096 -> In (t, as_int32 p) (flat ts) ->
  serving port ch A c m s ->
  exists X Y, A = X ++ OSet i t (as_int32 p) g x :: Y /\
  answers c s (fun B rep => (forall o, In o (Y ++ B) -> ~ ConsumerSpec.moves t (as_int32 p) g o) ->
    exists ents, rep = w_reply corr (w_off_resp ents) /\
      (exists l, In (t, l) ents /\ In (as_int32 p, x, None, 0) l) /\
      (forall l o md er, In (t, l) ents -> In (as_int32 p, o, md, er) l -> o = x)) (3 * entries ts + 6).
Proof.
  cbv zeta. intros HR Hc Hret Hh H1 H2 H3 Hin H4.
  destruct (CallProofs.calls_effect _ _ _ _ _ _ _ _ HR Hc) as [HP He]. cbn [effect] in He.
  assert (Hd : In (OReturn i) (done_by i A)) by (apply filter_In; split; [exact Hret|cbn; apply Nat.eqb_refl]).
  assert (HS : In (OSet i t (as_int32 p) g x) (done_by i A)).
  { destruct He as [He|[[_ (A1 & [R ->] & _ & Hn)]|[He _]]]; [rewrite He in Hd; destruct Hd| |rewrite He; now left].
    rewrite (tr_has_mono _ _ A0 R Hh) in Hn. discriminate. }
  apply filter_In in HS as [HS _]. apply in_split in HS as (X & Y & EA). exists X, Y. split; [exact EA|].
  eapply answers_mono; [|exact (answers_and_off _ _ _ _ _ _ _ _ _ H1 H2 H3 H4)].
  intros B rep. cbv beta. intros HB HM. destruct HB as (ents & E & HA & HB). exists ents. split; [exact E|].
  assert (HX : forall l o md er, In (t, l) ents -> In (as_int32 p, o, md, er) l -> o = x).
  { intros l o md er Hl Hx. destruct (HB _ _ _ _ _ _ Hl Hx) as (B1 & [B2 EB] & ->). subst B. rewrite EA. unfold tr_off.
    rewrite <- !app_assoc, fold_left_app. cbn [app fold_left off_step]. rewrite same_refl, bool_decide_eq_true_2 by reflexivity. cbn [andb].
    rewrite fold_left_app. cbn [app fold_left off_step]. rewrite !ConsumerProofs.off_unmoved; [reflexivity|..].
    - intros o Ho. apply HM. apply in_or_app. now left.
    - intros o Ho. apply HM. apply in_or_app. right. apply in_or_app. now left. }
  split; [|exact HX].
  assert (HA0 : tr_has t (as_int32 p) (A ++ [OFrame c (w_request 9 1 corr client (w_off_req g ts))]) = true).
  { destruct HP as [R ->]. rewrite <- app_assoc. now apply tr_has_mono. }
  destruct (HA t (as_int32 p) Hin HA0) as (l & o & Hl & Ho). exists l. split; [exact Hl|]. now rewrite <- (HX l o None 0 Hl Ho).
Qed.
