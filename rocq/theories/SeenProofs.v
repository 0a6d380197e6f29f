(** * SeenProofs: replies show at least what was there before *)
From Verif Require Export SeenSpec SnapProofs.
From Verif Require Import ReplyMore.
From Verif Require OddReplies.
From stdpp Require Import gmap list.
Open Scope Z_scope.
Open Scope list_scope.

Lemma was_sees A B0 t p off mx x : 0 <= off -> as_it_was A (A ++ B0) (t, (p, off, mx)) x -> tr_has t p A = true ->
  zlen (tr_log t p (A ++ B0)) <= fst x.
Proof.
  intros Hn [H|[H _]] Ha; [|cbn [fst snd] in H; congruence]. now apply exact_hw in H as [H _].
Qed.
Theorem fetch_seen port ch A c corr client r w mb ts s :
  let m := w_request 1 2 corr client (w_fetch_req r w mb ts) in
  l_header 1 2 corr client = true -> l_fetch r w mb ts = true -> zlen (w_fetch_req r w mb ts) <= 4096 ->
  nonneg_offsets ts -> (length ts <= length (flat ts))%nat ->
  serving port ch A c m s -> answers_right c s (fetch_sees (A ++ [OFrame c m]) corr ts).
Proof.
  cbv zeta. intros H1 H2 H3 H4 H5 H6. eapply OddReplies.answers_right_mono; [|exact (fetch_snapshot _ _ _ _ _ _ _ _ _ _ _ H1 H2 H3 H4 H5 H6)].
  intros B rep HS Hp. destruct (HS Hp) as (res & B0 & P & F & ->). exists res. split; [reflexivity|].
  clear - H4 F. revert H4 F. unfold nonneg_offsets. generalize (A ++ [OFrame c (w_request 1 2 corr client (w_fetch_req r w mb ts))]) as A0. intros A0 HN HF.
  induction HF as [|q x qs res Hx _ IH]; constructor.
  - intros Ha. apply Forall_cons_1 in HN as [HN _]. destruct q as [t [[p off] mx]]. cbn [fst snd] in *.
    pose proof (was_sees A0 B0 t p off mx x HN Hx Ha). pose proof (zlen_log_prefix t p A0 [] B0 (prefix_nil B0)) as L. rewrite app_nil_r in L. lia.
  - apply IH. now apply Forall_cons_1 in HN as [_ HN].
Qed.

Theorem list_seen port ch A c corr client replica ts s :
  let m := w_request 2 1 corr client (w_list_req replica ts) in
  l_header 2 1 corr client = true -> l_list replica ts = true -> zlen (w_list_req replica ts) <= 4096 ->
  serving port ch A c m s -> answers c s (list_sees (A ++ [OFrame c m]) corr ts) (2 * entries ts + 5).
Proof.
  cbv zeta. intros H1 H2 H3 H4. eapply answers_mono; [|exact (list_answered _ _ _ _ _ _ _ _ _ H1 H2 H3 H4)].
  intros B rep (ents & -> & HE). exists ents. split; [reflexivity|]. revert HE. generalize (A ++ [OFrame c (w_request 2 1 corr client (w_list_req replica ts))]) as A0.
  intros A0 HE. eapply Forall2_impl; [exact HE|]. intros [t ps] [t' es] [Ht Hp]. split; [exact Ht|]. cbn [fst snd] in *.
  eapply Forall2_impl; [exact Hp|]. intros [idx T] [[[i er] tm] o] (B1 & _ & HR) ET Ha. cbn [fst snd] in *. subst T. destruct HR as [_ HR].
  rewrite (tr_has_mono t idx A0 B1 Ha) in HR. cbn [Z.eqb Pos.eqb] in HR. destruct HR as (_ & -> & _).
  pose proof (zlen_log_prefix t idx A0 [] B1 (prefix_nil B1)) as L. now rewrite app_nil_r in L.
Qed.

Lemma off_grows t p g l : (forall i y, ~ In (OSet i t p g y) l) -> forall cur, cur <= fold_left (off_step t p g) l cur.
Proof.
  induction l as [|o l IH]; intros H cur; cbn [fold_left]; [lia|].
  assert (Hl : forall i y, ~ In (OSet i t p g y) l) by (intros i y Hi; apply (H i y); now right).
  pose proof (IH Hl (off_step t p g cur o)) as G. enough (cur <= off_step t p g cur o) by lia.
  destruct o; cbn [off_step]; try lia; match goal with |- context [same ?a ?b ?c ?d] => destruct (same a b c d) eqn:E1 end; [|cbn; lia| |cbn; lia];
    match goal with |- context [bool_decide (?a = ?b)] => destruct (bool_decide_reflect (a = b)) as [<-|] end; cbn [andb]; try lia.
  apply same_true in E1 as [<- <-]. exfalso. eapply H. now left.
Qed.
Lemma found_in A B req inc t p : found A B req inc -> In (t, p) req -> tr_has t p A = true -> In (t, p) inc.
Proof.
  intros HF. induction HF as [|t' p' req inc H _ IH|t' p' req inc (B1 & _ & H) _ IH]; [intros []|intros [E|Hi] Ha..].
  - left. exact E.
  - right. now apply IH.
  - injection E as -> ->. rewrite (tr_has_mono t p A B1 Ha) in H. discriminate.
  - now apply IH.
Qed.
Theorem off_seen port ch A c corr client g ts s :
  let m := w_request 9 1 corr client (w_off_req g ts) in
  l_header 9 1 corr client = true -> l_off g ts = true -> zlen (w_off_req g ts) <= 4096 ->
  serving port ch A c m s -> answers c s (off_sees (A ++ [OFrame c m]) corr g ts) (3 * entries ts + 6).
Proof.
  cbv zeta. intros H1 H2 H3 H4. eapply answers_mono; [|exact (off_answered _ _ _ _ _ _ _ _ _ H1 H2 H3 H4)].
  intros B rep. generalize (A ++ [OFrame c (w_request 9 1 corr client (w_off_req g ts))]) as A0.
  intros A0 (ents & inc & -> & HF & _ & HT & HE). exists ents. split; [reflexivity|]. split.
  - intros t p Hi Ha. pose proof (found_in _ _ _ _ _ _ HF Hi Ha) as Hn.
    assert (Ht : In t (map fst ents)) by (apply HT; exact (in_map fst _ _ Hn)).
    apply in_map_iff in Ht as ([t' l] & Ht & Hl). cbn [fst] in Ht. subst t'. destruct (HE t l Hl) as [Hm Hr].
    assert (Hp : In p (map (fun e : Z * Z * option bytes * Z => let '(i, _, _, _) := e in i) l)).
    { rewrite Hm. apply (in_map snd _ (t, p)). apply filter_In. split; [exact Hn|]. apply bool_decide_eq_true. reflexivity. }
    apply in_map_iff in Hp as ([[[p' o] m] er] & Hp & Hl2). cbv beta iota in Hp. subst p'.
    rewrite List.Forall_forall in Hr. destruct (Hr _ Hl2) as (-> & -> & _). exists l, o. split; assumption.
  - intros t l p o m er Hl Hx HS. destruct (HE t l Hl) as [_ Hr]. rewrite List.Forall_forall in Hr.
    destruct (Hr _ Hx) as (_ & _ & B1 & [B2 ->] & ->). unfold tr_off. rewrite fold_left_app. apply off_grows.
    intros i y Hi. apply (HS i y). apply in_or_app. now left.
Qed.

(** ** One Fetch after another *)
Lemma log_has port ch A c m s corr extra tk t p : serving port ch A c m s -> beginRequest port m = Some (corr, extra, tk) ->
  tr_log t p (A ++ [OFrame c m]) <> [] -> tr_has t p (A ++ [OFrame c m]) = true.
Proof.
  intros Hs Hb Hl. destruct (serving_inv _ _ _ _ _ _ _ _ _ Hs Hb) as (inb & _ & Hi & _).
  pose proof (proj2 (i_store _ _ _ _ Hi) t p) as Hp. destruct (lookupPart (sDs s) t p) as [kp|].
  - exact (po_has _ _ _ _ Hp).
  - destruct Hl. exact (np_recs _ _ _ Hp).
Qed.
Theorem fetch_not_back port ch A1 c1 corr1 client1 r1 w1 mb1 ts1 s1 :
  let m1 := w_request 1 2 corr1 client1 (w_fetch_req r1 w1 mb1 ts1) in
  l_header 1 2 corr1 client1 = true -> l_fetch r1 w1 mb1 ts1 = true -> zlen (w_fetch_req r1 w1 mb1 ts1) <= 4096 ->
  nonneg_offsets ts1 -> (length ts1 <= length (flat ts1))%nat ->
  serving port ch A1 c1 m1 s1 ->
  answers_right c1 s1 (fun B1 rep1 => posts_small ((A1 ++ [OFrame c1 m1]) ++ B1) ->
    exists res1, rep1 = w_reply corr1 (w_fetch_resp 0 (fetch_ents ts1 res1)) /\ length res1 = length (flat ts1) /\
    forall A2 c2 corr2 client2 r2 w2 mb2 ts2 s2,
    let m2 := w_request 1 2 corr2 client2 (w_fetch_req r2 w2 mb2 ts2) in
    l_header 1 2 corr2 client2 = true -> l_fetch r2 w2 mb2 ts2 = true -> zlen (w_fetch_req r2 w2 mb2 ts2) <= 4096 ->
    nonneg_offsets ts2 -> (length ts2 <= length (flat ts2))%nat ->
    serving port ch A2 c2 m2 s2 -> ((A1 ++ [OFrame c1 m1]) ++ B1) `prefix_of` A2 ->
    answers_right c2 s2 (fun B2 rep2 => posts_small ((A2 ++ [OFrame c2 m2]) ++ B2) ->
      exists res2, rep2 = w_reply corr2 (w_fetch_resp 0 (fetch_ents ts2 res2)) /\ length res2 = length (flat ts2) /\
        not_back (flat ts1) res1 (flat ts2) res2)).
Proof.
  cbv zeta. intros H1 H2 H3 H4 H5 H6. eapply OddReplies.answers_right_mono; [|exact (fetch_snapshot _ _ _ _ _ _ _ _ _ _ _ H1 H2 H3 H4 H5 H6)].
  intros B1 rep1 HS Hp. destruct (HS Hp) as (res1 & B01 & P1 & F1 & ->). exists res1. split; [reflexivity|].
  split; [symmetry; exact (Forall2_length _ _ _ F1)|]. clear HS Hp.
  intros A2 c2 corr2 client2 r2 w2 mb2 ts2 s2 G1 G2 G3 G4 G5 G6 HP.
  eapply OddReplies.answers_right_mono; [|exact (fetch_snapshot _ _ _ _ _ _ _ _ _ _ _ G1 G2 G3 G4 G5 G6)].
  intros B2 rep2 HS Hp. destruct (HS Hp) as (res2 & B02 & P2 & F2 & ->). exists res2. split; [reflexivity|].
  split; [symmetry; exact (Forall2_length _ _ _ F2)|]. clear HS Hp.
  pose proof (fun t p => log_has _ _ _ _ _ _ _ _ _ t p G6 (fetch_begin port _ _ _ _ _ _ G1 G2 G3)) as HL.
  assert (HQ : ((A1 ++ [OFrame c1 (w_request 1 2 corr1 client1 (w_fetch_req r1 w1 mb1 ts1))]) ++ B01) `prefix_of`
    (A2 ++ [OFrame c2 (w_request 1 2 corr2 client2 (w_fetch_req r2 w2 mb2 ts2))])).
  { etransitivity; [apply prefix_app; exact P1|]. etransitivity; [exact HP|]. now apply prefix_app_r. }
  revert F1 F2 HL HQ H4 G4. clear. unfold nonneg_offsets.
  generalize (A1 ++ [OFrame c1 (w_request 1 2 corr1 client1 (w_fetch_req r1 w1 mb1 ts1))]) as X1.
  generalize (A2 ++ [OFrame c2 (w_request 1 2 corr2 client2 (w_fetch_req r2 w2 mb2 ts2))]) as X2.
  intros X2 X1 F1 F2 HL HQ N1 N2 k l t p o1 m1 o2 m2 x1 x2 Q1 R1 E1 Q2 R2.
  assert (N : forall X Y qs res k q x, Forall2 (as_it_was X Y) qs res -> Forall (fun q : bytes * (Z * Z * Z) => 0 <= snd (fst (snd q))) qs ->
    nth_error qs k = Some q -> nth_error res k = Some x -> as_it_was X Y q x /\ 0 <= snd (fst (snd q))).
  { clear. intros X Y qs res k q x HF. revert k. induction HF as [|q' x' qs res H _ IH]; intros k HN H1 H2; [now destruct k|].
    apply Forall_cons_1 in HN as [HN1 HN2]. destruct k as [|k]; [injection H1 as <-; injection H2 as <-; now split|exact (IH k HN2 H1 H2)]. }
  destruct (N _ _ _ _ _ _ _ F1 N1 Q1 R1) as [W1 O1]. destruct (N _ _ _ _ _ _ _ F2 N2 Q2 R2) as [W2 O2]. cbn [fst snd] in O1, O2. clear N F1 F2 N1 N2.
  destruct W1 as [W1|[_ ->]]; [|now destruct E1].
  assert (L1 : fst x1 = zlen (tr_log t p (X1 ++ B01)) /\ tr_log t p (X1 ++ B01) <> []).
  { unfold exactly in W1. subst x1. cbn [fst snd] in *.
    assert (NE : skipn (Z.to_nat o1) (tr_log t p (X1 ++ B01)) <> []) by (intros E; rewrite E in E1; now apply E1).
    assert (LL : (Z.to_nat o1 < length (tr_log t p (X1 ++ B01)))%nat).
    { destruct (Nat.lt_ge_cases (Z.to_nat o1) (length (tr_log t p (X1 ++ B01)))) as [|Hge]; [assumption|].
      destruct NE. now apply skipn_all2. }
    split; [unfold zlen; rewrite skipn_length; lia|]. intros E. rewrite E in LL. cbn in LL. lia. }
  destruct L1 as [-> NE].
  pose proof (zlen_log_pre t p _ _ HQ) as LE.
  assert (Hh : tr_has t p X2 = true).
  { apply HL. intros E. rewrite E in LE. destruct (tr_log t p (X1 ++ B01)); [now apply NE|]. unfold zlen in LE. cbn [length] in LE. lia. }
  pose proof (was_sees X2 B02 t p o2 m2 x2 O2 W2 Hh). pose proof (zlen_log_prefix t p X2 [] B02 (prefix_nil B02)) as L. rewrite app_nil_r in L. lia.
Qed.
