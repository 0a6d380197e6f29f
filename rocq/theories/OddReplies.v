(** * OddReplies: the replies to requests written differently *)
From Verif Require Export OddSim ReplyMore SyncProofs DispatchProofs.
From stdpp Require Import gmap list.
From Coq Require Import ZifyBool ZifyNat.
Open Scope Z_scope.
Open Scope list_scope.

(** ** What came in does not matter to what a trace says *)
Definition came_in (o : obs) : bool := match o with ORead _ _ | OFrame _ _ => true | _ => false end.
Definition agree : list obs -> list obs -> Prop := Forall2 (fun o o' => o = o' \/ (came_in o = true /\ came_in o' = true)).

Lemma agree_refl l : agree l l.
Proof. induction l; constructor; auto. Qed.
Lemma agree_app a a' b b' : agree a a' -> agree b b' -> agree (a ++ b) (a' ++ b').
Proof. apply Forall2_app. Qed.
Lemma agree_served c A A' m m' B : same_but_read c A A' -> agree ((A ++ [OFrame c m]) ++ B) ((A' ++ [OFrame c m']) ++ B).
Proof.
  intros H. apply agree_app; [|apply agree_refl]. apply agree_app.
  - eapply Forall2_impl; [exact H|]. intros o o' [->|(x & x' & -> & -> & _)]; auto.
  - constructor; [now right|constructor].
Qed.
Lemma agree_flat {B} (f : obs -> list B) l l' : (forall o, came_in o = true -> f o = []) -> agree l l' -> flat_map f l = flat_map f l'.
Proof.
  intros Hf. induction 1 as [|o o' l l' Ho _ IH]; [reflexivity|]. cbn [flat_map]. rewrite IH.
  destruct Ho as [->|[H1 H2]]; [reflexivity|]. now rewrite (Hf o H1), (Hf o' H2).
Qed.
Lemma agree_exists (f : obs -> bool) l l' : (forall o, came_in o = true -> f o = false) -> agree l l' -> existsb f l = existsb f l'.
Proof.
  intros Hf. induction 1 as [|o o' l l' Ho _ IH]; [reflexivity|]. cbn [existsb]. rewrite IH.
  destruct Ho as [->|[H1 H2]]; [reflexivity|]. now rewrite (Hf o H1), (Hf o' H2).
Qed.
Lemma agree_fold {B} (f : B -> obs -> B) l l' : (forall o x, came_in o = true -> f x o = x) -> agree l l' -> forall x, fold_left f l x = fold_left f l' x.
Proof.
  intros Hf. induction 1 as [|o o' l l' Ho _ IH]; intros x; [reflexivity|]. cbn [fold_left].
  destruct Ho as [->|[H1 H2]]; [apply IH|]. now rewrite (Hf o x H1), (Hf o' x H2).
Qed.
Ltac in_tac := intros []; intros; (discriminate || reflexivity).
Section agree.
Context (l l' : list obs) (H : agree l l').
Lemma agree_has t p : tr_has t p l = tr_has t p l'.
Proof. apply agree_exists; [in_tac|exact H]. Qed.
Lemma agree_log t p : tr_log t p l = tr_log t p l'.
Proof. apply agree_flat; [in_tac|exact H]. Qed.
Lemma agree_topic t : tr_topic t l = tr_topic t l'.
Proof. apply agree_exists; [in_tac|exact H]. Qed.
Lemma agree_off t p g : tr_off t p g l = tr_off t p g l'.
Proof. apply agree_fold; [in_tac|exact H]. Qed.
Lemma agree_now : tr_now l = tr_now l'.
Proof. apply agree_fold; [in_tac|exact H]. Qed.
Lemma agree_wall : tr_wall l = tr_wall l'.
Proof. apply agree_fold; [in_tac|exact H]. Qed.
Lemma agree_cancelled : tr_cancelled l = tr_cancelled l'.
Proof. apply agree_fold; [in_tac|exact H]. Qed.
End agree.
Lemma agree_in l l' i t p r : agree l l' -> In (OPosted i t p r) l' -> In (OPosted i t p r) l.
Proof.
  induction 1 as [|o o' a b Ho _ IH]; [auto|].
  intros [E|Hin]; [|right; auto]. left. subst o'. destruct Ho as [->|[_ Hx]]; [reflexivity|discriminate].
Qed.
Lemma agree_small l l' : agree l l' -> posts_small l -> posts_small l'.
Proof. intros H Hp i t p r Hin. apply (Hp i t p r). eapply agree_in; eauto. Qed.

Section replies.
Context (A A' : list obs) (HA : forall B, agree (A ++ B) (A' ++ B)).
Lemma sometime_agree B (P P' : list obs -> Prop) : (forall l l', agree l l' -> P l -> P' l') -> sometime A B P -> sometime A' B P'.
Proof. intros HP (B1 & H1 & H2). exists B1. split; [assumption|]. eapply HP; [apply HA|exact H2]. Qed.
Lemma commit_agree c corr g ts B r : commit_reply A c corr g ts B r -> commit_reply A' c corr g ts B r.
Proof.
  intros (ents & -> & He & Hc). exists ents. split; [reflexivity|]. split; [|exact Hc]. eapply Forall2_impl; [exact He|].
  intros [t ps] [t' es] [Ht HF]. split; [exact Ht|]. eapply Forall2_impl; [exact HF|]. intros [[i o] mm] [e1 e2] [E1 E2]. split; [exact E1|].
  destruct E2 as [[E2 E3]|[E2 E3]]; [left|right]; (split; [exact E2|]); [now rewrite <- (agree_has _ _ (HA B))|].
  eapply sometime_agree; [|exact E3]. intros l l' Hl Hh. now rewrite <- (agree_has _ _ Hl).
Qed.
Lemma off_agree corr g ts B r : off_reply A corr g ts B r -> off_reply A' corr g ts B r.
Proof.
  intros (ents & inc & -> & Hf & Hn & Hi & He). exists ents, inc. split; [reflexivity|]. split; [|split; [exact Hn|split; [exact Hi|]]].
  - clear - Hf HA. induction Hf as [|t p req inc Hh _ IH|t p req inc Hh _ IH]; [constructor|apply found_yes|apply found_no]; try assumption.
    + now rewrite <- (agree_has _ _ (HA B)).
    + eapply sometime_agree; [|exact Hh]. intros l l' Hl Hx. now rewrite <- (agree_has _ _ Hl).
  - intros t l Hin. destruct (He t l Hin) as [H1 H2]. split; [exact H1|]. eapply Forall_impl; [exact H2|].
    intros [[[i o] mm] er] (E1 & E2 & E3). split; [exact E1|]. split; [exact E2|]. eapply sometime_agree; [|exact E3].
    intros x x' Hx ->. apply (agree_off _ _ Hx).
Qed.
Lemma list_agree corr ts B r : list_reply A corr ts B r -> list_reply A' corr ts B r.
Proof.
  intros (ents & -> & He). exists ents. split; [reflexivity|]. eapply Forall2_impl; [exact He|].
  intros [t ps] [t' es] [Ht HF]. split; [exact Ht|]. eapply Forall2_impl; [exact HF|]. intros [i T] [[[e1 e2] e3] e4] E.
  eapply sometime_agree; [|exact E]. intros l l' Hl. unfold list_right.
  now rewrite (agree_has _ _ Hl), (agree_log _ _ Hl), (agree_wall _ _ Hl).
Qed.
Lemma sync_agree corr B r : sync_reply A corr B r -> sync_reply A' corr B r.
Proof.
  intros (asg & -> & Hn & H). exists asg. split; [reflexivity|]. split; [exact Hn|]. eapply sometime_agree; [|exact H].
  intros l l' Hl [H1 H2]. split.
  - intros t. now rewrite <- (agree_topic _ _ Hl).
  - intros t ps Hin. destruct (H2 t ps Hin) as [H3 H4]. split; [exact H3|]. intros p. now rewrite <- (agree_has _ _ Hl).
Qed.
Lemma fetch_agree corr w ts B r : (forall B, agree (A' ++ B) (A ++ B)) -> fetch_reply A corr w ts B r -> fetch_reply A' corr w ts B r.
Proof.
  intros HA' H Hp. destruct (H (agree_small _ _ (HA' B) Hp)) as (res & HF & Hd & ->). exists res. split; [|split; [|reflexivity]].
  - eapply Forall2_impl; [exact HF|]. intros [t [[idx off] max]] x (rs & E1 & E2 & E3 & E4 & E5). exists rs.
    split; [exact E1|]. split; [exact E2|]. split; [exact E3|]. split; [now rewrite <- (agree_log _ _ (HA B))|].
    eapply sometime_agree; [|exact E5]. intros l l' Hl. cbv beta. now rewrite (agree_has _ _ Hl), (agree_log _ _ Hl).
  - destruct Hd as [Hd|[Hd|Hd]]; [left; exact Hd|right; left|right; right]; (eapply sometime_agree; [|exact Hd]); intros l l' Hl.
    + cbv beta. assert (E : tr_now A = tr_now A') by (pose proof (agree_now _ _ (HA [])) as G; now rewrite !app_nil_r in G).
      now rewrite (agree_now _ _ Hl), E.
    + cbv beta. now rewrite (agree_cancelled _ _ Hl).
Qed.
End replies.

Lemma agree_sym l l' : agree l l' -> agree l' l.
Proof. induction 1 as [|o o' a b [->|[H1 H2]] _ IH]; constructor; auto. Qed.

(** ** Replies *)
Lemma answers_right_mono c s (R R' : list obs -> bytes -> Prop) : (forall B r, R B r -> R' B r) -> answers_right c s R -> answers_right c s R'.
Proof.
  intros HR H evs s' B Hr Hs. destruct (H evs s' B Hr Hs) as [H1 H2]. split.
  - destruct H1 as [H1|(B' & r & P1 & P2 & P3)]; [now left|right; exists B', r; auto].
  - intros Hx. destruct (H2 Hx) as (B' & r & P1 & P2 & P3). exists B', r. auto.
Qed.

Section odd.
Context (port : Z) (ch : list nat) (A : list obs) (c : nat) (m : bytes) (s : sys) (corr : Z) (h b : bytes).
Context (Hs : serving port ch A c m s) (Hc : sCrash s = false).

Ltac plainly Hm :=
  destruct (odd_as_plain _ _ _ _ _ _ _ _ _ _ _ _ Hs Hc Hm) as
    (sh & client & hc & body & A' & pre & post & El & _ & _ & Rb & Lh & Pb & Zb & SA & _ & _ & _ & Hs');
  cbn [layout] in El; injection El as <-; rewrite app_nil_r in Hs'.

Lemma odd_commit : is_request m 8 2 corr h b [] ->
  exists g gen mem ret ts, reworded (SRec [SStr; SInt 4; SStr; SInt 8; s_topics (SRec [SInt 4; SInt 8; SStr])]) b (w_commit_req g gen mem ret ts) /\
    answers c s (commit_reply (A ++ [OFrame c m]) c corr g ts) (2 * entries ts + 5).
Proof.
  intros Hm. plainly Hm. destruct Pb as (g & gen & mem & ret & ts & -> & Lb). exists g, gen, mem, ret, ts. split; [exact Rb|].
  eapply answers_mono; [|exact (commit_answered _ _ _ _ _ _ _ _ _ _ _ _ Lh Lb Zb Hs')]. intros B r.
  apply commit_agree. intros B0. apply agree_sym. now apply agree_served.
Qed.
Lemma odd_off : is_request m 9 1 corr h b [] ->
  exists g ts, reworded (SRec [SStr; s_topics (SInt 4)]) b (w_off_req g ts) /\
    answers c s (off_reply (A ++ [OFrame c m]) corr g ts) (3 * entries ts + 6).
Proof.
  intros Hm. plainly Hm. destruct Pb as (g & ts & -> & Lb). exists g, ts. split; [exact Rb|].
  eapply answers_mono; [|exact (off_answered _ _ _ _ _ _ _ _ _ Lh Lb Zb Hs')]. intros B r.
  apply off_agree. intros B0. apply agree_sym. now apply agree_served.
Qed.
Lemma odd_list : is_request m 2 1 corr h b [] ->
  exists replica ts, reworded (SRec [SInt 4; s_topics (SRec [SInt 4; SInt 8])]) b (w_list_req replica ts) /\
    answers c s (list_reply (A ++ [OFrame c m]) corr ts) (2 * entries ts + 5).
Proof.
  intros Hm. plainly Hm. destruct Pb as (g & ts & -> & Lb). exists g, ts. split; [exact Rb|].
  eapply answers_mono; [|exact (list_answered _ _ _ _ _ _ _ _ _ Lh Lb Zb Hs')]. intros B r.
  apply list_agree. intros B0. apply agree_sym. now apply agree_served.
Qed.
Lemma odd_fetch : is_request m 1 2 corr h b [] ->
  exists replica wait minb ts, reworded (SRec [SInt 4; SInt 4; SInt 4; s_topics (SRec [SInt 4; SInt 8; SInt 4])]) b (w_fetch_req replica wait minb ts) /\
    (nonneg_offsets ts -> (length ts <= length (flat ts))%nat ->
     answers_right c s (fetch_reply (A ++ [OFrame c m]) corr wait ts)).
Proof.
  intros Hm. plainly Hm. destruct Pb as (r & w & mb & ts & -> & Lb). exists r, w, mb, ts. split; [exact Rb|]. intros Hn Hl.
  eapply answers_right_mono; [|exact (fetch_answered_right _ _ _ _ _ _ _ _ _ _ _ Lh Lb Zb Hn Hl Hs')]. intros B x.
  apply fetch_agree; intros B0; [apply agree_sym|]; now apply agree_served.
Qed.
Lemma odd_metadata : is_request m 3 1 corr h b [] ->
  exists topics, reworded (SRec [SArr SStr]) b (w_metadata_req topics) /\
    answers c s (fun _ r => r = w_reply corr (w_metadata_resp [(100, w_text "localhost", port, None)] 500
       (map (fun t => (0, t, false, [(0, 2, 100, [1], [1])])) topics))) 4.
Proof.
  intros Hm. plainly Hm. destruct Pb as (ts & -> & Lb). exists ts. split; [exact Rb|].
  exact (metadata_answered _ _ _ _ _ _ _ _ Lh Lb Zb Hs').
Qed.
Lemma odd_find : is_request m 10 0 corr h b [] ->
  answers c s (fun _ r => r = w_reply corr (w_find_resp 0 100 (w_text "localhost") port)) 4.
Proof. intros Hm. plainly Hm. destruct Pb as (k & -> & Lb). exact (find_answered _ _ _ _ _ _ _ _ Lh Lb Zb Hs'). Qed.
Lemma odd_join : is_request m 11 1 corr h b [] ->
  exists leader me, leader <> me /\
  answers c s (fun _ r => r = w_reply corr (w_join_resp 0 0 (w_text "roundrobin") leader me [(w_text "you", None)])) 4.
Proof. intros Hm. plainly Hm. destruct Pb as (g & se & re & mem & ty & ps & -> & Lb). exact (join_not_leader _ _ _ _ _ _ _ _ _ _ _ _ _ Lh Lb Zb Hs'). Qed.
Lemma odd_heartbeat : is_request m 12 0 corr h b [] -> answers c s (fun _ r => r = w_reply corr (w_error_resp 0)) 4.
Proof. intros Hm. plainly Hm. destruct Pb as (g & gen & mem & -> & Lb). exact (heartbeat_answered _ _ _ _ _ _ _ _ _ _ Lh Lb Zb Hs'). Qed.
Lemma odd_leave : is_request m 13 0 corr h b [] -> answers c s (fun _ r => r = w_reply corr (w_error_resp 0)) 4.
Proof. intros Hm. plainly Hm. destruct Pb as (g & mem & -> & Lb). exact (leave_answered _ _ _ _ _ _ _ _ _ Lh Lb Zb Hs'). Qed.
Lemma odd_versions : is_request m 18 0 corr h b [] -> answers c s (fun _ r => r = w_reply corr (w_versions_resp 0
  [(1, 2, 2); (2, 1, 1); (3, 1, 1); (8, 2, 2); (9, 1, 1); (10, 0, 0); (11, 1, 1); (12, 0, 0); (13, 0, 0); (14, 0, 0); (18, 0, 0)])) 5.
Proof. intros Hm. plainly Hm. cbn [plain_body] in Pb. subst body. exact (versions_answered _ _ _ _ _ _ _ Lh Hs'). Qed.
Lemma odd_sync : is_request m 14 0 corr h b [] ->
  exists g gen mem ps, reworded (SRec [SStr; SInt 4; SStr; SArr (SRec [SStr; SArr (SInt 1)])]) b (w_sync_req g gen mem ps) /\
    (ps = [] -> answers c s (sync_reply (A ++ [OFrame c m]) corr) 5) /\ (ps <> [] -> rejects c s 0).
Proof.
  intros Hm. plainly Hm. destruct Pb as (g & gen & mem & ps & -> & Lb). exists g, gen, mem, ps. split; [exact Rb|]. split.
  - intros ->. eapply answers_mono; [|exact (sync_answered _ _ _ _ _ _ _ _ _ _ Lh Lb Zb Hs')]. intros B r.
    apply sync_agree. intros B0. apply agree_sym. now apply agree_served.
  - intros Hp. exact (sync_rejected _ _ _ _ _ _ _ _ _ _ _ Lh Lb Hp Hs').
Qed.
End odd.
