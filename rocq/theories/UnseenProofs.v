(** * UnseenProofs: connections that only read are not noticed by anyone else *)
From Verif Require Export UnseenSpec HeaderProofs.
From stdpp Require Import gmap list.
Open Scope Z_scope.
Open Scope list_scope.

(** ** Stores up to offsets that are 0 *)
Definition nz_part (kp : kpart) : kpart :=
  Part (pIndex kp) (pError kp) (pRecs kp) (filter (fun q : bytes * Z => q.2 <> 0) (pOffs kp)) (pMeta kp).
Definition nz_topic (kt : ktopic) : ktopic := nz_part <$> kt.
Definition nz (ds : store) : store := nz_topic <$> ds.
Definition eqv (a b : store) : Prop := nz a = nz b.

Lemma nz_offsetOf kp g : offsetOf (nz_part kp) g = offsetOf kp g.
Proof.
  unfold offsetOf. cbn. destruct (pOffs kp !! g) as [o|] eqn:E.
  - destruct (decide (o = 0)) as [->|N].
    + rewrite (map_filter_lookup_None_2 _ _ _); [reflexivity|]. right. intros x Hx. rewrite E in Hx. injection Hx as <-. cbn. tauto.
    + rewrite (map_filter_lookup_Some_2 _ _ _ o); [reflexivity|assumption|exact N].
  - rewrite (map_filter_lookup_None_2 _ _ _); [reflexivity|]. now left.
Qed.
Lemma nz_get ds t : nz ds !! t = nz_topic <$> ds !! t.
Proof. apply lookup_fmap. Qed.
Lemma nz_getTopic ds t : getTopic (nz ds) t = getTopic ds t.
Proof. unfold getTopic. rewrite nz_get. now destruct (ds !! t). Qed.
Lemma nz_lookupPart ds t p : lookupPart (nz ds) t p = option_map nz_part (lookupPart ds t p).
Proof. unfold lookupPart. rewrite nz_get. destruct (ds !! t) as [kt|]; [|reflexivity]. cbn. unfold nz_topic. rewrite lookup_fmap. now destruct (kt !! p). Qed.
Lemma nz_hasPart ds t p : hasPart (nz ds) t p = hasPart ds t p.
Proof. unfold hasPart. rewrite nz_lookupPart. now destruct (lookupPart ds t p). Qed.
Lemma nz_createTopic ds t : createTopic (nz ds) t = nz (createTopic ds t).
Proof.
  unfold createTopic. rewrite nz_get. destruct (ds !! t); [reflexivity|]. cbn. unfold nz. rewrite fmap_insert. f_equal.
  unfold nz_topic. now rewrite fmap_empty.
Qed.
Lemma nz_new p : nz_part (new_part p) = new_part p.
Proof. unfold nz_part, new_part. cbn. f_equal. Qed.
Lemma nz_createPartition ds t p : createPartition (nz ds) t p = nz (createPartition ds t p).
Proof.
  unfold createPartition. rewrite nz_get. destruct (ds !! t) as [kt|]; [|reflexivity]. cbn.
  unfold nz_topic at 1. rewrite lookup_fmap. destruct (kt !! p); [reflexivity|]. cbn. unfold nz. rewrite fmap_insert. f_equal.
  unfold nz_topic. now rewrite fmap_insert, nz_new.
Qed.
Lemma nz_updPart ds t p f : (forall kp, nz_part (f (nz_part kp)) = nz_part (f kp)) -> nz (updPart (nz ds) t p f) = nz (updPart ds t p f).
Proof.
  intros H. assert (I : forall kp, nz_part (nz_part kp) = nz_part kp).
  { intros kp. unfold nz_part. cbn. f_equal. apply map_eq. intros g. apply option_eq. intros o. rewrite !map_filter_lookup_Some. tauto. }
  assert (J : forall m, nz (nz m) = nz m).
  { intros m. unfold nz. rewrite <- map_fmap_compose. apply map_fmap_ext. intros k kt _. cbn. unfold nz_topic.
    rewrite <- map_fmap_compose. apply map_fmap_ext. intros q kp _. apply I. }
  unfold updPart. rewrite nz_get. destruct (ds !! t) as [kt|]; [|apply J]. cbn [fmap option_fmap option_map].
  assert (EK : nz_topic kt !! p = nz_part <$> kt !! p) by apply lookup_fmap. rewrite EK. destruct (kt !! p) as [kp|]; [|apply J]. cbn [fmap option_fmap option_map].
  assert (FI : forall m x, nz (<[t := x]> m) = <[t := nz_topic x]> (nz m)) by (intros; apply fmap_insert). rewrite !FI, J. f_equal. unfold nz_topic. rewrite !fmap_insert. rewrite H. f_equal.
  rewrite <- map_fmap_compose. apply map_fmap_ext. intros q kq _. apply I.
Qed.
Lemma nz_idem ds : nz (nz ds) = nz ds.
Proof.
  assert (I : forall kp, nz_part (nz_part kp) = nz_part kp).
  { intros kp. unfold nz_part. cbn. f_equal. apply map_eq. intros g. apply option_eq. intros o. rewrite !map_filter_lookup_Some. tauto. }
  unfold nz. rewrite <- map_fmap_compose. apply map_fmap_ext. intros k kt _. cbn. unfold nz_topic.
  rewrite <- map_fmap_compose. apply map_fmap_ext. intros q kp _. apply I.
Qed.
Lemma nz_postRecord ds t p r : nz (postRecord (nz ds) t p r) = nz (postRecord ds t p r).
Proof. apply nz_updPart. intros kp. unfold nz_part. cbn. f_equal. apply map_eq. intros g. apply option_eq. intros o. rewrite !map_filter_lookup_Some. tauto. Qed.
Lemma nz_setOffset ds t p g o : nz (setOffset (nz ds) t p g o) = nz (setOffset ds t p g o).
Proof.
  apply nz_updPart. intros kp. unfold nz_part. cbn. f_equal. apply map_eq. intros x. apply option_eq. intros y. rewrite !map_filter_lookup_Some.
  destruct (decide (x = g)) as [->|N]; [now rewrite !lookup_insert|]. rewrite !lookup_insert_ne by congruence. rewrite map_filter_lookup_Some. tauto.
Qed.
(** Inserting a 0 changes nothing. *)
Lemma nz_touch ds t p g : nz (touchGroup ds t p g) = nz ds.
Proof.
  unfold touchGroup. destruct (lookupPart ds t p) as [kp|] eqn:E; [|reflexivity]. destruct (pOffs kp !! g) eqn:G; [reflexivity|].
  unfold setOffset, updPart. unfold lookupPart in E. destruct (ds !! t) as [kt|] eqn:T; [|reflexivity]. rewrite E.
  unfold nz. rewrite fmap_insert. apply insert_id. rewrite lookup_fmap, T. cbn. f_equal. unfold nz_topic. rewrite fmap_insert. symmetry. apply insert_id.
  rewrite lookup_fmap, E. cbn. f_equal. unfold nz_part. cbn. f_equal. apply map_eq. intros x. apply option_eq. intros y. rewrite !map_filter_lookup_Some.
  destruct (decide (x = g)) as [->|N]; [rewrite lookup_insert, G|now rewrite lookup_insert_ne by congruence].
  split; [intros [? ?]; discriminate|]. intros [H ?]. injection H as <-. cbn in *. tauto.
Qed.
Lemma nz_commitOffset ds t p g o : nz (commitOffset (nz ds) t p g o) = nz (commitOffset ds t p g o).
Proof.
  unfold commitOffset. rewrite nz_lookupPart. destruct (lookupPart ds t p) as [kp|]; [|apply nz_idem]. cbn.
  rewrite nz_offsetOf. destruct (offsetOf kp g <? o); [apply nz_setOffset|apply nz_idem].
Qed.

(** ** Handlers *)
Lemma nz_assign l : forall chs, assign_topics (map (fun q => (fst q, nz_topic (snd q))) l) chs = assign_topics l chs.
Proof.
  induction l as [|[n kt] l IH]; intros chs; [reflexivity|]. cbn [map assign_topics fst snd]. rewrite IH. f_equal. f_equal. f_equal.
  unfold nz_topic. rewrite map_to_list_order, shuffle_map, map_map. reflexivity.
Qed.
Lemma nz_sync ds ch chs : syncReply (nz ds) ch chs = syncReply ds ch chs.
Proof.
  unfold syncReply, makeMemberAssignment, memberAssignmentVal. unfold nz. rewrite map_to_list_order, shuffle_map, nz_assign. reflexivity.
Qed.
Lemma nz_listOne o T w : listOne (option_map nz_part o) T w = listOne o T w.
Proof. destruct o as [kp|]; reflexivity. Qed.
Lemma nz_fetchOne ds fd : fetchOne (nz ds) fd = fetchOne ds fd.
Proof.
  unfold fetchOne. destruct (fdKp fd) as [[t p]|]; [|reflexivity]. rewrite nz_lookupPart. now destruct (lookupPart ds t p) as [kp|].
Qed.
Definition nz_tres (r : tres) : tres := match r with TCont ds tk o => TCont (nz ds) tk o | TPanic => TPanic end.
Lemma nz_tstep c e ch ds tk : nz_tres (tstep c e ch (nz ds) tk) = nz_tres (tstep c e ch ds tk).
Proof.
  assert (F : forall rq fds, nz_tres (fetchFinish (nz ds) rq fds) = nz_tres (fetchFinish ds rq fds)).
  { intros rq fds. unfold fetchFinish. destruct (fetchReply rq fds); [|reflexivity]. cbn. now rewrite nz_idem. }
  destruct tk; cbn [tstep].
  - cbn. now rewrite nz_idem.
  - cbn. now rewrite nz_idem.
  - rewrite nz_sync. destruct (syncReply ds (chTop ch) (chIn ch)); cbn; now rewrite ?nz_idem.
  - destruct ops as [|[n|p] ops]; cbn; rewrite ?nz_idem, ?nz_getTopic; try reflexivity. destruct kt; [now rewrite nz_hasPart|reflexivity].
  - destruct todo; [destruct more; [cbn; now rewrite nz_idem|]; destruct (_ || _); [apply F|cbn; now rewrite nz_idem]|].
    rewrite nz_fetchOne. destruct (fetchOne ds f) as [[? ?]|]; cbn; now rewrite ?nz_idem.
  - destruct (eCancel e); [apply F|cbn; now rewrite nz_idem].
  - destruct (wake <=? eMono e); cbn; now rewrite nz_idem.
  - destruct pend.
    + destruct kt; cbn; [now rewrite nz_commitOffset|now rewrite nz_idem].
    + destruct ops as [|[n|p] ops]; cbn; rewrite ?nz_idem, ?nz_getTopic; try reflexivity.
      destruct kt; [rewrite nz_hasPart; destruct (hasPart _ _ _)|]; cbn; now rewrite nz_idem.
  - destruct pend.
    + destruct kt; cbn; [now rewrite nz_lookupPart, nz_listOne, nz_idem|now rewrite nz_idem].
    + destruct ops as [|[n|p] ops]; cbn; rewrite ?nz_idem, ?nz_getTopic; try reflexivity.
      destruct kt; [rewrite nz_hasPart; destruct (hasPart _ _ _)|]; cbn; now rewrite nz_idem.
  - destruct ops as [|[n|p] ops]; cbn; rewrite ?nz_idem, ?nz_getTopic; try reflexivity.
    destruct kt; [rewrite nz_hasPart; destruct (hasPart _ _ _)|]; cbn; now rewrite nz_idem.
  - destruct ops as [|[n|p] ops]; cbn; rewrite ?nz_idem; try reflexivity.
    destruct kt; [|reflexivity]. rewrite nz_lookupPart.
    destruct (lookupPart ds b p); [|reflexivity]. cbn. now rewrite !nz_touch, nz_idem, nz_offsetOf.
Qed.
Definition nz_ares (r : store * athread * list obs) := let '(ds, a, o) := r in (nz ds, a, o).
Lemma nz_astep i w ds a : nz_ares (astep i w (nz ds) a) = nz_ares (astep i w ds a).
Proof.
  destruct a as [| | | |[]| | | | |]; cbn; rewrite ?nz_createTopic, ?nz_createPartition, ?nz_postRecord, ?nz_setOffset, ?nz_getTopic, ?nz_hasPart, ?nz_idem; try reflexivity.
  - destruct (getTopic ds t); cbn; now rewrite nz_idem.
  - destruct (hasPart ds t (swrap 32 p)); cbn; now rewrite nz_idem.
Qed.
Lemma eqv_tstep c e ch a b tk : eqv a b -> nz_tres (tstep c e ch a tk) = nz_tres (tstep c e ch b tk).
Proof. intros H. rewrite <- (nz_tstep _ _ _ a), <- (nz_tstep _ _ _ b). now rewrite H. Qed.
Lemma eqv_astep i w a b x : eqv a b -> nz_ares (astep i w a x) = nz_ares (astep i w b x).
Proof. intros H. rewrite <- (nz_astep _ _ a), <- (nz_astep _ _ b). now rewrite H. Qed.

(** A handler that does not commit leaves the store as it is, up to zeroes, and
    is not observed. *)
Lemma tstep_reads c e ch ds tk ds' tk' o : tstep c e ch ds tk = TCont ds' tk' o ->
  (forall t p g x, ~ In (OCommit c t p g x) o) -> nz ds' = nz ds /\ o = [].
Proof.
  intros H N.
  assert (F : forall rq fds, fetchFinish ds rq fds = TCont ds' tk' o -> nz ds' = nz ds /\ o = []).
  { intros rq fds. unfold fetchFinish. destruct (fetchReply rq fds); [|discriminate]. intros [= <- _ <-]. auto. }
  destruct tk; cbn [tstep] in H.
  - injection H as <- _ <-. auto.
  - injection H as <- _ <-. auto.
  - destruct (syncReply _ _ _); [|discriminate]. injection H as <- _ <-. auto.
  - destruct ops as [|[n|p] ops]; injection H as <- _ <-; auto.
  - destruct todo.
    + destruct more; [injection H as <- _ <-; auto|]. destruct (_ || _); [exact (F _ _ H)|injection H as <- _ <-; auto].
    + destruct (fetchOne ds f) as [[? ?]|]; [|discriminate]. injection H as <- _ <-. auto.
  - destruct (eCancel e); [exact (F _ _ H)|injection H as <- _ <-; auto].
  - destruct (wake <=? eMono e); injection H as <- _ <-; auto.
  - destruct pend.
    + destruct kt; injection H as <- _ <-; [|auto]. exfalso. eapply N. left. reflexivity.
    + destruct ops as [|[n|p] ops]; [injection H as <- _ <-; auto|injection H as <- _ <-; auto|].
      destruct kt; [destruct (hasPart _ _ _)|]; injection H as <- _ <-; auto.
  - destruct pend.
    + destruct kt; injection H as <- _ <-; auto.
    + destruct ops as [|[n|p] ops]; [injection H as <- _ <-; auto|injection H as <- _ <-; auto|].
      destruct kt; [destruct (hasPart _ _ _)|]; injection H as <- _ <-; auto.
  - destruct ops as [|[n|p] ops]; [injection H as <- _ <-; auto|injection H as <- _ <-; auto|].
    destruct kt; [destruct (hasPart _ _ _)|]; injection H as <- _ <-; auto.
  - destruct ops as [|[n|p] ops]; [injection H as <- _ <-; auto|injection H as <- _ <-; auto|].
    destruct kt; [|discriminate]. destruct (lookupPart ds b p); [|discriminate]. injection H as <- _ <-. now rewrite nz_touch.
Qed.

(** The only thing a handler does that is observed is a commit. *)
Lemma tstep_obs c e ch ds tk ds' tk' o : tstep c e ch ds tk = TCont ds' tk' o -> o = [] \/ exists t p g x, o = [OCommit c t p g x].
Proof.
  intros H.
  assert (F : forall rq fds, fetchFinish ds rq fds = TCont ds' tk' o -> o = []).
  { intros rq fds. unfold fetchFinish. destruct (fetchReply rq fds); [|discriminate]. now intros [= _ _ <-]. }
  destruct tk; cbn [tstep] in H.
  - injection H as _ _ <-. auto.
  - injection H as _ _ <-. auto.
  - destruct (syncReply _ _ _); [|discriminate]. injection H as _ _ <-. auto.
  - destruct ops as [|[n|p] ops]; injection H as _ _ <-; auto.
  - left. destruct todo.
    + destruct more; [now injection H as _ _ <-|]. destruct (_ || _); [exact (F _ _ H)|now injection H as _ _ <-].
    + destruct (fetchOne ds f) as [[? ?]|]; [|discriminate]. now injection H as _ _ <-.
  - left. destruct (eCancel e); [exact (F _ _ H)|now injection H as _ _ <-].
  - destruct (wake <=? eMono e); injection H as _ _ <-; auto.
  - destruct pend.
    + destruct kt; injection H as _ _ <-; [right; repeat eexists|auto].
    + destruct ops as [|[n|p] ops]; [injection H as _ _ <-; auto|injection H as _ _ <-; auto|].
      destruct kt; [destruct (hasPart _ _ _)|]; injection H as _ _ <-; auto.
  - destruct pend.
    + destruct kt; injection H as _ _ <-; auto.
    + destruct ops as [|[n|p] ops]; [injection H as _ _ <-; auto|injection H as _ _ <-; auto|].
      destruct kt; [destruct (hasPart _ _ _)|]; injection H as _ _ <-; auto.
  - destruct ops as [|[n|p] ops]; [injection H as _ _ <-; auto|injection H as _ _ <-; auto|].
    destruct kt; [destruct (hasPart _ _ _)|]; injection H as _ _ <-; auto.
  - destruct ops as [|[n|p] ops]; [injection H as _ _ <-; auto|injection H as _ _ <-; auto|].
    destruct kt; [|discriminate]. destruct (lookupPart ds b p); [|discriminate]. injection H as _ _ <-. auto.
Qed.

(** ** The execution without them *)
Section hide.
Context (Q : nat -> bool) (b : bool).

(** What is left of a connection of [Q]: nothing is in its buffer, and, if [b],
    it is still known whether it is closed. *)
Definition hconn (c : nat) (k : conn) : conn :=
  if Q c then Conn [] (if b && closed k then CClosed else CLoop) else k.
Definition hides (s s' : sys) : Prop :=
  eqv (sDs s) (sDs s') /\
  s' = Sys (sDs s') (imap hconn (sConns s)) (sThreads s) (sMono s) (sWall s) (sCancel s) (sCrash s) (sPort s) (sVers s).

Lemma hides_at s s' c : hides s s' -> sConns s' !! c = hconn c <$> sConns s !! c.
Proof. intros [_ ->]. cbn. now rewrite list_lookup_imap. Qed.
Lemma imap_insert c k l : imap hconn (<[c := k]> l) = <[c := hconn c k]> (imap hconn l).
Proof.
  apply list_eq. intros i. rewrite list_lookup_imap. destruct (decide (i = c)) as [->|N].
  - destruct (decide (c < length l)%nat) as [L|L].
    + rewrite !list_lookup_insert by (rewrite ?imap_length; assumption). reflexivity.
    + rewrite !lookup_ge_None_2; [reflexivity| |]; rewrite ?insert_length, ?imap_length; lia.
  - rewrite !list_lookup_insert_ne, list_lookup_imap by congruence. reflexivity.
Qed.
Lemma imap_app1 l : imap hconn (l ++ [Conn [] CLoop]) = imap hconn l ++ [Conn [] CLoop].
Proof.
  rewrite imap_app. f_equal. cbn. unfold hconn. rewrite Nat.add_0_r, andb_false_r. now destruct (Q (length l)).
Qed.
Lemma imap_closed l : b = true -> forallb closed (imap hconn l) = forallb closed l.
Proof.
  intros Hb. assert (G : forall i, forallb closed (imap (fun n => hconn (i + n)) l) = forallb closed l).
  { induction l as [|k l IH]; intros i; [reflexivity|]. cbn [imap forallb]. f_equal.
    - unfold hconn. rewrite Hb. destruct (Q (i + 0)); [|reflexivity]. destruct k as [inb []]; reflexivity.
    - rewrite <- (IH (S i)). f_equal. apply imap_ext. intros n x _. cbn. now rewrite Nat.add_succ_r. }
  exact (G 0%nat).
Qed.
Lemma hides_set s s' c k ds ds' : hides s s' -> eqv ds ds' -> hides (set_conn s c k ds) (set_conn s' c (hconn c k) ds').
Proof. intros [_ E] D. split; [exact D|]. rewrite E. unfold set_conn. cbn. now rewrite imap_insert. Qed.
(** A step of one of them that leaves it open. *)
Lemma hides_stay s s' c k k1 ds : hides s s' -> Q c = true -> sConns s !! c = Some k -> closed k = false -> closed k1 = false ->
  nz ds = nz (sDs s) -> hides (set_conn s c k1 ds) s'.
Proof.
  intros [D E] q Hk O O1 Z. split; [exact (eq_trans Z D)|]. rewrite E. unfold set_conn. cbn. f_equal.
  rewrite imap_insert. symmetry. apply list_insert_id. rewrite list_lookup_imap, Hk. cbn. f_equal. unfold hconn. rewrite q, O, O1, andb_false_r. reflexivity.
Qed.

Lemma without_id o : (forall x, In x o -> by_some Q x = false) -> without Q o = o.
Proof. induction o as [|x o IH]; intros H; [reflexivity|]. cbn. rewrite (H x) by now left. cbn. f_equal. apply IH. intros y Hy. apply H. now right. Qed.

Lemma conn_step_others s s' c ch k s1 o : hides s s' -> Q c = false -> sConns s !! c = Some k -> conn_step s c ch k = (s1, o) ->
  exists s1', conn_step s' c ch k = (s1', o) /\ hides s1 s1' /\ without Q o = o.
Proof.
  intros H q Hk E. pose proof H as [D E']. 
  assert (HC : forall x, hconn c x = x) by (intros x; unfold hconn; now rewrite q).
  assert (SET : forall x ds ds', eqv ds ds' -> hides (set_conn s c x ds) (set_conn s' c x ds')).
  { intros x ds ds' Hd. rewrite <- (HC x) at 2. now apply hides_set. }
  assert (CR : hides (crash s) (crash s')) by (split; [exact D|rewrite E' at 1; reflexivity]).
  assert (P1 : sCancel s' = sCancel s) by (rewrite E'; reflexivity).
  assert (P2 : sPort s' = sPort s) by (rewrite E'; reflexivity).
  assert (P3 : env_of s' = env_of s) by (rewrite E'; reflexivity).
  assert (W : forall x, (forall y, In y x -> by_some Q y = false) -> without Q x = x) by exact without_id.
  unfold conn_step in *. rewrite P1, P2, P3.
  destruct (cSt k) as [| |corr extra tk|[|x0 bs]|].
  - destruct (getMessage (cIn k)).
    + destruct (sCancel s); injection E as <- <-; eexists; (split; [reflexivity|]); (split; [now apply SET|reflexivity]).
    + destruct (beginRequest (sPort s) msg) as [[[? ?] ?]|]; injection E as <- <-; eexists; (split; [reflexivity|]); (split; [|cbn; now rewrite q]);
        [now apply SET|exact CR].
    + injection E as <- <-. eexists. split; [reflexivity|]. split; [exact CR|reflexivity].
  - injection E as <- <-. eexists. split; [reflexivity|]. split; [exact H|reflexivity].
  - assert (T : match tstep c (env_of s) ch (sDs s) tk with
        | TCont ds tk' os => (set_conn s c (Conn (cIn k) (CBusy corr extra tk')) ds, os)
        | TPanic => (crash s, [OCrash c]) end = (s1, o) ->
      exists s1', match tstep c (env_of s) ch (sDs s') tk with
        | TCont ds tk' os => (set_conn s' c (Conn (cIn k) (CBusy corr extra tk')) ds, os)
        | TPanic => (crash s', [OCrash c]) end = (s1', o) /\ hides s1 s1' /\ without Q o = o).
    { pose proof (eqv_tstep c (env_of s) ch _ _ tk D) as X.
      destruct (tstep c (env_of s) ch (sDs s) tk) as [ds tk' os|] eqn:E1, (tstep c (env_of s) ch (sDs s') tk) as [ds2 tk2 os2|] eqn:E2; try discriminate.
      - cbn in X. injection X as X1 <- <-. intros [= <- <-]. eexists. split; [reflexivity|]. split; [now apply SET|].
        apply W. intros y Hy.
        destruct (tstep_obs c (env_of s) ch (sDs s) tk ds tk' os E1) as [->|(t & p & g & x & ->)]; [destruct Hy|].
        destruct Hy as [<-|[]]. reflexivity.
      - intros [= <- <-]. eexists. split; [reflexivity|]. split; [exact CR|reflexivity]. }
    destruct tk; try exact (T E). destruct (finishRequest corr extra t v); injection E as <- <-; eexists; (split; [reflexivity|]); (split; [|reflexivity]);
        [now apply SET|exact CR].
  - injection E as <- <-. eexists. split; [reflexivity|]. split; [now apply SET|reflexivity].
  - injection E as <- <-. eexists. split; [reflexivity|]. split; [now apply SET|cbn; now rewrite q].
  - injection E as <- <-. eexists. split; [reflexivity|]. split; [exact H|reflexivity].
Qed.

Lemma step_cong s s' ev s1 o : hides s s' -> of_some Q ev = false -> (b = true \/ ev <> EvRestart) -> step s ev = (s1, o) ->
  exists s1', step s' ev = (s1', o) /\ hides s1 s1' /\ without Q o = o.
Proof.
  intros H q0 Hb E. pose proof H as [D E'].
  assert (PC : sConns s' = imap hconn (sConns s)) by (rewrite E'; reflexivity). assert (PT : sThreads s' = sThreads s) by (rewrite E'; reflexivity).
  assert (PM : sMono s' = sMono s) by (rewrite E'; reflexivity). assert (PW : sWall s' = sWall s) by (rewrite E'; reflexivity).
  assert (PK : sCancel s' = sCancel s) by (rewrite E'; reflexivity). assert (PP : sPort s' = sPort s) by (rewrite E'; reflexivity).
  assert (PV : sVers s' = sVers s) by (rewrite E'; reflexivity).
  assert (HA : forall c, sConns s' !! c = hconn c <$> sConns s !! c) by (intros; now apply hides_at).
  assert (P0 : sCrash s' = sCrash s) by (rewrite E'; reflexivity).
  assert (SAME : forall s1', step s' ev = (s1', o) -> hides s1 s1' -> without Q o = o -> exists s1', step s' ev = (s1', o) /\ hides s1 s1' /\ without Q o = o).
  { intros s1' X Y Z. exists s1'. auto. }
  unfold step in E. destruct (sCrash s) eqn:L.
  { injection E as <- <-. eapply SAME; try reflexivity; [|exact H]. unfold step. rewrite P0. reflexivity. }
  destruct ev as [cl|j| |c chh|c chunk|c|c|c|c gone|d|w| |]; cbn in q0; pose proof q0 as q.
  - destruct (call_ok cl) eqn:Ok; injection E as <- <-; eapply SAME; try reflexivity.
    + unfold step. rewrite P0, Ok. reflexivity.
    + split; [exact D|]. cbn. rewrite ?PC, ?PT, ?PM, ?PW, ?PK, ?PP, ?PV. reflexivity.
    + unfold step. rewrite P0, Ok. reflexivity.
    + exact H.
  - assert (TH : sThreads s' = sThreads s) by (rewrite E'; reflexivity). assert (WA : sWall s' = sWall s) by (rewrite E'; reflexivity).
    destruct (sThreads s !! j) as [a|] eqn:Th.
    + pose proof (eqv_astep j (sWall s) _ _ a D) as X.
      destruct (astep j (sWall s) (sDs s) a) as [[ds a'] os] eqn:E1. destruct (astep j (sWall s) (sDs s') a) as [[ds2 a2] os2] eqn:E2.
      cbn in X. injection X as X1 <- <-. injection E as <- <-. eapply SAME.
      * unfold step. rewrite P0, TH, Th, WA, E2. reflexivity.
      * split; [exact X1|]. cbn. rewrite ?PC, ?PT, ?PM, ?PW, ?PK, ?PP, ?PV. reflexivity.
      * apply without_id. intros x Hx. clear - E1 Hx.
        destruct a as [| | | |[]| | | | |]; cbn in E1; try destruct (getTopic ds _); try destruct (hasPart _ _ _); try destruct (getTopic _ _);
          injection E1 as _ _ <-; cbn in Hx; repeat (destruct Hx as [<-|Hx]); try reflexivity; destruct Hx.
    + injection E as <- <-. eapply SAME; try reflexivity; [|exact H]. unfold step. rewrite P0, TH, Th. reflexivity.
  - assert (CA : sCancel s' = sCancel s) by (rewrite E'; reflexivity).
    destruct (sCancel s) eqn:C; injection E as <- <-; eapply SAME; try reflexivity.
    + unfold step. rewrite P0, CA. reflexivity.
    + exact H.
    + unfold step. rewrite P0, CA. reflexivity.
    + split; [exact D|]. cbn. rewrite imap_app1, ?PC, ?PT, ?PM, ?PW, ?PK, ?PP, ?PV. reflexivity.
  - destruct (sConns s !! c) as [k|] eqn:K.
    + destruct (conn_step_others s s' c chh k s1 o H q K E) as (s1' & X & Y & Z). eapply SAME; [|exact Y|exact Z].
      unfold step. rewrite P0, HA, K. cbn. unfold hconn. rewrite q. exact X.
    + injection E as <- <-. eapply SAME; [|exact H|reflexivity]. unfold step. now rewrite P0, HA, K.
  - assert (HK : sConns s' !! c = sConns s !! c) by (rewrite HA; unfold hconn; rewrite q; now destruct (sConns s !! c)).
    destruct (sConns s !! c) as [[inb []]|] eqn:K;
      try (injection E as <- <-; eapply SAME; [|exact H|reflexivity]; unfold step; now rewrite P0, HK).
    destruct (_ && _) eqn:B; injection E as <- <-; eapply SAME.
    + unfold step. rewrite P0, HK, B. reflexivity.
    + pose proof (hides_set s s' c (Conn (inb ++ chunk) CLoop) (sDs s) (sDs s') H D) as R. unfold hconn in R. rewrite q in R. exact R.
    + cbn. now rewrite q.
    + unfold step. rewrite P0, HK, B. reflexivity.
    + exact H.
    + reflexivity.
  - assert (HK : sConns s' !! c = sConns s !! c) by (rewrite HA; unfold hconn; rewrite q; now destruct (sConns s !! c)).
    destruct (sConns s !! c) as [[inb []]|] eqn:K;
      try (injection E as <- <-; eapply SAME; [|exact H|reflexivity]; unfold step; now rewrite P0, HK).
    injection E as <- <-. eapply SAME; [| |reflexivity].
    + unfold step. rewrite P0, HK. reflexivity.
    + pose proof (hides_set s s' c (Conn inb CLoop) (sDs s) (sDs s') H D) as R. unfold hconn in R. rewrite q in R. exact R.
  - assert (HK : sConns s' !! c = sConns s !! c) by (rewrite HA; unfold hconn; rewrite q; now destruct (sConns s !! c)).
    destruct (sConns s !! c) as [[inb []]|] eqn:K;
      try (injection E as <- <-; eapply SAME; [|exact H|reflexivity]; unfold step; now rewrite P0, HK).
    injection E as <- <-. eapply SAME; [| |reflexivity].
    + unfold step. rewrite P0, HK. reflexivity.
    + pose proof (hides_set s s' c (Conn inb CClosed) (sDs s) (sDs s') H D) as R. unfold hconn in R. rewrite q in R. exact R.
  - assert (HK : sConns s' !! c = sConns s !! c) by (rewrite HA; unfold hconn; rewrite q; now destruct (sConns s !! c)).
    destruct (sConns s !! c) as [[inb []]|] eqn:K;
      try (injection E as <- <-; eapply SAME; [|exact H|reflexivity]; unfold step; now rewrite P0, HK).
    injection E as <- <-. eapply SAME; [| |reflexivity].
    + unfold step. rewrite P0, HK. reflexivity.
    + split; [exact D|unfold crash; cbn; rewrite ?PC, ?PT, ?PM, ?PW, ?PK, ?PP, ?PV; reflexivity].
  - assert (HK : sConns s' !! c = sConns s !! c) by (rewrite HA; unfold hconn; rewrite q; now destruct (sConns s !! c)).
    destruct (sConns s !! c) as [[inb []]|] eqn:K;
      try (injection E as <- <-; eapply SAME; [|exact H|reflexivity]; unfold step; now rewrite P0, HK).
    destruct gone; injection E as <- <-; (eapply SAME; [| |reflexivity]).
    + unfold step. rewrite P0, HK. reflexivity.
    + pose proof (hides_set s s' c (Conn inb CLoop) (sDs s) (sDs s') H D) as R. unfold hconn in R. rewrite q in R. exact R.
    + unfold step. rewrite P0, HK. reflexivity.
    + split; [exact D|unfold crash; cbn; rewrite ?PC, ?PT, ?PM, ?PW, ?PK, ?PP, ?PV; reflexivity].
  - injection E as <- <-. eapply SAME; try reflexivity; [unfold step; rewrite P0; reflexivity|]. split; [exact D|]. cbn. rewrite ?PC, ?PT, ?PM, ?PW, ?PK, ?PP, ?PV, ?P0. reflexivity.
  - injection E as <- <-. eapply SAME; try reflexivity; [unfold step; rewrite P0; reflexivity|]. split; [exact D|]. cbn. rewrite ?PC, ?PT, ?PM, ?PW, ?PK, ?PP, ?PV, ?P0. reflexivity.
  - injection E as <- <-. eapply SAME; try reflexivity; [unfold step; rewrite P0; reflexivity|]. split; [exact D|]. cbn. rewrite ?PC, ?PT, ?PM, ?PW, ?PK, ?PP, ?PV, ?P0. reflexivity.
  - destruct Hb as [Hb|Hb]; [|congruence].
    assert (CL : forallb closed (sConns s') = forallb closed (sConns s)) by (rewrite PC; now apply imap_closed).
    destruct (forallb closed (sConns s)) eqn:F; injection E as <- <-; (eapply SAME; [| |reflexivity]).
    + unfold step. rewrite P0, CL. reflexivity.
    + split; [exact D|]. cbn. rewrite ?PC, ?PT, ?PM, ?PW, ?PK, ?PP, ?PV, ?P0. reflexivity.
    + unfold step. rewrite P0, CL. reflexivity.
    + exact H.
Qed.

(** A step of one of [Q] that reads: either nothing is left of it, or the
    connection is closed. *)
Lemma step_own s s' ev s1 o : hides s s' -> of_some Q ev = true -> step s ev = (s1, o) -> only_read Q o ->
  (hides s1 s' /\ without Q o = []) \/
  (exists c inb k, Q c = true /\ sCrash s = false /\ sConns s !! c = Some k /\ closed k = false /\
     s1 = set_conn s c (Conn inb CClosed) (sDs s) /\ o = [OClosed c]).
Proof.
  intros H qe E N. pose proof H as [D E'].
  assert (IDLE : (s, []) = (s1, o) -> (hides s1 s' /\ without Q o = []) \/
  (exists c inb k, Q c = true /\ sCrash s = false /\ sConns s !! c = Some k /\ closed k = false /\
     s1 = set_conn s c (Conn inb CClosed) (sDs s) /\ o = [OClosed c])).
  { intros [= <- <-]. left. auto. }
  unfold step in E. destruct (sCrash s) eqn:L; [exact (IDLE E)|].
  assert (HQ : forall c, Q c = true -> ~ In (OCrash c) o) by (intros c q; apply N; exact q).
  destruct ev as [cl|j| |c chh|c chunk|c|c|c|c gone|d|w| |]; cbn in qe; try discriminate; pose proof qe as q.
  - destruct (sConns s !! c) as [k|] eqn:K; [|exact (IDLE E)].
    assert (NC : forall x, (x, [OCrash c]) = (s1, o) -> False) by (intros x [= _ <-]; apply (HQ c q); now left).
    assert (ST : forall k1 ds os, (set_conn s c k1 ds, os) = (s1, o) -> closed k = false -> closed k1 = false -> nz ds = nz (sDs s) -> without Q os = [] ->
       hides s1 s' /\ without Q o = []).
    { intros k1 ds os [= <- <-] O O1 Z W. split; [|exact W]. eapply hides_stay; eassumption. }
    unfold conn_step in E. destruct k as [inb st]. cbn [cSt cIn] in E. destruct st as [| |corr extra tk|[|x bs]|].
    + destruct (getMessage inb).
      * destruct (sCancel s) eqn:C.
        -- injection E as <- <-. right. exists c, inb, (Conn inb CLoop). auto 10.
        -- left. eapply ST; [exact E|reflexivity..].
      * destruct (beginRequest (sPort s) msg) as [[[? ?] ?]|].
        -- left. eapply ST; [exact E|reflexivity..|]. cbn. now rewrite q.
        -- exfalso. injection E as _ <-. apply (HQ c q). right. now left.
      * destruct (NC _ E).
    + exact (IDLE E).
    + left. assert (T : match tstep c (env_of s) chh (sDs s) tk with
         | TCont ds tk' os => (set_conn s c (Conn inb (CBusy corr extra tk')) ds, os)
         | TPanic => (crash s, [OCrash c]) end = (s1, o) -> hides s1 s' /\ without Q o = []).
      { destruct (tstep c (env_of s) chh (sDs s) tk) as [ds tk' os|] eqn:E1; [|intros X; destruct (NC _ X)].
        intros X. assert (os = o) as -> by now injection X. destruct (tstep_reads c (env_of s) chh (sDs s) tk ds tk' o E1) as [Z ->]; [apply N; exact q|].
        eapply ST; [exact X|reflexivity|reflexivity|exact Z|reflexivity]. }
      destruct tk; try exact (T E). destruct (finishRequest corr extra t v); [|destruct (NC _ E)]. eapply ST; [exact E|reflexivity..].
    + left. eapply ST; [exact E|reflexivity..].
    + left. eapply ST; [exact E|reflexivity|destruct bs; reflexivity|reflexivity|cbn; now rewrite q].
    + exact (IDLE E).
  - destruct (sConns s !! c) as [[inb []]|] eqn:K; try exact (IDLE E).
    destruct (_ && _); [|exact (IDLE E)]. injection E as <- <-. left. split; [|cbn; now rewrite q].
    eapply hides_stay; try eassumption; reflexivity.
  - destruct (sConns s !! c) as [[inb []]|] eqn:K; try exact (IDLE E).
    injection E as <- <-. left. split; [|reflexivity]. eapply hides_stay; try eassumption; reflexivity.
  - destruct (sConns s !! c) as [[inb []]|] eqn:K; try exact (IDLE E).
    injection E as <- <-. right. exists c, inb, (Conn inb CRead). auto 10.
  - destruct (sConns s !! c) as [[inb []]|] eqn:K; try exact (IDLE E).
    exfalso. injection E as _ <-. apply (HQ c q). now left.
  - destruct (sConns s !! c) as [[inb []]|] eqn:K; try exact (IDLE E). destruct gone.
    + injection E as <- <-. left. split; [|reflexivity]. eapply hides_stay; try eassumption; reflexivity.
    + exfalso. injection E as _ <-. apply (HQ c q). now left.
Qed.

Lemma only_read_app p p2 : only_read Q (p ++ p2) -> only_read Q p /\ only_read Q p2.
Proof.
  intros N. split; intros c q; destruct (N c q) as [A B]; (split; [intro; apply A|intros ? ? ? ? ?; eapply B]; apply in_or_app); eauto.
Qed.
End hide.

(** ** An execution without them *)
Section removed.
Context (Q : nat -> bool).

Definition done_by (s s' : sys) (ev : event) (s1 : sys) (o : list obs) : Prop :=
  exists evs' s1', run s' evs' = (s1', without Q o) /\ hides Q true s1 s1' /\ silent Q evs' /\ remaining Q evs' = remaining Q [ev].

Lemma done_nothing s s' ev s1 o : of_some Q ev = true -> hides Q true s1 s' -> without Q o = [] -> done_by s s' ev s1 o.
Proof.
  intros q H O. exists [], s'. rewrite O. split; [reflexivity|]. split; [exact H|]. split; [intros ? ? _ []|].
  unfold remaining. cbn. now rewrite q.
Qed.
Lemma done_same s s' ev s1 s1' o : of_some Q ev = false -> hides Q true s1 s1' -> step s' ev = (s1', o) -> without Q o = o -> done_by s s' ev s1 o.
Proof.
  intros q H E O. exists [ev], s1'. cbn [run]. rewrite E, app_nil_r, O. split; [reflexivity|]. split; [exact H|]. split; [|reflexivity].
  intros c chunk Hc [X|[]]. rewrite X in q. cbn in q. congruence.
Qed.
Lemma done_closed s s' ev s1 c ds inb : of_some Q ev = true -> hides Q true s s' -> Q c = true -> sCrash s = false ->
  (exists k, sConns s !! c = Some k /\ closed k = false) -> ds = sDs s -> s1 = set_conn s c (Conn inb CClosed) ds -> done_by s s' ev s1 [OClosed c].
Proof.
  intros q H qc L (k & Hk & O) -> ->. pose proof (hides_at Q true s s' c H) as K. rewrite Hk in K. cbn in K. unfold hconn in K. rewrite qc, O in K.
  pose proof H as [D E]. assert (L' : sCrash s' = false) by (rewrite E; exact L). assert (C' : sCancel s' = sCancel s) by (rewrite E; reflexivity).
  assert (R : hides Q true (set_conn s c (Conn inb CClosed) (sDs s)) (set_conn s' c (Conn [] CClosed) (sDs s'))).
  { pose proof (hides_set Q true s s' c (Conn inb CClosed) (sDs s) (sDs s') H D) as R. unfold hconn in R. rewrite qc in R. exact R. }
  set (e1 := EvConn c (Ch [] [])).
  destruct (sCancel s) eqn:C.
  - exists [e1], (set_conn s' c (Conn [] CClosed) (sDs s')). split.
    + cbn [run]. unfold step. rewrite L'. cbn. rewrite K. cbn. rewrite C'. reflexivity.
    + split; [exact R|]. split; [intros ? ? _ [X|[]]; discriminate|]. unfold remaining. cbn. now rewrite q, qc.
  - assert (S1 : step s' e1 = (set_conn s' c (Conn [] CRead) (sDs s'), [])).
    { unfold step. rewrite L'. cbn. rewrite K. cbn. rewrite C'. reflexivity. }
    assert (S2 : step (set_conn s' c (Conn [] CRead) (sDs s')) (EvPeerClose c) = (set_conn s' c (Conn [] CClosed) (sDs s'), [OClosed c])).
    { unfold step. cbn [sCrash set_conn]. rewrite L'. cbn [sConns set_conn]. rewrite list_lookup_insert by (eapply lookup_lt_Some; exact K).
      unfold set_conn. cbn. now rewrite list_insert_insert. }
    exists [e1; EvPeerClose c], (set_conn s' c (Conn [] CClosed) (sDs s')). split.
    + cbn [run]. rewrite S1, S2. reflexivity.
    + split; [exact R|]. split; [intros ? ? _ [X|[X|[]]]; discriminate|]. unfold remaining. cbn. now rewrite q, qc.
Qed.


Lemma step_done s s' ev s1 o : hides Q true s s' -> step s ev = (s1, o) -> only_read Q o -> done_by s s' ev s1 o.
Proof.
  intros H E N. destruct (of_some Q ev) eqn:q.
  - destruct (step_own Q true s s' ev s1 o H q E N) as [[X Y]|(c & inb & k & qc & L & Hk & O & Hs & ->)].
    + now apply done_nothing.
    + eapply done_closed; try eassumption; [exists k; auto|reflexivity].
  - destruct (step_cong Q true s s' ev s1 o H q (or_introl eq_refl) E) as (s1' & X & Y & Z). eapply done_same; eassumption.
Qed.

Lemma run_app_eq s evs1 evs2 s1 o1 s2 o2 : run s evs1 = (s1, o1) -> run s1 evs2 = (s2, o2) -> run s (evs1 ++ evs2) = (s2, o1 ++ o2).
Proof.
  revert s o1. induction evs1 as [|e evs1 IH]; intros s o1 H H2.
  - injection H as -> <-. exact H2.
  - cbn [run app] in *. destruct (step s e) as [t p]. destruct (run t evs1) as [t1 p1] eqn:R. injection H as -> <-.
    rewrite (IH _ _ R H2). now rewrite app_assoc.
Qed.
Lemma run_done evs : forall s s' s1 o, hides Q true s s' -> run s evs = (s1, o) -> only_read Q o ->
  exists evs' s1', run s' evs' = (s1', without Q o) /\ hides Q true s1 s1' /\ silent Q evs' /\ remaining Q evs' = remaining Q evs.
Proof.
  induction evs as [|ev evs IH]; intros s s' s1 o H R N.
  - injection R as <- <-. exists [], s'. repeat split; [exact (proj1 H)|exact (proj2 H)|intros ? ? _ []].
  - cbn [run] in R. destruct (step s ev) as [t p] eqn:E. destruct (run t evs) as [t2 p2] eqn:E2. injection R as <- <-.
    destruct (only_read_app Q p p2 N) as [N1 N2].
    destruct (step_done s s' ev t p H E N1) as (e1 & t1' & R1 & H1 & S1 & M1).
    destruct (IH t t1' t2 p2 H1 E2 N2) as (e2 & t2' & R2 & H2 & S2 & M2).
    exists (e1 ++ e2), t2'. split; [|split; [exact H2|split]].
    + rewrite (run_app_eq _ _ _ _ _ _ _ R1 R2). f_equal. unfold without. symmetry. apply List.filter_app.
    + intros c chunk q [I|I]%in_app_or; [exact (S1 _ _ q I)|exact (S2 _ _ q I)].
    + unfold remaining in *. rewrite List.filter_app, M1, M2. cbn. now destruct (of_some Q ev).
Qed.
Theorem unseen port ch evs s A : run (init port ch) evs = (s, A) -> only_read Q A ->
  exists evs' s', run (init port ch) evs' = (s', without Q A) /\ silent Q evs' /\ remaining Q evs' = remaining Q evs.
Proof.
  intros R N. destruct (run_done evs (init port ch) (init port ch) s A) as (e & s' & X & _ & Y & Z); [|exact R|exact N|].
  - split; reflexivity.
  - exists e, s'. auto.
Qed.
End removed.

(** ** Two executions with different readers *)
Section twice.
Context (Q : nat -> bool).
Notation out := (seen_by_others Q).
Lemma out_app a b : out (a ++ b) = out a ++ out b.
Proof. unfold seen_by_others, without. now rewrite !List.filter_app. Qed.

(** What the events of the others do. *)
Lemma run_out evs : forall s s' s1 o, hides Q false s s' -> run s evs = (s1, o) -> only_read Q o -> ~ In EvRestart evs ->
  exists s1' o', run s' (remaining Q evs) = (s1', o') /\ hides Q false s1 s1' /\ out o = out o'.
Proof.
  induction evs as [|ev evs IH]; intros s s' s1 o H R N NR.
  - injection R as <- <-. exists s', []. auto.
  - cbn [run] in R. destruct (step s ev) as [t p] eqn:E. destruct (run t evs) as [t2 p2] eqn:E2. injection R as <- <-.
    destruct (only_read_app Q p p2 N) as [N1 N2].
    assert (NR2 : ~ In EvRestart evs) by (intros X; apply NR; now right).
    destruct (of_some Q ev) eqn:q.
    + assert (X : hides Q false t s' /\ out p = []).
      { destruct (step_own Q false s s' ev t p H q E N1) as [[X Y]|(c & inb & k & qc & L & Hk & O & Hs & ->)].
        - split; [exact X|]. unfold seen_by_others. now rewrite Y.
        - split; [|unfold seen_by_others; cbn; now rewrite qc]. subst t. pose proof H as [D E']. split; [exact D|]. rewrite E'. unfold set_conn. cbn. f_equal.
          rewrite imap_insert. symmetry. apply list_insert_id. rewrite list_lookup_imap, Hk. cbn. unfold hconn. now rewrite qc. }
      destruct X as [X1 X2]. destruct (IH t s' t2 p2 X1 E2 N2 NR2) as (t2' & o' & R2 & H2 & O2).
      exists t2', o'. replace (remaining Q (ev :: evs)) with (remaining Q evs) by (unfold remaining; cbn; now rewrite q).
      rewrite out_app, X2. auto.
    + destruct (step_cong Q false s s' ev t p H q (or_intror (fun X => NR (or_introl X))) E) as (t' & X & Y & Z).
      destruct (IH t t' t2 p2 Y E2 N2 NR2) as (t2' & o' & R2 & H2 & O2).
      exists t2', (p ++ o'). replace (remaining Q (ev :: evs)) with (ev :: remaining Q evs) by (unfold remaining; cbn; now rewrite q).
      split; [|split; [exact H2|rewrite !out_app; now rewrite O2]]. cbn [run]. now rewrite X, R2.
Qed.
Theorem unseen_twice port ch evs1 evs2 s1 s2 A1 A2 :
  run (init port ch) evs1 = (s1, A1) -> run (init port ch) evs2 = (s2, A2) -> only_read Q A1 -> only_read Q A2 ->
  remaining Q evs1 = remaining Q evs2 -> ~ In EvRestart evs1 ->
  out A1 = out A2.
Proof.
  intros R1 R2 N1 N2 M NR.
  assert (NR2 : ~ In EvRestart evs2).
  { intros X. apply NR. assert (Y : In EvRestart (remaining Q evs2)) by (apply filter_In; auto). rewrite <- M in Y. apply filter_In in Y. tauto. }
  assert (H : hides Q false (init port ch) (init port ch)) by (split; reflexivity).
  destruct (run_out _ _ _ _ _ H R1 N1 NR) as (x1 & o1 & S1 & _ & E1). destruct (run_out _ _ _ _ _ H R2 N2 NR2) as (x2 & o2 & S2 & _ & E2).
  rewrite M, S2 in S1. injection S1 as <- <-. congruence.
Qed.

End twice.

(** What the others see is in what is left of the trace. *)
Lemma without_facts Q A :
  (forall c, Q c = false -> reads c (without Q A) = reads c A /\ frames c (without Q A) = frames c A /\ writes c (without Q A) = writes c A) /\
  (forall t p, tr_log t p (without Q A) = tr_log t p A /\ tr_has t p (without Q A) = tr_has t p A) /\
  (forall t p g, tr_off t p g (without Q A) = tr_off t p g A) /\
  (forall c, Q c = true -> reads c (without Q A) = [] /\ frames c (without Q A) = [] /\ writes c (without Q A) = []).
Proof.
  split; [|split; [|split]].
  - intros c q. induction A as [|o A (I1 & I2 & I3)]; [auto|]. unfold reads, frames, writes in *. cbn [without List.filter flat_map]. fold (without Q A).
    assert (X : forall c', Q c' = true -> Nat.eqb c c' = false) by (intros c' q'; apply Nat.eqb_neq; congruence).
    destruct o; cbn [by_some negb]; try (destruct (Q c0) eqn:q0); cbn [negb flat_map]; rewrite ?I1, ?I2, ?I3, ?(X _ q0); auto.
  - intros t p. induction A as [|o A (I1 & I2)]; [auto|]. unfold tr_log, tr_has in *. cbn [without List.filter flat_map existsb]. fold (without Q A).
    destruct o; cbn [by_some negb]; try (destruct (Q c) eqn:q0); cbn [negb flat_map existsb]; rewrite ?I1, ?I2; auto.
  - intros t p g. unfold tr_off. generalize 0 as z. induction A as [|o A IH]; intros z; [auto|]. cbn [without List.filter fold_left]. fold (without Q A).
    destruct o; cbn [by_some negb]; try (destruct (Q c) eqn:q0); cbn [negb fold_left]; apply IH.
  - intros c q. induction A as [|o A (I1 & I2 & I3)]; [auto|]. unfold reads, frames, writes in *. cbn [without List.filter flat_map]. fold (without Q A).
    assert (X : forall c', Q c' = false -> Nat.eqb c c' = false) by (intros c' q'; apply Nat.eqb_neq; congruence).
    destruct o; cbn [by_some negb]; try (destruct (Q c0) eqn:q0); cbn [negb flat_map]; rewrite ?I1, ?I2, ?I3, ?(X _ q0); auto.
Qed.
Theorem unseen_full Q port ch evs s A : run (init port ch) evs = (s, A) -> only_read Q A ->
  exists evs' s' A', run (init port ch) evs' = (s', A') /\ silent Q evs' /\ remaining Q evs' = remaining Q evs /\ A' = without Q A /\
    (forall c, Q c = false -> reads c A' = reads c A /\ frames c A' = frames c A /\ writes c A' = writes c A) /\
    (forall t p, tr_log t p A' = tr_log t p A /\ tr_has t p A' = tr_has t p A) /\
    (forall t p g, tr_off t p g A' = tr_off t p g A) /\
    (forall c, Q c = true -> reads c A' = [] /\ frames c A' = [] /\ writes c A' = []).
Proof.
  intros R N. destruct (unseen Q port ch evs s A R N) as (e & s' & X & Y & Z). exists e, s', (without Q A).
  destruct (without_facts Q A) as (F1 & F2 & F3 & F4). auto 10.
Qed.
