(** * FetchPanics: Fetch requests that are never answered because the handler
    panics. *)
From Verif Require Export FetchProofs.
From stdpp Require Import list.
Open Scope Z_scope.
Open Scope list_scope.

(** ** Fewer partitions than topics *)
Definition few_inv (rq : fetch_req) (B : list obs) (n : nat) (tk : task) : Prop :=
  let L := length (flat (fqTopics rq)) in
  (L < length (fqTopics rq))%nat /\
  match tk with
  | TkFetchOpen rq' ops kt fds => rq' = rq /\ exists cur, (length fds + length (rest_flat cur ops) = L)%nat
  | TkFetchScan rq' exp hasOne more done todo => rq' = rq /\ (length done + length todo = L)%nat
  | TkFetchPoll rq' exp fds | TkFetchSleep rq' exp _ fds => rq' = rq /\ length fds = L
  | _ => False
  end.

Lemma few_mute port vers A c rq : handler_mute port vers A c (few_inv rq).
Proof.
  split.
  - auto.
  - intros B n [] [_ H]; try reflexivity; contradiction.
  - intros s B n tk ch Hi Ht [HL H]. destruct tk; try contradiction; cbn [tstep].
    + destruct H as (-> & cur & H). destruct ops as [|[m|p] ops].
      * right. eexists _, _, _. split; [reflexivity|]. split; [assumption|]. split; [reflexivity|]. cbn in *. lia.
      * right. eexists _, _, _. split; [reflexivity|]. split; [assumption|]. split; [reflexivity|]. exists m. exact H.
      * right. eexists _, _, _. split; [reflexivity|]. split; [assumption|]. split; [reflexivity|]. exists cur.
        rewrite app_length. cbn in *. lia.
    + destruct H as (-> & H). destruct todo as [|fd todo].
      * cbn [length] in H. rewrite Nat.add_0_r in H.
        destruct more; [right; eexists _, _, _; split; [reflexivity|]; split; [assumption|]; split; [reflexivity|]; cbn; lia|].
        destruct (hasOne || (exp <? eMono (env_of s))).
        -- left. apply fetchFinish_panics. lia.
        -- right. eexists _, _, _. split; [reflexivity|]. split; [assumption|]. auto.
      * destruct (fetchOne (sDs s) fd) as [[fd' got]|]; [right|now left].
        eexists _, _, _. split; [reflexivity|]. split; [assumption|]. split; [reflexivity|]. rewrite app_length. cbn in *. lia.
    + destruct H as (-> & H). destruct (eCancel (env_of s)).
      * left. apply fetchFinish_panics. lia.
      * right. eexists _, _, _. split; [reflexivity|]. split; [assumption|]. auto.
    + destruct H as (-> & H). destruct (wake <=? eMono (env_of s)).
      * right. eexists _, _, _. split; [reflexivity|]. split; [assumption|]. auto.
      * right. eexists _, _, _. split; [reflexivity|]. split; [assumption|]. auto.
Qed.

Theorem fetch_few_partitions port ch A c corr client r w mb ts s :
  let m := w_request 1 2 corr client (w_fetch_req r w mb ts) in
  l_header 1 2 corr client = true -> l_fetch r w mb ts = true -> zlen (w_fetch_req r w mb ts) <= 4096 ->
  (length (flat ts) < length ts)%nat ->
  serving port ch A c m s ->
  forall evs s' B, run s evs = (s', B) -> writes c B = [] /\ frames c B = [].
Proof.
  intros m Hh Hl Hz Hf Hs evs s' B Hr.
  destruct (serving_inv _ _ _ _ _ _ _ _ _ Hs (fetch_begin _ _ _ _ _ _ _ Hh Hl Hz)) as (inb & Hk & Hi & Hc).
  set (rq := mk_fetch_req r w mb ts) in *.
  assert (H0 : few_inv rq [] 0 (TkFetchOpen rq (plan (fqTopics rq)) None [])).
  { unfold few_inv. change (fqTopics rq) with (mk_topics mk_fetch_part ts). rewrite flat_mk, map_length. split.
    - unfold mk_topics. now rewrite map_length.
    - split; [reflexivity|]. exists []. rewrite rest_flat_plan, flat_mk, map_length. reflexivity. }
  destruct (mute_run _ _ _ _ _ _ _ _ _ _ _ _ _ (few_mute _ _ (A ++ [OFrame c m]) c rq) Hi Hc Hk H0 Hr) as (H1 & H2 & _). auto.
Qed.

(** ** A negative offset on a partition that exists *)
Definition bad_fd (fd : fdata) : Prop := (exists t p, fdKp fd = Some (t, p)) /\ fdOff fd < 0.
Definition bad_q (A : list obs) (q : bytes * fetch_part) : Prop :=
  tr_has (fst q) (fpIndex (snd q)) A = true /\ fpOffset (snd q) < 0.
Definition kt_sure (A : list obs) (cur : bytes) (kt : option bytes) : Prop :=
  forall p, tr_has cur p A = true -> kt = Some cur.

Definition neg_inv (A : list obs) (rq : fetch_req) (B : list obs) (n : nat) (tk : task) : Prop :=
  let K := (entries (fqTopics rq) + length (flat (fqTopics rq)) + 1)%nat in
  match tk with
  | TkFetchOpen rq' ops kt fds =>
      (n + (length ops + 1) + length (flat (fqTopics rq)) <= K)%nat /\
      exists cur, (length fds + length (rest_flat cur ops) = length (flat (fqTopics rq)))%nat /\
        (kt_sure A cur kt \/ forall p ops', ops <> WPart p :: ops') /\
        (Exists bad_fd fds \/ Exists (bad_q A) (rest_flat cur ops))
  | TkFetchScan rq' exp hasOne more done todo =>
      (n + length todo <= K)%nat /\
      Exists bad_fd todo
  | _ => False
  end.

Lemma fetchOne_bad ds fd : fd_ok ds fd -> bad_fd fd -> fetchOne ds fd = None.
Proof.
  intros Hf [(t & p & Ek) Ho]. specialize (Hf t p Ek). unfold fetchOne. rewrite Ek. unfold hasPart in Hf.
  destruct (lookupPart ds t p) as [kp|]; [|discriminate].
  replace (fdOff fd <? zlen (pRecs kp)) with true by (unfold zlen; lia).
  replace (fdOff fd <? 0) with true by lia. reflexivity.
Qed.

Lemma neg_mute port vers A c rq : handler_mute port vers A c (neg_inv A rq).
Proof.
  split.
  - intros B n tk o _ H. exact H.
  - intros B n [] H; try reflexivity; contradiction.
  - intros s B n tk ch Hi Ht H. destruct tk; try contradiction; cbn [tstep].
    + right. destruct H as (Hn & cur & HL & Hkt & Hb). destruct ops as [|[m|p] ops].
      * eexists _, _, _. split; [reflexivity|]. split.
        -- cbn in HL, Hn. lia.
        -- destruct Hb as [Hb|Hb]; [assumption|inversion Hb].
      * eexists _, _, _. split; [reflexivity|]. split; [cbn in Hn; lia|]. exists m. split; [exact HL|].
        split; [|exact Hb]. left. intros p Hp.
        destruct (getTopic (sDs s) m) eqn:E; [reflexivity|].
        pose proof (inv_no_topic _ _ _ _ m p Hi E) as F.
        rewrite (tr_has_mono m p A B Hp) in F. discriminate.
      * destruct Hkt as [Hkt|Hkt]; [|destruct (Hkt p ops eq_refl)].
        eexists _, _, _. split; [reflexivity|]. split; [cbn in Hn; lia|]. exists cur.
        split; [rewrite app_length; cbn in *; lia|]. split; [now left|].
        destruct Hb as [Hb|Hb]; [left; apply Exists_app; now left|].
        cbn [rest_flat] in Hb. apply Exists_cons in Hb as [[Hb1 Hb2]|Hb]; [|now right].
        left. apply Exists_app. right. apply Exists_cons. left. cbn [fst snd] in *.
        rewrite (Hkt _ Hb1). rewrite (inv_hasPart _ _ _ _ _ _ Hi), (tr_has_mono _ _ _ _ Hb1).
        split; [cbn; eauto|exact Hb2].
    + destruct H as (Hn & Hb). destruct todo as [|fd todo]; [inversion Hb|].
      destruct Ht as [_ Ht]. apply Forall_cons_1 in Ht as [Ht _].
      destruct (fetchOne (sDs s) fd) as [[fd' got]|] eqn:E; [right|now left].
      eexists _, _, _. split; [reflexivity|]. split; [cbn in Hn; lia|].
      apply Exists_cons in Hb as [Hb|Hb]; [|assumption]. rewrite fetchOne_bad in E by assumption. discriminate.
Qed.

Theorem fetch_negative_offset port ch A c corr client r w mb ts s t idx off max :
  let m := w_request 1 2 corr client (w_fetch_req r w mb ts) in
  l_header 1 2 corr client = true -> l_fetch r w mb ts = true -> zlen (w_fetch_req r w mb ts) <= 4096 ->
  serving port ch A c m s ->
  In (t, (idx, off, max)) (flat ts) -> tr_has t idx A = true -> off < 0 ->
  rejects c s (entries ts + length (flat ts) + 1).
Proof.
  intros m Hh Hl Hz Hs Hin Hhas Ho.
  destruct (serving_inv _ _ _ _ _ _ _ _ _ Hs (fetch_begin _ _ _ _ _ _ _ Hh Hl Hz)) as (inb & Hk & Hi & Hc).
  set (rq := mk_fetch_req r w mb ts) in *. fold m in Hi.
  assert (EK : (entries (fqTopics rq) + length (flat (fqTopics rq)) + 1 = entries ts + length (flat ts) + 1)%nat).
  { change (fqTopics rq) with (mk_topics mk_fetch_part ts). now rewrite entries_mk, flat_mk, map_length. }
  apply (tr_has_mono t idx A [OFrame c m]) in Hhas. set (A' := A ++ [OFrame c m]) in *. clearbody A'. clear m Hs Hh.
  eapply (rejects_intro _ _ A' c corr [] (neg_inv A' rq) s); eauto using neg_mute.
  - unfold neg_inv. rewrite plan_length. split; [cbn; lia|]. exists []. rewrite rest_flat_plan. split; [reflexivity|].
    split; [right; intros p ops'; destruct (fqTopics rq) as [|[? ?] ?]; discriminate|]. right.
    change (fqTopics rq) with (mk_topics mk_fetch_part ts). rewrite flat_mk. apply Exists_fmap.
    apply Exists_exists. exists (t, (idx, off, max)). split; [now apply elem_of_list_In|]. split; [exact Hhas|exact Ho].
  - intros B n tk H. rewrite <- EK. destruct tk; try contradiction; cbn [neg_inv] in H.
    + destruct H as (H & cur & _). lia.
    + destruct H as (H & Hb). destruct todo; [inversion Hb|]. cbn [length] in H. lia.
Qed.
