(** * FetchLive: Fetch requests are answered in time *)
From Verif Require Export FetchProofs.
From stdpp Require Import gmap list.
From Coq Require Import ZifyBool ZifyNat.
Open Scope Z_scope.
Open Scope list_scope.

(** ** The steps of the handler *)
Inductive fstep (os : list obs) : task -> task -> Prop :=
| FSgot rq exp h mo d fd fd' todo : avail os fd -> fdKp fd' = fdKp fd -> fdOff fd' = fdOff fd + 1 -> 0 <= fdOff fd ->
    fstep os (TkFetchScan rq exp h mo d (fd :: todo)) (TkFetchScan rq exp true true (d ++ [fd']) todo)
| FSnot rq exp h mo d fd todo : ~ avail os fd ->
    fstep os (TkFetchScan rq exp h mo d (fd :: todo)) (TkFetchScan rq exp h mo (d ++ [fd]) todo)
| FSagain rq exp h d : fstep os (TkFetchScan rq exp h true d []) (TkFetchScan rq exp h false [] d)
| FSdone rq exp h d t v : fstep os (TkFetchScan rq exp h false d []) (TkRet t v)
| FSpoll rq exp d : tr_now os <= exp -> fstep os (TkFetchScan rq exp false false d []) (TkFetchPoll rq exp d)
| FScancel rq exp d t v : fstep os (TkFetchPoll rq exp d) (TkRet t v)
| FSsleep rq exp d : tr_cancelled os = false -> fstep os (TkFetchPoll rq exp d) (TkFetchSleep rq exp (tr_now os + 20000000) d)
| FSwake rq exp w d : w <= tr_now os -> fstep os (TkFetchSleep rq exp w d) (TkFetchScan rq exp false false [] d)
| FSstay rq exp w d : tr_now os < w -> fstep os (TkFetchSleep rq exp w d) (TkFetchSleep rq exp w d).

Definition opening (tk : task) : bool := match tk with TkFetchOpen _ _ _ _ => true | _ => false end.

Lemma prefix_os (A B B' : list obs) : B `prefix_of` B' -> A ++ B `prefix_of` A ++ B'.
Proof. intros [k ->]. exists k. now rewrite app_assoc. Qed.
Lemma prefix_fits t p off a b mx : a `prefix_of` b ->
  log_size (skipn off (tr_log t p b)) <= mx -> log_size (skipn off (tr_log t p a)) <= mx.
Proof.
  intros [k ->]. rewrite tr_log_app, skipn_app, log_size_app.
  pose proof (log_size_nonneg (skipn (off - length (tr_log t p a)) (tr_log t p k))). lia.
Qed.
Lemma posts_small_pre a b : a `prefix_of` b -> posts_small b -> posts_small a.
Proof. intros [k ->] H i t p r Hin. apply (H i t p r), in_or_app. now left. Qed.

Definition qfits (os : list obs) (q : bytes * fetch_part) : Prop :=
  log_size (skipn (Z.to_nat (fpOffset (snd q))) (tr_log (fst q) (fpIndex (snd q)) os)) <= Z.max 0 (fpMax (snd q)).

Lemma fits_not_stuck A B q fd : posts_small (A ++ B) -> qfits (A ++ B) q -> fd_right A B q fd -> ~ stuck (A ++ B) fd.
Proof.
  intros Hs Hf (H1 & H2 & H3 & rs & H4 & H5 & H6 & H7 & H8) (t & p & r & Ek & En & Ea).
  rewrite Ek in H3. destruct H3 as [[= -> ->] _]. unfold qfits in Hf.
  set (off := fpOffset (snd q)) in *. set (l := tr_log (fst q) (fpIndex (snd q)) (A ++ B)) in *.
  rewrite H5, appendMessage_eq in Ea. destruct (Z.ltb_spec (fdMax fd) (total_of (rs ++ [r]))) as [Hm|]; [|discriminate].
  assert (Hsl : slice (Z.to_nat off) (rs ++ [r]) l).
  { apply slice_snoc; [assumption|]. rewrite <- En. f_equal. rewrite H4. unfold zlen. lia. }
  assert (Hsm : small (rs ++ [r])) by (eapply slice_forall; [exact Hsl|now apply log_small]).
  rewrite total_small in Hm by assumption. apply slice_iff in Hsl as [k Hk]. rewrite Hk, log_size_app in Hf.
  pose proof (log_size_nonneg k). rewrite log_size_app in *. cbn [log_size fold_right] in *.
  pose proof (log_size_nonneg rs). pose proof (rec_size_pos r). lia.
Qed.

Section live.
Context (port : Z) (vers : gmap Z vrange) (A : list obs) (c : nat) (corr : Z) (rq : fetch_req) (Bf : list obs).
Context (Hob : Forall obs_bytes (A ++ Bf)) (Hsmall : posts_small (A ++ Bf))
  (Hfits : Forall (qfits (A ++ Bf)) (flat (fqTopics rq))).

Lemma fetch_fstep s B n tk ch ds tk' o : B `prefix_of` Bf ->
  inv port vers (A ++ B) s -> fetch_core A rq B n tk -> is_ret tk = false -> opening tk = false ->
  tstep c (env_of s) ch (sDs s) tk = TCont ds tk' o -> fstep (A ++ B) tk tk'.
Proof.
  intros Hpre Hi (HN & H) Hr Ho E. destruct tk; try discriminate; try contradiction; cbn [tstep] in E.
  - destruct H as (-> & H1 & H2 & H3 & H4 & H5). destruct todo as [|fd todo].
    + destruct more; [injection E as _ <- _; constructor|].
      destruct (hasOne || (exp <? eMono (env_of s))) eqn:Ef.
      * apply fetchFinish_inv in E as (_ & _ & v & _ & ->). constructor.
      * injection E as _ <- _. apply orb_false_iff in Ef as [-> Ef]. constructor.
        cbn [env_of eMono] in Ef. rewrite (i_now _ _ _ _ Hi) in Ef. lia.
    + apply Forall2_app_inv_r in H2 as (q1 & q2 & F1 & F2 & Eq). inversion F2 as [|q ? q2' ? Hq F2']; subst.
      destruct (fetchOne_right _ _ _ _ _ _ _ Hi Hq) as (fd' & got & Eo & G1 & G2 & G3). rewrite Eo in E.
      injection E as _ <- _. destruct got.
      * rewrite !orb_true_r. destruct G3 as [Ha [(K1 & K2 & K3 & _)|[_ Hst]]]; [now constructor|].
        exfalso. revert Hst. eapply fits_not_stuck; [| |exact Hq].
        -- eapply posts_small_pre; [|exact Hsmall]. now apply prefix_os.
        -- rewrite Eq in Hfits. apply Forall_app in Hfits as [_ Hf]. apply Forall_cons_1 in Hf as [Hf _].
           eapply prefix_fits; [|exact Hf]. now apply prefix_os.
      * rewrite !orb_false_r. destruct G3 as (-> & _ & _ & Hn). now constructor.
  - cbn [env_of eCancel eMono] in E. rewrite (i_cancel _ _ _ _ Hi) in E. destruct (tr_cancelled (A ++ B)) eqn:Ec.
    + apply fetchFinish_inv in E as (_ & _ & v & _ & ->). constructor.
    + injection E as _ <- _. rewrite (i_now _ _ _ _ Hi). now constructor.
  - cbn [env_of eMono] in E. rewrite (i_now _ _ _ _ Hi) in E. destruct (Z.leb_spec wake (tr_now (A ++ B))); injection E as _ <- _; now constructor.
Qed.

(** ** Progress *)
Definition rem (fd : fdata) : nat :=
  match fdKp fd with Some (t, p) => length (tr_log t p (A ++ Bf)) - Z.to_nat (fdOff fd) | None => 0 end.
Definition rems (fds : list fdata) : nat := list_sum (map rem fds).
Definition work (tk : task) : nat :=
  match tk with
  | TkFetchScan _ _ _ mo d t =>
      (2 + length t + (length d + length t + 1) * (rems (d ++ t) + if mo then 1 else 0))%nat
  | TkFetchPoll _ _ _ => 1%nat
  | _ => 0%nat
  end.
Definition good (os : list obs) (tk : task) : Prop :=
  match tk with
  | TkFetchScan _ exp h _ _ todo => h = true \/ exp < tr_now os \/ tr_cancelled os = true \/ Exists (avail os) todo
  | TkFetchPoll _ _ _ => tr_cancelled os = true
  | TkRet _ _ => True
  | _ => False
  end.

Lemma rems_app a b : rems (a ++ b) = (rems a + rems b)%nat.
Proof. unfold rems. now rewrite map_app, list_sum_app. Qed.

Lemma fstep_work B tk tk' : B `prefix_of` Bf -> fstep (A ++ B) tk tk' ->
  match tk with TkFetchScan _ _ _ _ _ _ => True | _ => False end -> (work tk' < work tk)%nat.
Proof.
  intros Hpre Hs Hk. destruct Hs; try contradiction; cbn [work]; repeat rewrite ?rems_app, ?app_length; cbn [length];
    change (rems []) with 0%nat; try lia.
  - change (rems (fd :: todo)) with (rem fd + rems todo)%nat. change (rems [fd']) with (rem fd' + 0)%nat.
    assert (Hr : rem fd = S (rem fd')).
    { destruct H as (t & p & Ek & Hlt). unfold rem. rewrite H0, Ek, H1.
      destruct Hpre as [k ->]. rewrite app_assoc, tr_log_app, app_length. unfold zlen in Hlt. lia. }
    rewrite Hr. rewrite Nat.add_0_r. replace (length d + 1 + length todo + 1)%nat with (length d + S (length todo) + 1)%nat by lia.
    destruct mo; nia.
  - change (rems (fd :: todo)) with (rem fd + rems todo)%nat. change (rems [fd]) with (rem fd + 0)%nat.
    replace (length d + 1 + length todo + 1)%nat with (length d + S (length todo) + 1)%nat by lia.
    replace (rems d + (rem fd + 0) + rems todo)%nat with (rems d + (rem fd + rems todo))%nat by lia. lia.
Qed.
Lemma fstep_good B tk tk' : fstep (A ++ B) tk tk' -> good (A ++ B) tk -> good (A ++ B) tk'.
Proof.
  intros Hs Hg. destruct Hs; cbn [good] in *; auto.
  - destruct Hg as [?|[?|[?|Hg]]]; auto. right. right. right. apply Exists_cons in Hg as [?|?]; [contradiction|assumption].
  - destruct Hg as [?|[?|[?|Hg]]]; auto. inversion Hg.
  - destruct Hg as [?|[?|[?|Hg]]]; auto; [discriminate|lia|inversion Hg].
  - congruence.
Qed.

Lemma now_pre a b : a ++ b `prefix_of` A ++ Bf -> tr_now a <= tr_now (a ++ b).
Proof.
  intros [k Hk]. apply tr_now_mono. rewrite Hk in Hob. apply Forall_app in Hob as [H _]. now apply Forall_app in H as [_ H].
Qed.
Lemma cancelled_app a b : Forall (fun x => x <> ORestart) b -> tr_cancelled a = true -> tr_cancelled (a ++ b) = true.
Proof.
  intros Hb Ha. unfold tr_cancelled in *. rewrite fold_left_app, Ha. induction Hb as [|x b Hx _ IH]; [reflexivity|].
  cbn. destruct x; try exact IH. now contradict Hx.
Qed.
Lemma avail_app a b fd : avail a fd -> avail (a ++ b) fd.
Proof. intros (t & p & H1 & H2). exists t, p. split; [assumption|]. rewrite tr_log_app, zlen_app. pose proof (zlen_nonneg (tr_log t p b)). lia. Qed.
Lemma good_app a b tk : a ++ b `prefix_of` A ++ Bf -> Forall (fun x => x <> ORestart) b -> good a tk -> good (a ++ b) tk.
Proof.
  intros Hp Hb. pose proof (now_pre a b Hp). destruct tk; cbn [good]; auto.
  - intros [?|[?|[?|Hg]]]; auto; [right; left; lia|right; right; left; now apply cancelled_app|].
    right. right. right. revert Hg. induction 1; [left; now apply avail_app|now right].
  - now apply cancelled_app.
Qed.

Definition ready (E : Z) (os : list obs) : Prop :=
  tr_cancelled os = true \/ E < tr_now os \/
  Exists (fun q => tr_has (fst q) (fpIndex (snd q)) A = true /\ fpOffset (snd q) < zlen (tr_log (fst q) (fpIndex (snd q)) os))
    (flat (fqTopics rq)).
Lemma ready_app E a b : a ++ b `prefix_of` A ++ Bf -> Forall (fun x => x <> ORestart) b -> ready E a -> ready E (a ++ b).
Proof.
  intros Hp Hb. pose proof (now_pre a b Hp). intros [Hc|[Hc|Hc]].
  - left. now apply cancelled_app.
  - right. left. lia.
  - right. right. eapply Exists_impl; [exact Hc|]. intros q [H1 H2].
    split; [assumption|]. rewrite tr_log_app, zlen_app.
    pose proof (zlen_nonneg (tr_log (fst q) (fpIndex (snd q)) b)). lia.
Qed.
Lemma ready_good E B exp fds : Forall2 (fd_right A B) (flat (fqTopics rq)) fds -> Forall empty_fd fds ->
  exp <= E -> ready E (A ++ B) -> good (A ++ B) (TkFetchScan rq exp false false [] fds).
Proof.
  intros Hr He HE [Hc|[Hc|Hc]]; cbn [good]; [auto|right; left; lia|]. right. right. right.
  clear Hfits Hob Hsmall. revert He Hc. induction Hr as [|q fd qs fds Hq _ IH]; intros He Hc; [inversion Hc|]. inversion He; subst.
  apply Exists_cons in Hc as [[H3 H4]|Hc]; [left|right; auto].
  destruct Hq as (_ & _ & Hk & rs & Ho & Hm & _). unfold empty_fd in H1. rewrite Hm in H1. cbn in H1.
  assert (rs = []) as -> by now destruct rs.
  destruct (fdKp fd) as [[t p]|] eqn:Ek.
  - destruct Hk as [[= -> ->] _]. exists (fst q), (fpIndex (snd q)). split; [assumption|]. rewrite Ho. unfold zlen at 1. cbn. lia.
  - destruct Hk as (B1 & _ & Hf). rewrite tr_has_app, H3 in Hf. discriminate.
Qed.

(** ** Stages *)
Definition staged (B0 : list obs) (P : list obs -> nat -> task -> Prop) (B : list obs) (n : nat) (tk : task) : Prop :=
  fetch_inv A rq (B0 ++ B) n tk /\ opening tk = false /\ (B0 ++ B `prefix_of` Bf -> P (A ++ B0 ++ B) n tk).

Lemma stage_handler B0 (P : list obs -> nat -> task -> Prop) :
  (forall a b n tk, a ++ b `prefix_of` A ++ Bf -> Forall (fun x => x <> ORestart) b -> P a n tk -> P (a ++ b) n tk) ->
  (forall B n tk tk', B `prefix_of` Bf -> fetch_core A rq B n tk -> P (A ++ B) n tk -> fstep (A ++ B) tk tk' -> P (A ++ B) (S n) tk') ->
  handler_ok port vers (A ++ B0) c (staged B0 P).
Proof.
  intros Hmono Hstep. split.
  - intros B n tk o Ho (H1 & H2 & H3). split; [rewrite app_assoc; eapply fetch_inv_mono, H1|]. split; [assumption|].
    intros Hp. rewrite !app_assoc. apply Hmono.
    + rewrite <- !app_assoc. now apply prefix_os.
    + eapply Forall_mono; [|exact Ho]. now intros x [_ ?].
    + rewrite <- app_assoc. apply H3. etransitivity; [|exact Hp]. rewrite app_assoc. apply prefix_app_r. reflexivity.
  - intros s B n tk ch Hi Ht Hr (H1 & H2 & H3). rewrite <- app_assoc in Hi.
    destruct (h_step _ _ _ _ _ (fetch_handler port vers A c rq) s (B0 ++ B) n tk ch Hi Ht Hr H1) as (ds & tk' & o & E & H4).
    exists ds, tk', o. split; [assumption|].
    assert (o = [] /\ opening tk' = false) as [-> Ho'].
    { destruct H1 as (_ & _ & H1). destruct tk; try discriminate; try contradiction; cbn [tstep] in E.
      - destruct todo.
        + destruct more; [injection E as _ <- <-; auto|]. destruct (_ || _); [|injection E as _ <- <-; auto].
          apply fetchFinish_inv in E as (_ & -> & v & _ & ->). auto.
        + destruct (fetchOne _ _) as [[? ?]|]; [|discriminate]. injection E as _ <- <-; auto.
      - destruct (eCancel _); [|injection E as _ <- <-; auto].
        apply fetchFinish_inv in E as (_ & -> & v & _ & ->). auto.
      - destruct (_ <=? _); injection E as _ <- <-; auto. }
    rewrite !app_nil_r in *. split; [assumption|]. split; [assumption|]. intros Hp.
    apply (Hstep (B0 ++ B) n tk tk' Hp (proj2 H1) (H3 Hp)). eapply fetch_fstep; [exact Hp|exact Hi|exact (proj2 H1)|auto..]; eauto.
  - intros B n t v (H1 & _). exact (h_enc _ _ _ _ _ (fetch_handler port vers A c rq) _ _ _ _ H1).
Qed.

(** The reply has been sent by the end of [e']. *)
Definition replied (c : nat) (Bw : list obs) : Prop :=
  exists B' n t v payload, B' `prefix_of` Bw /\ fetch_inv A rq B' n (TkRet t v) /\ encodeObject t v = Some payload /\
    writes c Bw = w_reply corr payload.

Lemma stage_run B0 (P : list obs -> nat -> task -> Prop) s k tk0 e s1 B1 e' s2 B2 :
  (forall a b n tk, a ++ b `prefix_of` A ++ Bf -> Forall (fun x => x <> ORestart) b -> P a n tk -> P (a ++ b) n tk) ->
  (forall B n tk tk', B `prefix_of` Bf -> fetch_core A rq B n tk -> P (A ++ B) n tk -> fstep (A ++ B) tk tk' -> P (A ++ B) (S n) tk') ->
  inv port vers (A ++ B0) s -> sConns s !! c = Some (Conn k (CBusy corr [] tk0)) ->
  writes c B0 = [] -> fetch_inv A rq B0 0 tk0 -> opening tk0 = false -> P (A ++ B0) 0%nat tk0 ->
  run s e = (s1, B1) -> run s1 e' = (s2, B2) -> sends_ok c (e ++ e') -> frames c (B1 ++ B2) = [] ->
  B0 ++ B1 ++ B2 = Bf -> sCrash s2 = false -> (4 <= own_steps c e')%nat ->
  replied c Bf \/
  exists k' tk, sConns s1 !! c = Some (Conn k' (CBusy corr [] tk)) /\ inv port vers (A ++ B0 ++ B1) s1 /\
    writes c (B0 ++ B1) = [] /\ fetch_inv A rq (B0 ++ B1) 0 tk /\ opening tk = false /\
    P (A ++ B0 ++ B1) (own_steps c e) tk.
Proof.
  intros Hmono Hstep Hi Hk HW Hf0 Ho HP Hr1 Hr2 Hs Hfr EB Hc Hn.
  apply sends_ok_app in Hs as [Hs1 Hs2]. apply frames_nil_app in Hfr as [Hfr1 Hfr2].
  pose proof (stage_handler B0 P Hmono Hstep) as Hh.
  assert (H0 : staged B0 P [] 0 tk0).
  { split; [now rewrite app_nil_r|]. split; [assumption|]. intros _. now rewrite app_nil_r. }
  destruct (exchange port vers (A ++ B0) c corr _ s k tk0 e s1 B1 Hh Hi Hk H0 Hr1 Hs1 Hfr1) as (k' & st & n & Hk' & Hp & Hi1 & Hn1).
  assert (Hc1 : sCrash s1 = false).
  { destruct (sCrash s1) eqn:E; [|reflexivity]. rewrite (run_crashed s1 e' E) in Hr2. injection Hr2 as <- <-. congruence. }
  specialize (Hn1 Hc1).
  assert (D : (exists tk, st = CBusy corr [] tk) \/ forall tk, st <> CBusy corr [] tk).
  { destruct Hp as [| |? ? ? ? ? ? ? ? ? ? Hst]; [left; eauto|right; discriminate|right]. intros tk ->. destruct Hst as [?|[?|?]]; discriminate. }
  destruct D as [[tk ->]|D].
  - right. inversion Hp as [tk' (G1 & G2 & G3) G4 G5| |? ? ? ? ? ? ? ? ? ? Hst]; subst.
    2: now destruct Hst as [?|[?|?]].
    exists k', tk. split_and!; auto.
    + now rewrite app_assoc.
    + now rewrite writes_app, HW.
    + apply G3. exists B2. now rewrite <- app_assoc.
  - left.
    destruct (sending port vers (A ++ B0) c corr _ s1 B1 n k' st e' s2 B2 Hp D Hi1 Hk' Hr2 Hs2 Hfr2 Hc Hn)
      as (B' & n' & t & v & payload & HB' & (G1 & _) & He & HWr).
    exists (B0 ++ B'), n', t, v, payload. split_and!; auto.
    + rewrite <- EB. apply prefix_os. now apply prefix_app_r'.
    + now rewrite <- EB, writes_app, HW.
Qed.

(** ** The stages of a Fetch *)
Lemma list_sum_cons a l : list_sum (a :: l) = (a + list_sum l)%nat.
Proof. reflexivity. Qed.
Definition expb (E : Z) (tk : task) : Prop :=
  match tk with TkFetchScan _ exp _ _ _ _ | TkFetchPoll _ exp _ | TkFetchSleep _ exp _ _ => exp <= E | _ => True end.
Definition sleepy (W : Z) (tk : task) : Prop :=
  match tk with TkFetchSleep _ _ w _ => w <= W | _ => True end.
Definition asleep (tk : task) : bool := match tk with TkFetchSleep _ _ _ _ => true | _ => false end.
Definition recs : nat := list_sum (map (fun q => length (tr_log (fst q) (fpIndex (snd q)) (A ++ Bf))) (flat (fqTopics rq))).
Definition Wmax : nat := ((length (flat (fqTopics rq)) + 1) * (recs + 2) + 1)%nat.

Lemma rems_le B fds : Forall2 (fd_right A B) (flat (fqTopics rq)) fds -> (rems fds <= recs)%nat.
Proof.
  unfold rems, recs. clear Hfits. induction 1 as [|q fd qs fds Hq _ IH]; [reflexivity|]. cbn [map]. rewrite !list_sum_cons.
  assert (rem fd <= length (tr_log (fst q) (fpIndex (snd q)) (A ++ Bf)))%nat; [|lia].
  destruct Hq as (_ & _ & Hk & _). unfold rem. destruct (fdKp fd) as [[t p]|]; [|lia]. destruct Hk as [[= -> ->] _]. lia.
Qed.
Lemma work_le B n tk : fetch_core A rq B n tk -> (work tk <= Wmax)%nat.
Proof.
  intros (_ & H). unfold Wmax. destruct tk; try contradiction; cbn [work]; try nia.
  destruct H as (_ & _ & H & _). pose proof (rems_le _ _ H) as Hr. apply Forall2_length in H. rewrite app_length in H. rewrite H.
  destruct more; nia.
Qed.
Lemma fstep_exp E os tk tk' : fstep os tk tk' -> expb E tk -> expb E tk'.
Proof. now destruct 1. Qed.
Lemma wake_good E B n rq' exp w d : fetch_core A rq B n (TkFetchSleep rq' exp w d) -> exp <= E -> ready E (A ++ B) ->
  good (A ++ B) (TkFetchScan rq' exp false false [] d).
Proof. intros (_ & -> & _ & H1 & _ & H2) HE Hr. now apply (ready_good E). Qed.

Definition P2 (E : Z) (os : list obs) (n : nat) (tk : task) : Prop := expb E tk /\ sleepy (tr_now os + 20000000) tk.
Definition P3 (E : Z) (os : list obs) (n : nat) (tk : task) : Prop :=
  P2 E os n tk /\ ready E os /\ (good os tk \/ asleep tk = true \/ (1 <= work tk /\ n + work tk <= Wmax)%nat).
Definition P4 (E W : Z) (os : list obs) (n : nat) (tk : task) : Prop :=
  expb E tk /\ ready E os /\ (good os tk \/ (asleep tk = true /\ sleepy W tk)).
Definition P5 (E : Z) (os : list obs) (n : nat) (tk : task) : Prop :=
  expb E tk /\ ready E os /\
  ((good os tk /\ n + work tk <= Wmax + 1)%nat \/ (asleep tk = true /\ sleepy (tr_now os) tk /\ n = 0%nat)).

Lemma sleepy_mono W W' tk : W <= W' -> sleepy W tk -> sleepy W' tk.
Proof. destruct tk; cbn; lia. Qed.
Lemma P2_mono E a b n tk : a ++ b `prefix_of` A ++ Bf -> Forall (fun x => x <> ORestart) b -> P2 E a n tk -> P2 E (a ++ b) n tk.
Proof. intros Hp _ [H1 H2]. split; [assumption|]. pose proof (now_pre a b Hp). eapply sleepy_mono; [|exact H2]. lia. Qed.
Lemma P3_mono E a b n tk : a ++ b `prefix_of` A ++ Bf -> Forall (fun x => x <> ORestart) b -> P3 E a n tk -> P3 E (a ++ b) n tk.
Proof.
  intros Hp Hb (H1 & H2 & H3). split; [now apply P2_mono|]. split; [now apply ready_app|].
  destruct H3 as [?|[?|?]]; auto. left. now apply good_app.
Qed.
Lemma P4_mono E W a b n tk : a ++ b `prefix_of` A ++ Bf -> Forall (fun x => x <> ORestart) b -> P4 E W a n tk -> P4 E W (a ++ b) n tk.
Proof.
  intros Hp Hb (H1 & H2 & H3). split; [assumption|]. split; [now apply ready_app|].
  destruct H3 as [?|?]; auto. left. now apply good_app.
Qed.
Lemma P5_mono E a b n tk : a ++ b `prefix_of` A ++ Bf -> Forall (fun x => x <> ORestart) b -> P5 E a n tk -> P5 E (a ++ b) n tk.
Proof.
  intros Hp Hb (H1 & H2 & H3). split; [assumption|]. split; [now apply ready_app|].
  destruct H3 as [[? ?]|(? & ? & ?)]; [left|right].
  - split; [now apply good_app|assumption].
  - split; [assumption|]. split; [|assumption]. pose proof (now_pre a b Hp). eapply sleepy_mono; [|eassumption]. lia.
Qed.

Lemma P2_step E B n tk tk' : B `prefix_of` Bf -> fetch_core A rq B n tk -> P2 E (A ++ B) n tk -> fstep (A ++ B) tk tk' ->
  P2 E (A ++ B) (S n) tk'.
Proof.
  intros _ _ [H1 H2] Hs. split; [eapply fstep_exp; eauto|]. destruct Hs; cbn in *; trivial. lia.
Qed.
Lemma P3_step E B n tk tk' : B `prefix_of` Bf -> fetch_core A rq B n tk -> P3 E (A ++ B) n tk -> fstep (A ++ B) tk tk' ->
  P3 E (A ++ B) (S n) tk'.
Proof.
  intros Hp Hf (H1 & H2 & H3) Hs. split; [eapply P2_step; eauto|]. split; [assumption|].
  destruct H3 as [H3|[H3|[H3 H4]]].
  - left. eapply fstep_good; eauto.
  - destruct Hs; try discriminate; [left|auto]. eapply wake_good; eauto. now destruct H1.
  - destruct (asleep tk') eqn:Ea; [auto|].
    assert (Hw : (work tk' < work tk)%nat).
    { destruct Hs; try (eapply fstep_work; [exact Hp| |exact I]; now constructor); cbn in *; try discriminate; lia. }
    destruct Hs; try discriminate; try (right; right; split; [cbn [work]; lia|lia]); left; exact I.
Qed.
Lemma P4_step E W B n tk tk' : B `prefix_of` Bf -> fetch_core A rq B n tk -> P4 E W (A ++ B) n tk -> fstep (A ++ B) tk tk' ->
  P4 E W (A ++ B) (S n) tk'.
Proof.
  intros Hp Hf (H1 & H2 & H3) Hs. split; [eapply fstep_exp; eauto|]. split; [assumption|].
  destruct H3 as [H3|[H3 H4]].
  - left. eapply fstep_good; eauto.
  - destruct Hs; try discriminate; [left|auto]. eapply wake_good; eauto.
Qed.
Lemma P5_step E B n tk tk' : B `prefix_of` Bf -> fetch_core A rq B n tk -> P5 E (A ++ B) n tk -> fstep (A ++ B) tk tk' ->
  P5 E (A ++ B) (S n) tk'.
Proof.
  intros Hp Hf (H1 & H2 & H3) Hs. split; [eapply fstep_exp; eauto|]. split; [assumption|].
  destruct H3 as [[H3 H4]|(H3 & H4 & H5)].
  - left. split; [eapply fstep_good; eauto|].
    assert (Hw : (work tk' < work tk)%nat); [|lia].
    destruct Hs; try (eapply fstep_work; [exact Hp| |exact I]; now constructor); cbn [work good] in *; try lia; contradiction.
  - destruct Hs; try discriminate.
    + left. split; [eapply wake_good; eauto|]. subst n. 
      assert (Hl : (work (TkFetchScan rq0 exp false false [] d) <= Wmax)%nat).
      { destruct Hf as (F2 & -> & F3 & F4 & F5 & F6). apply (work_le B 0). split; [assumption|].
        split_and!; auto; discriminate. }
      lia.
    + cbn in H4. lia.
Qed.

(** Looking up the partitions. *)
Definition open_inv (B : list obs) (n : nat) (tk : task) : Prop :=
  fetch_inv A rq B n tk /\
  (forall rq' ops kt fds, tk = TkFetchOpen rq' ops kt fds -> (n + length ops <= entries (fqTopics rq))%nat) /\
  (B `prefix_of` Bf -> P2 (tr_now (A ++ B) + fqWait rq * 1000000) (A ++ B) n tk).
Lemma open_handler : handler_ok port vers A c open_inv.
Proof.
  split.
  - intros B n tk o Ho (H1 & H2 & H3). split; [eapply fetch_inv_mono, H1|]. split; [assumption|].
    intros Hp. assert (Hp' : (A ++ B) ++ o `prefix_of` A ++ Bf) by (rewrite <- app_assoc; now apply prefix_os).
    pose proof (now_pre (A ++ B) o Hp') as Hn. rewrite app_assoc.
    destruct H3 as [H3 H4]. { etransitivity; [|exact Hp]. apply prefix_app_r. reflexivity. }
    split; [|eapply sleepy_mono; [|exact H4]; lia]. destruct tk; cbn [expb] in *; trivial; lia.
  - intros s B n tk ch Hi Ht Hr (H1 & H2 & H3).
    destruct (h_step _ _ _ _ _ (fetch_handler port vers A c rq) s B n tk ch Hi Ht Hr H1) as (ds & tk' & o & E & H4).
    exists ds, tk', o. split; [assumption|]. split; [assumption|].
    destruct (opening tk) eqn:Eo.
    + destruct tk; try discriminate. pose proof (H2 _ _ _ _ eq_refl) as Hn. clear H2. cbn [tstep] in E.
      destruct H1 as (_ & _ & -> & _). destruct ops as [|[m|p] ops]; injection E as _ <- <-.
      * split; [discriminate|]. intros _. rewrite app_nil_r. split; cbn; [|trivial]. now rewrite (i_now _ _ _ _ Hi).
      * split; [intros ? ? ? ? [= <- <- <- <-]; cbn [length] in Hn; lia|]. now intros _.
      * split; [intros ? ? ? ? [= <- <- <- <-]; cbn [length] in Hn; lia|]. now intros _.
    + assert (Hs : B `prefix_of` Bf -> fstep (A ++ B) tk tk') by (intros; eapply fetch_fstep; [eassumption|exact Hi|exact (proj2 H1)|auto..]; eauto).
      assert (o = [] /\ opening tk' = false) as [-> Ho'].
      { destruct H1 as (_ & _ & H1). destruct tk; try discriminate; try contradiction; cbn [tstep] in E.
        - destruct todo.
          + destruct more; [injection E as _ <- <-; auto|]. destruct (_ || _); [|injection E as _ <- <-; auto].
            apply fetchFinish_inv in E as (_ & -> & v & _ & ->). auto.
          + destruct (fetchOne _ _) as [[? ?]|]; [|discriminate]. injection E as _ <- <-; auto.
        - destruct (eCancel _); [|injection E as _ <- <-; auto].
          apply fetchFinish_inv in E as (_ & -> & v & _ & ->). auto.
        - destruct (_ <=? _); injection E as _ <- <-; auto. }
      rewrite app_nil_r. split; [intros ? ? ? ? ->; discriminate|]. intros Hp. eapply P2_step; [exact Hp|exact (proj2 H1)|auto..].
  - intros B n t v (H1 & _). exact (h_enc _ _ _ _ _ (fetch_handler port vers A c rq) _ _ _ _ H1).
Qed.
End live.

Lemma own_steps_cons c ev e : own_steps c (ev :: e) = (own_steps c [ev] + own_steps c e)%nat.
Proof. apply (own_steps_app c [ev] e). Qed.
Lemma split_steps c e a b : (a + b <= own_steps c e)%nat -> exists e1 e2, e = e1 ++ e2 /\
  (a <= own_steps c e1)%nat /\ (b <= own_steps c e2)%nat.
Proof.
  revert e. induction a as [|a IH]; intros e H.
  - exists [], e. cbn in *. split_and!; auto with lia.
  - assert (G : exists e0 ev e2, e = e0 ++ ev :: e2 /\ (own_steps c [ev] = 1)%nat /\ (a + b <= own_steps c e2)%nat).
    { clear IH. induction e as [|ev e IH']; [cbn in H; lia|]. rewrite own_steps_cons in H.
      assert (D : (own_steps c [ev] = 1 \/ own_steps c [ev] = 0)%nat).
      { unfold own_steps. cbn. destruct ev; auto. destruct (Nat.eqb c c0); auto. }
      destruct D as [D|D].
      - exists [], ev, e. split_and!; auto. lia.
      - destruct IH' as (e0 & ev' & e2 & -> & H1 & H2); [lia|]. exists (ev :: e0), ev', e2. auto. }
    destruct G as (e0 & ev & e2 & -> & H1 & H2). destruct (IH e2 H2) as (e3 & e4 & -> & H3 & H4).
    exists (e0 ++ ev :: e3), e4. split_and!; [now rewrite <- app_assoc| |assumption].
    rewrite own_steps_app, own_steps_cons. lia.
Qed.

Lemma run_no_crash s e s' B : run s e = (s', B) -> sCrash s' = false -> sCrash s = false.
Proof.
  intros Hr Hc. destruct (sCrash s) eqn:E; [|reflexivity]. rewrite (run_crashed s e E) in Hr. injection Hr as <- <-. congruence.
Qed.

Lemma fetch_live_core port vers A c corr rq s k e1 e2 e3 e4 e5 s1 s2 s3 s4 s5 B1 B2 B3 B4 B5 Bf :
  let tk0 := TkFetchOpen rq (plan (fqTopics rq)) None [] in
  inv port vers A s -> sConns s !! c = Some (Conn k (CBusy corr [] tk0)) -> fetch_inv A rq [] 0 tk0 ->
  run s e1 = (s1, B1) -> run s1 e2 = (s2, B2) -> run s2 e3 = (s3, B3) -> run s3 e4 = (s4, B4) -> run s4 e5 = (s5, B5) ->
  Bf = B1 ++ B2 ++ B3 ++ B4 ++ B5 ->
  sends_ok c (e1 ++ e2 ++ e3 ++ e4 ++ e5) -> frames c Bf = [] -> sCrash s5 = false ->
  posts_small (A ++ Bf) -> Forall (qfits (A ++ Bf)) (flat (fqTopics rq)) ->
  (entries (fqTopics rq) + 1 <= own_steps c e1)%nat ->
  ready A rq (tr_now (A ++ B1) + fqWait rq * 1000000) (A ++ B1 ++ B2) ->
  (Wmax A rq Bf <= own_steps c e3)%nat ->
  tr_now (A ++ B1 ++ B2 ++ B3) + 20000000 <= tr_now (A ++ B1 ++ B2 ++ B3 ++ B4) ->
  (Wmax A rq Bf + 6 <= own_steps c e5)%nat ->
  replied A corr rq c Bf.
Proof.
  intros tk0 Hi Hk Hf0 R1 R2 R3 R4 R5 EB Hs Hfr Hc Hsm Hfit N1 Hrdy N3 Ht N5.
  pose proof (run_trans _ _ _ _ _ _ _ R4 R5) as R45.
  pose proof (run_trans _ _ _ _ _ _ _ R3 R45) as R345.
  pose proof (run_trans _ _ _ _ _ _ _ R2 R345) as R2345.
  assert (Hob : Forall obs_bytes (A ++ Bf)).
  { rewrite EB. eapply i_obytes. eapply run_inv; [exact Hi|]. exact (run_trans _ _ _ _ _ _ _ R1 R2345). }
  assert (O45 : (4 <= own_steps c (e4 ++ e5))%nat) by (rewrite own_steps_app; lia).
  assert (O345 : (4 <= own_steps c (e3 ++ e4 ++ e5))%nat) by (rewrite own_steps_app; lia).
  assert (O2345 : (4 <= own_steps c (e2 ++ e3 ++ e4 ++ e5))%nat) by (rewrite own_steps_app; lia).
  pose proof Hfr as Hfr0. rewrite EB in Hfr0. apply frames_nil_app in Hfr0 as [F1 F2345].
  apply sends_ok_app in Hs as [S1 S2345].
  (* looking up *)
  pose proof (open_handler port vers A c rq Bf Hob Hsm Hfit) as Hh.
  assert (H0 : open_inv A rq Bf [] 0 tk0).
  { split; [assumption|]. split; [|intros _; split; exact I]. intros ? ? ? ? [= <- <- <- <-]. now rewrite plan_length. }
  destruct (exchange port vers A c corr _ s k tk0 e1 s1 B1 Hh Hi Hk H0 R1 S1 F1) as (k1 & st1 & n1 & Hk1 & Hp1 & Hi1 & Hn1).
  assert (Hc1 : sCrash s1 = false) by (eapply run_no_crash; [exact R2345|assumption]). specialize (Hn1 Hc1).
  assert (D : (exists tk, st1 = CBusy corr [] tk) \/ forall tk, st1 <> CBusy corr [] tk).
  { destruct Hp1 as [| |? ? ? ? ? ? ? ? ? ? Hst]; [left; eauto|right; discriminate|right]. intros tk ->. destruct Hst as [?|[?|?]]; discriminate. }
  destruct D as [[tk1 ->]|D].
  2: { destruct (sending port vers A c corr _ s1 B1 n1 k1 st1 _ s5 _ Hp1 D Hi1 Hk1 R2345 S2345 F2345 Hc O2345)
         as (B' & n' & t & v & payload & HB' & (G1 & _) & He & HWr).
       exists B', n', t, v, payload. rewrite EB. split_and!; auto. now apply prefix_app_r'. }
  inversion Hp1 as [tk' (G1 & G2 & G3) W1 G5| |? ? ? ? ? ? ? ? ? ? Hst]; subst tk' st st1 || idtac.
  2: now destruct Hst as [?|[?|?]].
  subst tk'. assert (P1 : B1 `prefix_of` Bf) by (rewrite EB; apply prefix_app_r; reflexivity).
  assert (Hop : opening tk1 = false).
  { destruct tk1; try reflexivity. specialize (G2 _ _ _ _ eq_refl). lia. }
  specialize (G3 P1). set (E := tr_now (A ++ B1) + fqWait rq * 1000000) in *.
  (* waiting *)
  destruct (stage_run port vers A c corr rq Bf Hsm Hfit B1 (P2 E) s1 k1 tk1 e2 s2 B2 _ s5 _
    (P2_mono A Bf Hob E) (P2_step A rq Bf E) Hi1 Hk1 W1 G1 Hop G3 R2 R345 S2345 F2345) as [?|(k2 & tk2 & Hk2 & Hi2 & W2 & G12 & Hop2 & G32)]; auto.
  apply sends_ok_app in S2345 as [S2 S345]. apply frames_nil_app in F2345 as [F2 F345].
  (* due *)
  assert (Q3 : P3 A rq Bf E (A ++ B1 ++ B2) 0 tk2).
  { split; [assumption|]. split; [assumption|].
    pose proof (work_le A rq Bf _ _ _ (proj2 G12)) as Hw. destruct tk2; try discriminate; try (destruct G12 as (_ & _ & []); fail).
    - left. exact I.
    - right. right. cbn [work] in *. lia.
    - right. right. cbn [work] in *. lia.
    - right. left. reflexivity. }
  destruct (stage_run port vers A c corr rq Bf Hsm Hfit (B1 ++ B2) (P3 A rq Bf E) s2 k2 tk2 e3 s3 B3 _ s5 _
    (P3_mono A rq Bf Hob E) (P3_step A rq Bf Hob Hsm Hfit E) Hi2 Hk2 W2 G12 Hop2 Q3 R3 R45 S345 F345) as [?|(k3 & tk3 & Hk3 & Hi3 & W3 & G13 & Hop3 & G33)]; auto.
  { now rewrite <- app_assoc. }
  rewrite <- !app_assoc in *.
  apply sends_ok_app in S345 as [S3 S45]. apply frames_nil_app in F345 as [F3 F45].
  (* 20 ms *)
  set (W := tr_now (A ++ B1 ++ B2 ++ B3) + 20000000) in *.
  assert (Q4 : P4 A rq E W (A ++ B1 ++ B2 ++ B3) 0 tk3).
  { destruct G33 as ([J1 J2] & J3 & J4). split; [assumption|]. split; [assumption|].
    destruct J4 as [J4|[J4|[J4 J5]]]; [now left|right; auto|exfalso; clear - J4 J5 N3; lia]. }
  destruct (stage_run port vers A c corr rq Bf Hsm Hfit (B1 ++ B2 ++ B3) (P4 A rq E W) s3 k3 tk3 e4 s4 B4 _ s5 _
    (P4_mono A rq Bf Hob E W) (P4_step A rq Bf E W) Hi3 Hk3 W3 G13 Hop3 Q4 R4 R5 S45 F45) as [?|(k4 & tk4 & Hk4 & Hi4 & W4 & G14 & Hop4 & G34)]; auto.
  { now rewrite <- !app_assoc. }
  { lia. }
  rewrite <- !app_assoc in *.
  apply sends_ok_app in S45 as [S4 S5]. apply frames_nil_app in F45 as [F4 F5].
  (* last *)
  destruct (split_steps c e5 (Wmax A rq Bf + 2) 4) as (a & b & -> & Na & Nb); [clear - N5; lia|].
  destruct (run_app_inv _ _ _ _ _ R5) as (s6 & B6 & B7 & R6 & R7 & EB5).
  assert (Q5 : P5 A rq Bf E (A ++ B1 ++ B2 ++ B3 ++ B4) 0 tk4).
  { destruct G34 as (J1 & J3 & J4). split; [assumption|]. split; [assumption|].
    pose proof (work_le A rq Bf _ _ _ (proj2 G14)) as Hw.
    destruct J4 as [J4|[J4 J5]]; [left; split; [assumption|clear - Hw; lia]|right]. split; [assumption|]. split; [|reflexivity].
    eapply sleepy_mono; [|exact J5]. exact Ht. }
  destruct (stage_run port vers A c corr rq Bf Hsm Hfit (B1 ++ B2 ++ B3 ++ B4) (P5 A rq Bf E) s4 k4 tk4 a s6 B6 b s5 B7
    (P5_mono A rq Bf Hob E) (P5_step A rq Bf Hob Hsm Hfit E) Hi4 Hk4 W4 G14 Hop4 Q5 R6 R7 S5) as [?|(k5 & tk5 & Hk5 & Hi5 & W5 & G15 & Hop5 & G35)]; auto.
  { now rewrite <- EB5. }
  { rewrite <- EB5. now rewrite <- !app_assoc. }
  exfalso. destruct G35 as (_ & _ & [[_ J]|(_ & _ & J)]); clear - J Na; lia.
Qed.

Lemma map_list_sum {X} (f g : X -> nat) l : (forall x, f x = g x) -> list_sum (map f l) = list_sum (map g l).
Proof. intros H. induction l as [|x l IH]; [reflexivity|]. cbn [map]. rewrite !list_sum_cons. now rewrite H, IH. Qed.

Lemma Wmax_recs A r w mb ts B :
  Wmax A (mk_fetch_req r w mb ts) B = ((length (flat ts) + 1) * (fetch_recs ts (A ++ B) + 2) + 1)%nat.
Proof.
  unfold Wmax, recs, fetch_recs. change (fqTopics (mk_fetch_req r w mb ts)) with (mk_topics mk_fetch_part ts).
  rewrite flat_mk, !map_length, map_map. f_equal. f_equal. f_equal.
  apply map_list_sum. now intros [t [[i o] m]].
Qed.
Lemma ready_of A r w mb ts E os : fetch_ready A E ts os -> ready A (mk_fetch_req r w mb ts) E os.
Proof.
  unfold fetch_ready, ready. change (fqTopics (mk_fetch_req r w mb ts)) with (mk_topics mk_fetch_part ts).
  rewrite flat_mk. intros [?|[?|H]]; auto. right; right. apply Exists_fmap. eapply Exists_impl; [exact H|].
  intros [t [[i o] m]]. exact id.
Qed.
Lemma qfits_of r w mb ts os : Forall (fits os) (flat ts) -> Forall (qfits os) (flat (fqTopics (mk_fetch_req r w mb ts))).
Proof.
  change (fqTopics (mk_fetch_req r w mb ts)) with (mk_topics mk_fetch_part ts). rewrite flat_mk. intros H.
  apply Forall_fmap. eapply Forall_impl; [exact H|]. intros [t [[i o] m]]. exact id.
Qed.

(** The reply to a Fetch does come: once the entries are looked up, a reply is
    due, and everything fits, it takes a bounded number of the connection's own
    steps and a tick of 20 ms. *)
Definition fetch_steps (ts : list (bytes * list (Z * Z * Z))) (os : list obs) : nat :=
  ((length (flat ts) + 1) * (fetch_recs ts os + 2) + 7)%nat.

Lemma fetch_live_mid port vers A c corr r w mb ts s k e1 e2 e3 e4 e5 s1 s2 s3 s4 s5 B1 B2 B3 B4 B5 :
  let rq := mk_fetch_req r w mb ts in
  let tk0 := TkFetchOpen rq (plan (fqTopics rq)) None [] in
  let B := B1 ++ B2 ++ B3 ++ B4 ++ B5 in
  inv port vers A s -> sConns s !! c = Some (Conn k (CBusy corr [] tk0)) ->
  nonneg_offsets ts -> (length ts <= length (flat ts))%nat ->
  run s e1 = (s1, B1) -> run s1 e2 = (s2, B2) -> run s2 e3 = (s3, B3) -> run s3 e4 = (s4, B4) -> run s4 e5 = (s5, B5) ->
  sends_ok c (e1 ++ e2 ++ e3 ++ e4 ++ e5) -> frames c B = [] -> sCrash s = false -> crashed B = false ->
  posts_small (A ++ B) -> Forall (fits (A ++ B)) (flat ts) ->
  (entries ts + 1 <= own_steps c e1)%nat ->
  fetch_ready A (tr_now (A ++ B1) + w * 1000000) ts (A ++ B1 ++ B2) ->
  (fetch_steps ts (A ++ B) <= own_steps c e3)%nat ->
  tr_now (A ++ B1 ++ B2 ++ B3) + 20000000 <= tr_now (A ++ B1 ++ B2 ++ B3 ++ B4) ->
  (fetch_steps ts (A ++ B) <= own_steps c e5)%nat ->
  exists B' rep, B' `prefix_of` B /\ fetch_reply A corr w ts B' rep /\ writes c B = rep.
Proof.
  intros rq tk0 B Hi Hk Hn Hl R1 R2 R3 R4 R5 Hs Hf Hc0 Hc Hsm Hfit N1 Hrdy N3 Ht N5.
  assert (Hc5 : sCrash s5 = false).
  { pose proof (run_trans _ _ _ _ _ _ _ R4 R5) as R45.
    pose proof (run_trans _ _ _ _ _ _ _ R3 R45) as R345.
    pose proof (run_trans _ _ _ _ _ _ _ R2 R345) as R2345.
    pose proof (run_trans _ _ _ _ _ _ _ R1 R2345) as R.
    pose proof (run_inv _ _ _ _ _ _ _ Hi R) as Hi'. 
    rewrite (i_crash _ _ _ _ Hi'), crashed_app, <- (i_crash _ _ _ _ Hi), Hc0. exact Hc. }
  pose proof (Wmax_recs A r w mb ts B) as HW. unfold fetch_steps in N3, N5.
  destruct (fetch_live_core port vers A c corr rq s k e1 e2 e3 e4 e5 s1 s2 s3 s4 s5 B1 B2 B3 B4 B5 B
    Hi Hk (fetch_inv_start A r w mb ts Hn Hl) R1 R2 R3 R4 R5 eq_refl Hs Hf Hc5 Hsm (qfits_of _ _ _ _ _ Hfit))
    as (B' & n & t & v & payload & HB & HI & He & Hw).
  - change (fqTopics rq) with (mk_topics mk_fetch_part ts). now rewrite entries_mk.
  - now apply ready_of.
  - fold rq in HW. lia.
  - exact Ht.
  - fold rq in HW. lia.
  - exists B', (w_reply corr payload). split_and!; auto. exact (fetch_inv_reply _ _ _ _ _ _ _ _ _ _ _ HI He).
Qed.

Theorem fetch_answered_live port ch A c corr client r w mb ts s e1 e2 e3 e4 e5 s1 s2 s3 s4 s5 B1 B2 B3 B4 B5 :
  let m := w_request 1 2 corr client (w_fetch_req r w mb ts) in
  let A' := A ++ [OFrame c m] in
  let B := B1 ++ B2 ++ B3 ++ B4 ++ B5 in
  l_header 1 2 corr client = true -> l_fetch r w mb ts = true -> zlen (w_fetch_req r w mb ts) <= 4096 ->
  nonneg_offsets ts -> (length ts <= length (flat ts))%nat ->
  serving port ch A c m s ->
  run s e1 = (s1, B1) -> run s1 e2 = (s2, B2) -> run s2 e3 = (s3, B3) -> run s3 e4 = (s4, B4) -> run s4 e5 = (s5, B5) ->
  sends_ok c (e1 ++ e2 ++ e3 ++ e4 ++ e5) -> crashed B = false ->
  posts_small (A' ++ B) -> Forall (fits (A' ++ B)) (flat ts) ->
  (entries ts + 1 <= own_steps c e1)%nat ->
  fetch_ready A' (tr_now (A' ++ B1) + w * 1000000) ts (A' ++ B1 ++ B2) ->
  (fetch_steps ts (A' ++ B) <= own_steps c e3)%nat ->
  tr_now (A' ++ B1 ++ B2 ++ B3) + 20000000 <= tr_now (A' ++ B1 ++ B2 ++ B3 ++ B4) ->
  (fetch_steps ts (A' ++ B) <= own_steps c e5)%nat ->
  exists B' rep, B' `prefix_of` until_frame c B /\ fetch_reply A' corr w ts B' rep /\ writes c (until_frame c B) = rep.
Proof.
  intros m A' B Hh Hl Hz Hn Hlen Hs R1 R2 R3 R4 R5 Hok Hc Hsm Hfit N1 Hrdy N3 Ht N5.
  destruct (frames c B) eqn:F.
  - rewrite until_frame_none by assumption.
    destruct (serving_inv _ _ _ _ _ _ _ _ _ Hs (fetch_begin _ _ _ _ _ _ _ Hh Hl Hz)) as (inb & Hk & Hi & Hc0).
    fold m in Hi. fold A' in Hi. clear Hs Hh. clearbody A'. clear m.
    exact (fetch_live_mid port _ A' c corr r w mb ts s inb e1 e2 e3 e4 e5 s1 s2 s3 s4 s5 B1 B2 B3 B4 B5
      Hi Hk Hn Hlen R1 R2 R3 R4 R5 Hok F Hc0 Hc Hsm Hfit N1 Hrdy N3 Ht N5).
  - pose proof (run_trans _ _ _ _ _ _ _ R4 R5) as R45.
    pose proof (run_trans _ _ _ _ _ _ _ R3 R45) as R345.
    pose proof (run_trans _ _ _ _ _ _ _ R2 R345) as R2345.
    pose proof (run_trans _ _ _ _ _ _ _ R1 R2345) as R.
    destruct (fetch_answered_right _ _ _ _ _ _ _ _ _ _ _ Hh Hl Hz Hn Hlen Hs _ _ _ R Hok) as [_ H].
    apply H. left. fold B. rewrite F. discriminate.
Qed.
