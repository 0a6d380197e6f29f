(** * FetchDoom: Fetch requests that end the process when a reply is due *)
From Verif Require Export FetchLive.
From stdpp Require Import gmap list.
From Coq Require Import ZifyBool ZifyNat.
Open Scope Z_scope.
Open Scope list_scope.

(** ** Handlers whose result cannot be sent *)
Record handler_doomed (port : Z) (vers : gmap Z vrange) (A : list obs) (c : nat) (corr : Z) (extra : bytes)
    (I : list obs -> nat -> task -> Prop) : Prop := {
  d_other : forall B n tk o, Forall (beside c) o -> I B n tk -> I (B ++ o) n tk;
  d_ret : forall B n t v, I B n (TkRet t v) -> finishRequest corr extra t v = None;
  d_step : forall s B n tk ch, inv port vers (A ++ B) s -> is_ret tk = false -> I B n tk ->
    tstep c (env_of s) ch (sDs s) tk = TPanic \/
    exists ds tk' o, tstep c (env_of s) ch (sDs s) tk = TCont ds tk' o /\ I (B ++ o) (S n) tk'
}.

Lemma doomed_run port vers A c corr extra I s k tk0 evs s' B :
  handler_doomed port vers A c corr extra I -> inv port vers A s -> sCrash s = false ->
  sConns s !! c = Some (Conn k (CBusy corr extra tk0)) -> I [] 0%nat tk0 ->
  run s evs = (s', B) ->
  writes c B = [] /\ frames c B = [] /\ inv port vers (A ++ B) s' /\
  (sCrash s' = true \/
   exists tk, sConns s' !! c = Some (Conn k (CBusy corr extra tk)) /\ I B (own_steps c evs) tk).
Proof.
  intros Hh Hi Hcr Hk HI. revert s' B.
  induction evs as [|ev evs IH] using rev_ind; intros s' B Hr.
  { injection Hr as <- <-. split_and!; auto; [now apply inv_nil|]. right. eauto. }
  apply run_snoc_inv in Hr as (s1 & o1 & o2 & H1 & H2 & ->).
  destruct (IH s1 o1 H1) as (W1 & F1 & I1 & Hs1).
  assert (I2 : inv port vers (A ++ o1 ++ o2) s').
  { rewrite app_assoc. eapply step_inv; eauto. }
  rewrite writes_app, frames_app, W1, F1. cbn [app].
  destruct (sCrash s1) eqn:Hc1.
  { rewrite step_crashed in H2 by assumption. injection H2 as <- <-. split_and!; auto. }
  destruct Hs1 as [|(tk & Hk1 & HI1)]; [discriminate|].
  rewrite own_steps_app.
  destruct (decide (ev_conn ev = Some c)) as [He|He].
  2: { destruct (step_other _ _ _ _ c _ He Hk1 H2) as [Hk2 Ho].
       rewrite apart_writes, apart_frames by assumption. split_and!; auto. right. exists tk. split; [assumption|].
       replace (own_steps c [ev]) with 0%nat; [rewrite Nat.add_0_r; apply (d_other _ _ _ _ _ _ _ Hh); [|assumption]; apply beside_intro; [assumption|];
         now apply (step_no_restart _ _ _ _ _ _ Hk1 eq_refl H2)|].
       destruct ev; try reflexivity. cbn in He. unfold own_steps. cbn. destruct (Nat.eqb_spec c c0); [congruence|reflexivity]. }
  pose proof H2 as H2'. unfold step in H2. rewrite Hc1 in H2.
  destruct ev; try discriminate; injection He as ->; rewrite Hk1 in H2.
  2-6: injection H2 as <- <-; split_and!; auto; right; exists tk; split; [assumption|];
       rewrite app_nil_r; unfold own_steps at 2; cbn; now rewrite Nat.add_0_r.
  destruct (is_ret tk) eqn:Hret.
  { destruct tk; try discriminate. unfold conn_step in H2. cbn [cSt cIn] in H2.
    rewrite (d_ret _ _ _ _ _ _ _ Hh _ _ _ _ HI1) in H2. injection H2 as <- <-. split_and!; auto. }
  assert (G : match tstep c (env_of s1) ch (sDs s1) tk with
      | TCont ds tk' os => (set_conn s1 c (Conn k (CBusy corr extra tk')) ds, os)
      | TPanic => (crash s1, [OCrash c]) end = (s', o2)).
  { unfold conn_step in H2. cbn [cSt cIn] in H2. destruct tk; try discriminate; exact H2. }
  destruct (d_step _ _ _ _ _ _ _ Hh s1 o1 _ tk ch I1 Hret HI1) as [E|(ds & tk' & o & E & HI2)]; rewrite E in G;
    injection G as <- <-.
  - split_and!; auto.
  - assert (Q : writes c o = [] /\ frames c o = []).
    { now destruct (tstep_obs _ _ _ _ _ _ _ _ E) as [->|(? & ? & ? & ? & ->)]. }
    destruct Q as [-> ->]. split_and!; auto. right. exists tk'. split.
    + cbn. apply list_lookup_insert. now apply lookup_lt_Some in Hk1.
    + replace (own_steps c [EvConn c ch]) with 1%nat; [now rewrite Nat.add_1_r|].
      unfold own_steps. cbn. now rewrite Nat.eqb_refl.
Qed.

(** Fewer partitions than topics, or bytes after the request. *)
Definition unsendable (rq : fetch_req) (extra : bytes) : Prop :=
  (length (flat (fqTopics rq)) < length (fqTopics rq))%nat \/ extra <> [].

Lemma core_unsendable A rq extra corr B n t v : unsendable rq extra -> fetch_core A rq B n (TkRet t v) ->
  finishRequest corr extra t v = None.
Proof.
  intros [H|H] (_ & -> & fds & Hv & Hf & _).
  - exfalso. apply Forall2_length in Hf. unfold fetchReply in Hv. rewrite fetchTopicVals_none in Hv by lia. discriminate.
  - destruct extra; [congruence|reflexivity].
Qed.
Lemma core_quiet A rq B n tk c e ch ds ds' tk' o : fetch_core A rq B n tk -> is_ret tk = false ->
  tstep c e ch ds tk = TCont ds' tk' o -> o = [] /\ (opening tk = false -> opening tk' = false).
Proof.
  intros (_ & H) Hr E. destruct tk; try discriminate; try contradiction; cbn [tstep opening] in *.
  - destruct ops as [|[m|p] ops]; injection E as _ <- <-; split; auto; discriminate.
  - destruct todo.
    + destruct more; [injection E as _ <- <-; auto|]. destruct (_ || _); [|injection E as _ <- <-; auto].
      apply fetchFinish_inv in E as (_ & -> & v & _ & ->). auto.
    + destruct (fetchOne _ _) as [[? ?]|]; [|discriminate]. injection E as _ <- <-; auto.
  - destruct (eCancel _); [|injection E as _ <- <-; auto].
    apply fetchFinish_inv in E as (_ & -> & v & _ & ->). auto.
  - destruct (_ <=? _); injection E as _ <- <-; auto.
Qed.

Section doom.
Context (port : Z) (vers : gmap Z vrange) (A : list obs) (c : nat) (corr : Z) (extra : bytes) (rq : fetch_req) (Bf : list obs).
Context (Hob : Forall obs_bytes (A ++ Bf)) (Hsmall : posts_small (A ++ Bf))
  (Hfits : Forall (qfits (A ++ Bf)) (flat (fqTopics rq))) (Hdoom : unsendable rq extra).

Definition dstaged (B0 : list obs) (P : list obs -> nat -> task -> Prop) (B : list obs) (n : nat) (tk : task) : Prop :=
  fetch_core A rq (B0 ++ B) n tk /\ opening tk = false /\ (B0 ++ B `prefix_of` Bf -> P (A ++ B0 ++ B) n tk).

Lemma dstage_handler B0 (P : list obs -> nat -> task -> Prop) :
  (forall a b n tk, a ++ b `prefix_of` A ++ Bf -> Forall (fun x => x <> ORestart) b -> P a n tk -> P (a ++ b) n tk) ->
  (forall B n tk tk', B `prefix_of` Bf -> fetch_core A rq B n tk -> P (A ++ B) n tk -> fstep (A ++ B) tk tk' -> P (A ++ B) (S n) tk') ->
  handler_doomed port vers (A ++ B0) c corr extra (dstaged B0 P).
Proof.
  intros Hmono Hstep. split.
  - intros B n tk o Ho (H1 & H2 & H3). split; [rewrite app_assoc; eapply fetch_core_mono, H1|]. split; [assumption|].
    intros Hp. rewrite !app_assoc. apply Hmono.
    + rewrite <- !app_assoc. now apply prefix_os.
    + eapply Forall_mono; [|exact Ho]. now intros x [_ ?].
    + rewrite <- app_assoc. apply H3. etransitivity; [|exact Hp]. rewrite app_assoc. apply prefix_app_r. reflexivity.
  - intros B n t v (H1 & _). eapply core_unsendable; eauto.
  - intros s B n tk ch Hi Hr (H1 & H2 & H3). rewrite <- app_assoc in Hi.
    destruct (fetch_core_step port vers A c rq s (B0 ++ B) n tk ch Hi Hr H1) as [(_ & E & _)|(ds & tk' & o & E & H4)]; [now left|right].
    exists ds, tk', o. split; [assumption|].
    destruct (core_quiet _ _ _ _ _ _ _ _ _ _ _ _ H1 Hr E) as [-> Ho']. specialize (Ho' H2).
    rewrite !app_nil_r in *. split; [assumption|]. split; [assumption|]. intros Hp.
    apply (Hstep (B0 ++ B) n tk tk' Hp H1 (H3 Hp)). eapply fetch_fstep; [exact Hsmall|exact Hfits|exact Hp|exact Hi|exact H1|auto..]; eauto.
Qed.

Lemma dstage_run B0 (P : list obs -> nat -> task -> Prop) s k tk0 e s1 B1 B2 :
  (forall a b n tk, a ++ b `prefix_of` A ++ Bf -> Forall (fun x => x <> ORestart) b -> P a n tk -> P (a ++ b) n tk) ->
  (forall B n tk tk', B `prefix_of` Bf -> fetch_core A rq B n tk -> P (A ++ B) n tk -> fstep (A ++ B) tk tk' -> P (A ++ B) (S n) tk') ->
  inv port vers (A ++ B0) s -> sCrash s = false -> sConns s !! c = Some (Conn k (CBusy corr extra tk0)) ->
  fetch_core A rq B0 0 tk0 -> opening tk0 = false -> P (A ++ B0) 0%nat tk0 ->
  run s e = (s1, B1) -> B0 ++ B1 ++ B2 = Bf -> sCrash s1 = false ->
  exists tk, sConns s1 !! c = Some (Conn k (CBusy corr extra tk)) /\ inv port vers (A ++ B0 ++ B1) s1 /\
    fetch_core A rq (B0 ++ B1) 0 tk /\ opening tk = false /\ P (A ++ B0 ++ B1) (own_steps c e) tk.
Proof.
  intros Hmono Hstep Hi Hc Hk Hf0 Ho HP Hr EB Hc1.
  assert (H0 : dstaged B0 P [] 0 tk0).
  { split; [now rewrite app_nil_r|]. split; [assumption|]. intros _. now rewrite app_nil_r. }
  destruct (doomed_run _ _ _ _ _ _ _ _ _ _ _ _ _ (dstage_handler B0 P Hmono Hstep) Hi Hc Hk H0 Hr) as (_ & _ & Hi1 & [?|(tk & Hk1 & G1 & G2 & G3)]); [congruence|].
  exists tk. split_and!; auto.
  - now rewrite app_assoc.
  - apply G3. exists B2. now rewrite <- app_assoc.
Qed.

Lemma dopen_handler : handler_doomed port vers A c corr extra
  (fun B n tk => fetch_core A rq B n tk /\
    (forall rq' ops kt fds, tk = TkFetchOpen rq' ops kt fds -> (n + length ops <= entries (fqTopics rq))%nat) /\
    (B `prefix_of` Bf -> P2 (tr_now (A ++ B) + fqWait rq * 1000000) (A ++ B) n tk)).
Proof.
  split.
  - intros B n tk o Ho (H1 & H2 & H3). split; [eapply fetch_core_mono, H1|]. split; [assumption|].
    intros Hp. assert (Hp' : (A ++ B) ++ o `prefix_of` A ++ Bf) by (rewrite <- app_assoc; now apply prefix_os).
    pose proof (now_pre A Bf Hob (A ++ B) o Hp') as Hn. rewrite app_assoc.
    destruct H3 as [H3 H4]. { etransitivity; [|exact Hp]. apply prefix_app_r. reflexivity. }
    split; [|eapply sleepy_mono; [|exact H4]; lia]. destruct tk; cbn [expb] in *; trivial; lia.
  - intros B n t v (H1 & _). eapply core_unsendable; eauto.
  - intros s B n tk ch Hi Hr (H1 & H2 & H3).
    destruct (fetch_core_step port vers A c rq s B n tk ch Hi Hr H1) as [(_ & E & _)|(ds & tk' & o & E & H4)]; [now left|right].
    exists ds, tk', o. split; [assumption|]. split; [assumption|].
    destruct (opening tk) eqn:Eo.
    + destruct tk; try discriminate. pose proof (H2 _ _ _ _ eq_refl) as Hn. clear H2. cbn [tstep] in E.
      destruct H1 as (_ & -> & _). destruct ops as [|[m|p] ops]; injection E as _ <- <-.
      * split; [discriminate|]. intros _. rewrite app_nil_r. split; cbn; [|trivial]. now rewrite (i_now _ _ _ _ Hi).
      * split; [intros ? ? ? ? [= <- <- <- <-]; cbn [length] in Hn; lia|]. now intros _.
      * split; [intros ? ? ? ? [= <- <- <- <-]; cbn [length] in Hn; lia|]. now intros _.
    + assert (Hs : B `prefix_of` Bf -> fstep (A ++ B) tk tk').
      { intros Hp. eapply fetch_fstep; [exact Hsmall|exact Hfits|exact Hp|exact Hi|exact H1|auto..]; eauto. }
      destruct (core_quiet _ _ _ _ _ _ _ _ _ _ _ _ H1 Hr E) as [-> Ho']. specialize (Ho' Eo).
      rewrite app_nil_r. split; [intros ? ? ? ? ->; discriminate|]. intros Hp. eapply P2_step; [exact Hp|exact H1|auto..].
Qed.
End doom.

Lemma fetch_doom_core port vers A c corr extra rq s k e1 e2 e3 e4 e5 s1 s2 s3 s4 s5 B1 B2 B3 B4 B5 Bf :
  let tk0 := TkFetchOpen rq (plan (fqTopics rq)) None [] in
  inv port vers A s -> sCrash s = false -> sConns s !! c = Some (Conn k (CBusy corr extra tk0)) -> fetch_core A rq [] 0 tk0 ->
  unsendable rq extra ->
  run s e1 = (s1, B1) -> run s1 e2 = (s2, B2) -> run s2 e3 = (s3, B3) -> run s3 e4 = (s4, B4) -> run s4 e5 = (s5, B5) ->
  Bf = B1 ++ B2 ++ B3 ++ B4 ++ B5 ->
  posts_small (A ++ Bf) -> Forall (qfits (A ++ Bf)) (flat (fqTopics rq)) ->
  (entries (fqTopics rq) + 1 <= own_steps c e1)%nat ->
  ready A rq (tr_now (A ++ B1) + fqWait rq * 1000000) (A ++ B1 ++ B2) ->
  (Wmax A rq Bf <= own_steps c e3)%nat ->
  tr_now (A ++ B1 ++ B2 ++ B3) + 20000000 <= tr_now (A ++ B1 ++ B2 ++ B3 ++ B4) ->
  (Wmax A rq Bf + 6 <= own_steps c e5)%nat ->
  sCrash s5 = true.
Proof.
  intros tk0 Hi Hc Hk Hf0 Hd R1 R2 R3 R4 R5 EB Hsm Hfit N1 Hrdy N3 Ht N5.
  destruct (sCrash s5) eqn:Hc5; [reflexivity|exfalso].
  pose proof (run_trans _ _ _ _ _ _ _ R4 R5) as R45.
  pose proof (run_trans _ _ _ _ _ _ _ R3 R45) as R345.
  pose proof (run_trans _ _ _ _ _ _ _ R2 R345) as R2345.
  assert (Hc4 : sCrash s4 = false) by (eapply run_no_crash; [exact R5|assumption]).
  assert (Hc3 : sCrash s3 = false) by (eapply run_no_crash; [exact R45|assumption]).
  assert (Hc2 : sCrash s2 = false) by (eapply run_no_crash; [exact R345|assumption]).
  assert (Hc1 : sCrash s1 = false) by (eapply run_no_crash; [exact R2345|assumption]).
  assert (Hob : Forall obs_bytes (A ++ Bf)).
  { rewrite EB. eapply i_obytes. eapply run_inv; [exact Hi|]. exact (run_trans _ _ _ _ _ _ _ R1 R2345). }
  (* looking up *)
  pose proof (dopen_handler port vers A c corr extra rq Bf Hob Hsm Hfit Hd) as Hh.
  assert (H0 : fetch_core A rq [] 0 tk0 /\
    (forall rq' ops kt fds, tk0 = TkFetchOpen rq' ops kt fds -> (0 + length ops <= entries (fqTopics rq))%nat) /\
    ([] `prefix_of` Bf -> P2 (tr_now (A ++ []) + fqWait rq * 1000000) (A ++ []) 0 tk0)).
  { split; [exact Hf0|]. split; [|intros _; split; exact I]. intros ? ? ? ? [= <- <- <- <-]. now rewrite plan_length. }
  destruct (doomed_run _ _ _ _ _ _ _ _ _ _ _ _ _ Hh Hi Hc Hk H0 R1) as (_ & _ & Hi1 & [?|(tk1 & Hk1 & G1 & G2 & G3)]); [congruence|].
  assert (P1 : B1 `prefix_of` Bf) by (rewrite EB; apply prefix_app_r; reflexivity).
  assert (Hop : opening tk1 = false).
  { destruct tk1; try reflexivity. specialize (G2 _ _ _ _ eq_refl). clear - G2 N1. lia. }
  specialize (G3 P1). set (E := tr_now (A ++ B1) + fqWait rq * 1000000) in *.
  (* waiting *)
  destruct (dstage_run port vers A c corr extra rq Bf Hsm Hfit Hd B1 (P2 E) s1 k tk1 e2 s2 B2 (B3 ++ B4 ++ B5)
    (P2_mono A Bf Hob E) (P2_step A rq Bf E) Hi1 Hc1 Hk1 G1 Hop G3 R2 (eq_sym EB) Hc2) as (tk2 & Hk2 & Hi2 & G12 & Hop2 & G32).
  (* due *)
  assert (Q3 : P3 A rq Bf E (A ++ B1 ++ B2) 0 tk2).
  { split; [assumption|]. split; [assumption|].
    pose proof (work_le A rq Bf _ _ _ G12) as Hw. destruct tk2; try discriminate; try (destruct G12 as (_ & []); fail).
    - left. exact I.
    - right. right. cbn [work] in *. clear - Hw. lia.
    - right. right. cbn [work] in *. clear - Hw. lia.
    - right. left. reflexivity. }
  destruct (dstage_run port vers A c corr extra rq Bf Hsm Hfit Hd (B1 ++ B2) (P3 A rq Bf E) s2 k tk2 e3 s3 B3 (B4 ++ B5)
    (P3_mono A rq Bf Hob E) (P3_step A rq Bf Hob Hsm Hfit E) Hi2 Hc2 Hk2 G12 Hop2 Q3 R3) as (tk3 & Hk3 & Hi3 & G13 & Hop3 & G33); auto.
  { rewrite EB. now rewrite <- app_assoc. }
  rewrite <- !app_assoc in *.
  (* 20 ms *)
  set (W := tr_now (A ++ B1 ++ B2 ++ B3) + 20000000) in *.
  assert (Q4 : P4 A rq E W (A ++ B1 ++ B2 ++ B3) 0 tk3).
  { destruct G33 as ([J1 J2] & J3 & J4). split; [assumption|]. split; [assumption|].
    destruct J4 as [J4|[J4|[J4 J5]]]; [now left|right; auto|exfalso; clear - J4 J5 N3; lia]. }
  destruct (dstage_run port vers A c corr extra rq Bf Hsm Hfit Hd (B1 ++ B2 ++ B3) (P4 A rq E W) s3 k tk3 e4 s4 B4 B5
    (P4_mono A rq Bf Hob E W) (P4_step A rq Bf E W) Hi3 Hc3 Hk3 G13 Hop3 Q4 R4) as (tk4 & Hk4 & Hi4 & G14 & Hop4 & G34); auto.
  { rewrite EB. now rewrite <- !app_assoc. }
  rewrite <- !app_assoc in *.
  (* last *)
  assert (Q5 : P5 A rq Bf E (A ++ B1 ++ B2 ++ B3 ++ B4) 0 tk4).
  { destruct G34 as (J1 & J3 & J4). split; [assumption|]. split; [assumption|].
    pose proof (work_le A rq Bf _ _ _ G14) as Hw.
    destruct J4 as [J4|[J4 J5]]; [left; split; [assumption|clear - Hw; lia]|right]. split; [assumption|]. split; [|reflexivity].
    eapply sleepy_mono; [|exact J5]. exact Ht. }
  destruct (dstage_run port vers A c corr extra rq Bf Hsm Hfit Hd (B1 ++ B2 ++ B3 ++ B4) (P5 A rq Bf E) s4 k tk4 e5 s5 B5 []
    (P5_mono A rq Bf Hob E) (P5_step A rq Bf Hob Hsm Hfit E) Hi4 Hc4 Hk4 G14 Hop4 Q5 R5) as (tk5 & Hk5 & Hi5 & G15 & Hop5 & G35); auto.
  { rewrite EB. rewrite app_nil_r. now rewrite <- !app_assoc. }
  destruct G35 as (_ & _ & [[_ J]|(_ & _ & J)]); clear - J N5; lia.
Qed.

Lemma fetch_begin_more port corr client r w mb ts extra :
  l_header 1 2 corr client = true -> l_fetch r w mb ts = true -> zlen (w_fetch_req r w mb ts) <= 4096 ->
  let rq := mk_fetch_req r w mb ts in
  beginRequest port (w_request 1 2 corr client (w_fetch_req r w mb ts ++ extra)) =
  Some (corr, extra, TkFetchOpen rq (plan (fqTopics rq)) None []).
Proof.
  intros Hh Hl Hz rq. rewrite begin_request by assumption. change (dispatch 1 2) with (Some ApiFetch). cbn [startApi].
  rewrite (with_req_good _ _ _ _ _ extra _ (fetch_good _ _ _ _ Hl)) by (try assumption; apply fetch_req_of_val).
  reflexivity.
Qed.

(** Such a Fetch ends the process by the time it would have been answered. *)
Theorem fetch_dies port ch A c corr client r w mb ts extra s e1 e2 e3 e4 e5 s1 s2 s3 s4 s5 B1 B2 B3 B4 B5 :
  let m := w_request 1 2 corr client (w_fetch_req r w mb ts ++ extra) in
  let A' := A ++ [OFrame c m] in
  let B := B1 ++ B2 ++ B3 ++ B4 ++ B5 in
  l_header 1 2 corr client = true -> l_fetch r w mb ts = true -> zlen (w_fetch_req r w mb ts) <= 4096 ->
  nonneg_offsets ts -> (length (flat ts) < length ts)%nat \/ extra <> [] ->
  serving port ch A c m s ->
  run s e1 = (s1, B1) -> run s1 e2 = (s2, B2) -> run s2 e3 = (s3, B3) -> run s3 e4 = (s4, B4) -> run s4 e5 = (s5, B5) ->
  posts_small (A' ++ B) -> Forall (fits (A' ++ B)) (flat ts) ->
  (entries ts + 1 <= own_steps c e1)%nat ->
  fetch_ready A' (tr_now (A' ++ B1) + w * 1000000) ts (A' ++ B1 ++ B2) ->
  (fetch_steps ts (A' ++ B) <= own_steps c e3)%nat ->
  tr_now (A' ++ B1 ++ B2 ++ B3) + 20000000 <= tr_now (A' ++ B1 ++ B2 ++ B3 ++ B4) ->
  (fetch_steps ts (A' ++ B) <= own_steps c e5)%nat ->
  sCrash s5 = true.
Proof.
  intros m A' B Hh Hl Hz Hn Hd Hs R1 R2 R3 R4 R5 Hsm Hfit N1 Hrdy N3 Ht N5.
  destruct (serving_inv _ _ _ _ _ _ _ _ _ Hs (fetch_begin_more _ _ _ _ _ _ _ extra Hh Hl Hz)) as (inb & Hk & Hi & Hc0).
  fold m in Hi. fold A' in Hi. clear Hs Hh. clearbody A'. clear m.
  set (rq := mk_fetch_req r w mb ts) in *.
  pose proof (Wmax_recs A' r w mb ts B) as HW. unfold fetch_steps in N3, N5.
  refine (fetch_doom_core port _ A' c corr extra rq s inb e1 e2 e3 e4 e5 s1 s2 s3 s4 s5 B1 B2 B3 B4 B5 B
    Hi Hc0 Hk (fetch_core_start A' r w mb ts Hn) _ R1 R2 R3 R4 R5 eq_refl Hsm (qfits_of _ _ _ _ _ Hfit) _ _ _ Ht _).
  - unfold unsendable. change (fqTopics rq) with (mk_topics mk_fetch_part ts). rewrite flat_mk. unfold mk_topics.
    rewrite !map_length. exact Hd.
  - change (fqTopics rq) with (mk_topics mk_fetch_part ts). now rewrite entries_mk.
  - now apply ready_of.
  - fold rq in HW. lia.
  - fold rq in HW. lia.
Qed.

(** ** Handlers that never get to a result *)
Lemma hang_run port vers A c corr extra (I : list obs -> task -> Prop) Bf s k tk0 evs s' B rest :
  (forall B tk o, I B tk -> I (B ++ o) tk) ->
  (forall s B tk ch, inv port vers (A ++ B) s -> B `prefix_of` Bf -> I B tk ->
     is_ret tk = false /\ exists ds tk' o, tstep c (env_of s) ch (sDs s) tk = TCont ds tk' o /\ I (B ++ o) tk') ->
  inv port vers A s -> sCrash s = false ->
  sConns s !! c = Some (Conn k (CBusy corr extra tk0)) -> I [] tk0 ->
  run s evs = (s', B) -> Bf = B ++ rest ->
  writes c B = [] /\ frames c B = [] /\ crashed_by c B = false /\ inv port vers (A ++ B) s' /\
  exists tk, sConns s' !! c = Some (Conn k (CBusy corr extra tk)) /\ I B tk.
Proof.
  intros Hmono Hstep Hi Hcr Hk HI. revert s' B rest.
  induction evs as [|ev evs IH] using rev_ind; intros s' B rest Hr EB.
  { injection Hr as <- <-. split_and!; auto; [now apply inv_nil|]. eauto. }
  apply run_snoc_inv in Hr as (s1 & o1 & o2 & H1 & H2 & ->).
  destruct (IH s1 o1 (o2 ++ rest) H1) as (W1 & F1 & C1 & I1 & tk & Hk1 & HI1); [now rewrite EB, app_assoc|].
  assert (I2 : inv port vers (A ++ o1 ++ o2) s').
  { rewrite app_assoc. eapply step_inv; eauto. }
  unfold crashed_by in *. rewrite writes_app, frames_app, existsb_app, W1, F1, C1. cbn [app orb].
  destruct (sCrash s1) eqn:Hc1.
  { rewrite step_crashed in H2 by assumption. injection H2 as <- <-. rewrite app_nil_r in *. split_and!; eauto. }
  destruct (decide (ev_conn ev = Some c)) as [He|He].
  2: { destruct (step_other _ _ _ _ c _ He Hk1 H2) as [Hk2 Ho].
       rewrite apart_writes, apart_frames by assumption. split_and!; auto.
       - now apply (apart_crashed_by c o2).
       - exists tk. auto. }
  pose proof H2 as H2'. unfold step in H2. rewrite Hc1 in H2.
  destruct ev; try discriminate; injection He as ->; rewrite Hk1 in H2.
  2-6: injection H2 as <- <-; split_and!; auto; exists tk; split; [assumption|]; now rewrite app_nil_r.
  destruct (Hstep s1 o1 tk ch I1) as (Hret & ds & tk' & o & E & HI2); [rewrite EB, <- app_assoc; now apply prefix_app_r|exact HI1|].
  assert (G : match tstep c (env_of s1) ch (sDs s1) tk with
      | TCont ds tk' os => (set_conn s1 c (Conn k (CBusy corr extra tk')) ds, os)
      | TPanic => (crash s1, [OCrash c]) end = (s', o2)).
  { unfold conn_step in H2. cbn [cSt cIn] in H2. destruct tk; try discriminate; exact H2. }
  rewrite E in G. injection G as <- <-.
  assert (Q : writes c o = [] /\ frames c o = [] /\ crashed_by c o = false).
  { now destruct (tstep_obs _ _ _ _ _ _ _ _ E) as [->|(? & ? & ? & ? & ->)]. }
  destruct Q as (-> & -> & Q). split_and!; auto. exists tk'. split; [|assumption].
  cbn. apply list_lookup_insert. now apply lookup_lt_Some in Hk1.
Qed.

Lemma fds_fetched A B r w mb ts fds : posts_small (A ++ B) ->
  Forall2 (fd_right A B) (flat (fqTopics (mk_fetch_req r w mb ts))) fds -> Forall (exh A B) fds ->
  Forall2 (fetched A B) (flat ts) (map (fun fd => (fdOff fd, fd_set fd)) fds).
Proof.
  intros Hp Hr Hx. change (fqTopics (mk_fetch_req r w mb ts)) with (mk_topics mk_fetch_part ts) in Hr.
  rewrite flat_mk in Hr. revert fds Hr Hx.
  induction (flat ts) as [|[t [[i o] mx]] qs IH]; intros fds Hr Hx; inversion Hr as [|q fd qs' fds' H1 H2]; subst; [constructor|].
  inversion Hx; subst. cbn [map]. constructor; [|auto].
  exact (proj1 (fd_right_fetched _ _ _ _ Hp H1 H3)).
Qed.

(** Records that do not fit: the Fetch goes on for ever, whatever else is wrong
    with it. *)
Theorem fetch_too_big_hangs port ch A c corr client r w mb ts extra s t idx off max :
  let m := w_request 1 2 corr client (w_fetch_req r w mb ts ++ extra) in
  l_header 1 2 corr client = true -> l_fetch r w mb ts = true -> zlen (w_fetch_req r w mb ts) <= 4096 ->
  nonneg_offsets ts ->
  serving port ch A c m s ->
  In (t, (idx, off, max)) (flat ts) -> tr_has t idx A = true ->
  Z.max 0 max < log_size (skipn (Z.to_nat off) (tr_log t idx A)) ->
  forall evs s' B, run s evs = (s', B) -> posts_small (A ++ B) ->
  writes c B = [] /\ frames c B = [] /\ crashed_by c B = false.
Proof.
  intros m Hh Hl Hz Hn Hs Hin Hhas Hbig evs s' B Hr Hsm.
  destruct (serving_inv _ _ _ _ _ _ _ _ _ Hs (fetch_begin_more _ _ _ _ _ _ _ extra Hh Hl Hz)) as (inb & Hk & Hi & Hc0).
  fold m in Hi. set (A' := A ++ [OFrame c m]) in *. set (rq := mk_fetch_req r w mb ts) in *.
  assert (No : forall B' res, ~ Forall2 (fetched A' B') (flat ts) res).
  { intros B' res. apply (fetch_never _ _ t idx off max); auto.
    - now apply tr_has_mono.
    - unfold A'. rewrite tr_log_app. cbn. now rewrite app_nil_r. }
  assert (Hps : forall B', B' `prefix_of` B -> posts_small (A' ++ B')).
  { intros B' HB i t' p' r' Hx. apply (posts_small_prefix A B B' HB Hsm i t' p' r'). unfold A' in Hx. rewrite !in_app_iff in *.
    cbn in Hx. destruct Hx as [[?|[?|[]]]|?]; auto. discriminate. }
  clearbody A'. clear Hs Hhas Hbig.
  assert (X : writes c B = [] /\ frames c B = [] /\ crashed_by c B = false /\ inv port (initApiVersions ch) (A' ++ B) s' /\
    exists tk, sConns s' !! c = Some (Conn inb (CBusy corr extra tk)) /\ fetch_core A' rq B 0 tk).
  { eapply (hang_run port _ A' c corr extra (fun B tk => fetch_core A' rq B 0 tk) B s inb _ evs s' B []);
      [|clear Hr|exact Hi|exact Hc0|exact Hk|exact (fetch_core_start A' r w mb ts Hn)|exact Hr|now rewrite app_nil_r].
    - intros B0 tk o. apply fetch_core_mono.
    - intros s0 B0 tk ch0 Hi0 Hpre H0. specialize (Hps B0 Hpre).
      assert (Hret : is_ret tk = false).
      { destruct tk; try reflexivity. exfalso. destruct H0 as (_ & -> & fds & _ & F1 & F2 & _).
        eapply No, (fds_fetched A' B0 r w mb ts fds); eauto. }
      split; [exact Hret|].
      destruct (fetch_core_step port _ A' c rq s0 B0 0 tk ch0 Hi0 Hret H0) as [(_ & _ & fds & F1 & F2)|(ds & tk' & o & E & H4)].
      + exfalso. eapply No, (fds_fetched A' B0 r w mb ts fds); eauto.
      + exists ds, tk', o. split; [exact E|]. exact H4. }
  destruct X as (X1 & X2 & X3 & _). auto.
Qed.
