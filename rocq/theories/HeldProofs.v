(** * HeldProofs: what a connection has read and not yet taken up *)
From Verif Require Export HeldSpec RejectProofs OddReplies.
From stdpp Require Import gmap list.
From Coq Require Import ZifyBool ZifyNat.
Open Scope Z_scope.
Open Scope list_scope.

(** No complete frame; and what one Read can make of it. *)
Definition low (b : bytes) : Prop := zlen b < 4 \/ zlen b < be_get (firstn 4 b) + 4.
Definition over (b : bytes) : Prop := exists x y, b = x ++ y /\ low x /\ zlen y <= 8192.

Lemma getMessage_low b : getMessage b = GNone -> low b.
Proof.
  unfold getMessage, low. cbv zeta. intros H. destruct (zlen b <? 4) eqn:E1; [left; lia|].
  destruct (zlen b <? be_get (firstn 4 b) + 4) eqn:E2; [right; lia|]. destruct (uwrap 32 _ <? 4); discriminate H.
Qed.
Lemma low_nil : low []. Proof. left. reflexivity. Qed.
Lemma over_small b : zlen b <= 8192 -> over b.
Proof. exists [], b. split; [reflexivity|]. split; [apply low_nil|assumption]. Qed.
Lemma low_over b : low b -> over b.
Proof. exists b, []. split; [now rewrite app_nil_r|]. split; [assumption|]. now cbn. Qed.
Lemma first_four (x y : bytes) : 4 <= zlen x -> firstn 4 (x ++ y) = firstn 4 x.
Proof. intros H. rewrite firstn_app. replace (4 - length x)%nat with 0%nat by (unfold zlen in H; lia). now rewrite firstn_O, app_nil_r. Qed.
Lemma over_bound b : all_bytes b = true -> over b -> 4 <= zlen b -> zlen b < 4 + be_get (firstn 4 b) + 8192.
Proof.
  intros Hb (x & y & -> & Hx & Hy) H4. rewrite zlen_app in *.
  assert (0 <= be_get (firstn 4 (x ++ y))).
  { apply be_get_range. rewrite <- (firstn_skipn 4 (x ++ y)), all_bytes_app in Hb. now apply andb_true_iff in Hb as [? _]. }
  destruct (Z.lt_ge_cases (zlen x) 4) as [L|G]; [lia|]. rewrite first_four in * by assumption. destruct Hx; lia.
Qed.
Lemma over_frame m rest : zlen m < 2 ^ 32 - 4 -> over (w_frame m ++ rest) -> zlen rest <= 8191.
Proof.
  intros Hm (x & y & E & Hx & Hy). pose proof (zlen_nonneg m). pose proof (zlen_nonneg x).
  assert (Z : zlen (w_frame m ++ rest) = zlen x + zlen y) by now rewrite E, zlen_app.
  assert (L : length (w_int32 (zlen m)) = 4%nat) by apply w_be_length.
  assert (Zf : zlen (w_frame m) = 4 + zlen m) by (unfold w_frame; rewrite zlen_app; unfold zlen at 1; rewrite L; lia).
  rewrite zlen_app, Zf in Z.
  destruct (Z.lt_ge_cases (zlen x) 4) as [Lx|Gx]; [lia|].
  assert (F : firstn 4 x = w_int32 (zlen m)).
  { rewrite <- (first_four x y) by assumption. rewrite <- E. unfold w_frame. rewrite <- app_assoc. rewrite <- L at 1. now apply firstn_app_exact. }
  destruct Hx as [Hx|Hx]; [lia|]. rewrite F in Hx. unfold w_int32 in Hx. rewrite be_get_w in Hx.
  rewrite Z.mod_small in Hx by (change (256 ^ Z.of_nat 4) with (2 ^ 32); lia). lia.
Qed.

Definition held (c : nat) (os : list obs) (rest : bytes) : Prop :=
  framed_with c os rest /\ all_bytes rest = true /\ over rest /\ (busy_since_read c os -> zlen rest <= 8191).
Definition keeping (c : nat) (os : list obs) (s : sys) : Prop :=
  (exists rest, held c os rest) /\
  (sCrash s = false -> match sConns s !! c with
    | Some k => held c os (cIn k) /\ (cSt k = CRead -> low (cIn k))
    | None => reads c os = [] /\ frames c os = [] end).

Lemma since_deaf c os o : deaf c o -> busy_since_read c (os ++ o) -> busy_since_read c os.
Proof.
  intros [H1 H2] (A & B & E & HF & HR). apply app_eq_app in E as (x & [[E1 E2]|[E1 E2]]).
  - subst. exists A, x. split; [reflexivity|]. rewrite frames_app, H2, app_nil_r in HF. rewrite reads_app in HR. apply app_eq_nil in HR as [HR _]. auto.
  - subst. rewrite frames_app in H2. apply app_eq_nil in H2 as [_ H2]. congruence.
Qed.
Lemma since_none c os : frames c os = [] -> ~ busy_since_read c os.
Proof. intros H (A & B & -> & HF & _). rewrite frames_app in H. apply app_eq_nil in H as [_ H]. congruence. Qed.
Lemma held_deaf c os o rest : deaf c o -> held c os rest -> held c (os ++ o) rest.
Proof.
  intros Hd (H1 & H2 & H3 & H4). destruct (deaf_eq c os o Hd) as [E1 E2]. split; [unfold framed_with; rewrite E1, E2; exact H1|].
  split; [assumption|]. split; [assumption|]. intros H. apply H4. eapply since_deaf; eauto.
Qed.
Lemma held_fresh c os : reads c os = [] -> frames c os = [] -> held c os [].
Proof.
  intros R F. split; [unfold framed_with; rewrite R, F; split; [reflexivity|constructor]|]. split; [reflexivity|].
  split; [apply over_small; now cbn|]. intros H. now apply since_none in H.
Qed.

Lemma keeping_step c os s ev s' o : keeping c os s -> step s ev = (s', o) -> keeping c (os ++ o) s'.
Proof.
  intros [Hf Hs] H. destruct (sCrash s) eqn:Hcr.
  { unfold step in H. rewrite Hcr in H. injection H as <- <-. rewrite app_nil_r. split; [assumption|congruence]. }
  specialize (Hs eq_refl). destruct (sConns s !! c) as [k|] eqn:Hk.
  2: { destruct (step_fresh _ _ _ _ _ Hk H) as [Ho Hk']. destruct (deaf_eq c os o (deaf_apart _ _ Ho)) as [E1 E2].
    destruct Hs as [R F].
    assert (W : held c (os ++ o) []) by (apply held_fresh; congruence).
    split; [now exists []|]. intros _. rewrite E1, E2, R, F. destruct Hk' as [->| ->]; [auto|]. split; [exact W|discriminate]. }
  destruct Hs as [Hw Hl].
  assert (Q : deaf c o -> (sCrash s' = true \/ exists k', sConns s' !! c = Some k' /\ cIn k' = cIn k /\ (cSt k' = CRead -> low (cIn k))) -> keeping c (os ++ o) s').
  { intros Hd Hs'. pose proof (held_deaf _ _ _ _ Hd Hw) as W.
    split; [now exists (cIn k)|]. intros Hc'. destruct Hs' as [|(k' & -> & -> & Hr)]; [congruence|]. auto. }
  destruct (decide (ev_conn ev = Some c)) as [He|He].
  2: { destruct (step_other _ _ _ _ c _ He Hk H) as [Hk' Ho]. apply Q; [now apply deaf_apart|eauto]. }
  assert (Hset : forall k' ds, sConns (set_conn s c k' ds) !! c = Some k').
  { intros k' ds. cbn. apply list_lookup_insert. now apply lookup_lt_Some in Hk. }
  assert (S1 : forall st ds, st <> CRead -> exists k', sConns (set_conn s c (Conn (cIn k) st) ds) !! c = Some k' /\ cIn k' = cIn k /\ (cSt k' = CRead -> low (cIn k))).
  { intros st ds Hn. eexists. split; [apply Hset|]. split; [reflexivity|]. cbn. congruence. }
  assert (S0 : exists k', sConns s !! c = Some k' /\ cIn k' = cIn k /\ (cSt k' = CRead -> low (cIn k))) by eauto.
  unfold step in H. rewrite Hcr in H. destruct k as [inb st]. cbn [cIn cSt] in *.
  destruct ev; cbn [ev_conn] in He; try discriminate; injection He as ->; rewrite Hk in H.
  - unfold conn_step in H. cbn [cSt cIn] in H.
    assert (T : forall tk corr extra, match tstep c (env_of s) ch (sDs s) tk with
        | TCont ds tk' os => (set_conn s c (Conn inb (CBusy corr extra tk')) ds, os)
        | TPanic => (crash s, [OCrash c]) end = (s', o) -> keeping c (os ++ o) s').
    { intros tk corr extra E. destruct (tstep c (env_of s) ch (sDs s) tk) as [ds tk' o'|] eqn:Et; injection E as <- <-.
      - apply Q; [|right; apply S1; discriminate].
        apply tstep_obs in Et as [->|(?&?&?&?&->)]; split; reflexivity.
      - apply Q; [split; reflexivity|now left]. }
    destruct st as [| |corr extra tk|[|b bs]|]; try (injection H as <- <-; apply Q; [split; reflexivity|right; first [exact S0|apply S1; discriminate]]; fail).
    + destruct (getMessage inb) as [|msg rest|] eqn:Eg.
      * apply getMessage_low in Eg. destruct (sCancel s); injection H as <- <-; (apply Q; [split; reflexivity|right; eexists; split; [apply Hset|split; [reflexivity|auto]]]).
      * destruct Hw as (Hw & Hb & Ho & Hn). apply getMessage_frame in Eg as [-> Hz]; [|assumption].
        rewrite all_bytes_app in Hb. apply andb_true_iff in Hb as [_ Hb].
        assert (W : forall more, deaf c more -> held c (os ++ OFrame c msg :: more) rest).
        { intros more [M1 M2]. destruct Hw as [W1 W2].
          assert (R : reads c (os ++ OFrame c msg :: more) = reads c os).
          { rewrite reads_app. change (reads c (OFrame c msg :: more)) with (reads c more). now rewrite M1, app_nil_r. }
          assert (F : frames c (os ++ OFrame c msg :: more) = frames c os ++ [msg]).
          { change (OFrame c msg :: more) with ([OFrame c msg] ++ more). now rewrite !frames_app, frames_one, M2. }
          assert (Hr : zlen rest <= 8191) by now apply over_frame in Ho.
          split; [split|].
          - rewrite R, F, W1, map_app, concat_app, <- app_assoc. f_equal. change (map w_frame [msg]) with [w_frame msg].
            unfold concat at 1. now rewrite app_nil_r.
          - rewrite F. apply Forall_app. split; [assumption|]. now constructor.
          - split; [assumption|]. split; [apply over_small; lia|auto]. }
        destruct (beginRequest (sPort s) msg) as [[[corr extra] tk]|]; injection H as <- <-.
        -- assert (D : deaf c []) by (split; reflexivity).
           split; [exists rest; now apply W|]. intros _. rewrite Hset. split; [now apply W|discriminate].
        -- split; [exists rest; apply W; split; reflexivity|]. discriminate.
      * injection H as <- <-. apply Q; [split; reflexivity|now left].
    + destruct tk as [t v| | | | | | | | | |];
        try (match type of H with context [tstep _ _ _ _ ?x] => exact (T x corr extra H) end).
      destruct (finishRequest corr extra t v); injection H as <- <-;
        (apply Q; [split; reflexivity|]); [right; apply S1; discriminate|now left].
    + injection H as <- <-. apply Q; [split; reflexivity|right]. apply S1. destruct bs; discriminate.
  - destruct st; try (injection H as <- <-; apply Q; [split; reflexivity|right; exact S0]; fail).
    destruct ((0 <? zlen chunk) && (zlen chunk <=? 8192) && all_bytes chunk) eqn:Ec; injection H as <- <-;
      [|apply Q; [split; reflexivity|right; exact S0]].
    apply andb_true_iff in Ec as [Ez Ec]. destruct Hw as ([W1 W2] & Hb & _ & _).
    assert (R1 : reads c [ORead c chunk] = chunk) by (cbn; rewrite Nat.eqb_refl; apply app_nil_r).
    assert (R : reads c (os ++ [ORead c chunk]) = reads c os ++ chunk) by now rewrite reads_app, R1.
    assert (F : frames c (os ++ [ORead c chunk]) = frames c os) by (rewrite frames_app; cbn; now rewrite app_nil_r).
    assert (W : held c (os ++ [ORead c chunk]) (inb ++ chunk)).
    { split; [split; rewrite F; [|assumption]; now rewrite R, W1, <- app_assoc|]. split; [now rewrite all_bytes_app, Hb|].
      split; [exists inb, chunk; split; [reflexivity|]; split; [auto|lia]|].
      intros (A & B & E & HF & HR). destruct B as [|x B _] using rev_ind; [now contradict HF|].
      rewrite app_assoc in E. apply app_inj_tail in E as [_ <-]. rewrite reads_app, R1 in HR. apply app_eq_nil in HR as [_ HR]. subst chunk. discriminate Ez. }
    split; [eexists; exact W|]. intros _. rewrite Hset. split; [exact W|discriminate].
  - destruct st; injection H as <- <-; (apply Q; [split; reflexivity|right; first [exact S0|apply S1; discriminate]]).
  - destruct st; injection H as <- <-; (apply Q; [split; reflexivity|right; first [exact S0|apply S1; discriminate]]).
  - destruct st; injection H as <- <-; (apply Q; [split; reflexivity|first [now left|right; exact S0]]).
  - destruct st; try (injection H as <- <-; apply Q; [split; reflexivity|right; exact S0]; fail).
    destruct gone; injection H as <- <-; (apply Q; [split; reflexivity|first [now left|right; apply S1; discriminate]]).
Qed.
Lemma keeping_run c evs : forall s os s' o, keeping c os s -> run s evs = (s', o) -> keeping c (os ++ o) s'.
Proof.
  induction evs as [|ev evs IH]; cbn; intros s os s' o Hf H.
  - injection H as <- <-. now rewrite app_nil_r.
  - destruct (step s ev) as [s1 o1] eqn:E1. destruct (run s1 evs) as [s2 o2] eqn:E2. injection H as <- <-.
    rewrite app_assoc. eapply IH; [|exact E2]. eapply keeping_step; eauto.
Qed.
Theorem held_always c port ch evs s os rest : run (init port ch) evs = (s, os) -> framed_with c os rest ->
  (busy_since_read c os -> zlen rest <= 8191) /\
  (4 <= zlen rest -> zlen rest < 4 + be_get (firstn 4 rest) + 8192).
Proof.
  intros H [Hr _]. assert (K : keeping c ([] ++ os) s).
  { eapply keeping_run; [|exact H]. split; [exists []; now apply held_fresh|]. intros _. split; reflexivity. }
  destruct K as [(r & [Hr' _] & Hb & Ho & Hn) _]. cbn [app] in *. rewrite Hr in Hr'. apply app_inv_head in Hr'. subst r.
  split; [exact Hn|]. intros. now apply over_bound.
Qed.

(** ** The size of a Fetch reply *)
Lemma limit_nonneg ts : 0 <= limit_of ts.
Proof. unfold limit_of. induction (flat ts) as [|q l IH]; cbn [fold_right]; lia. Qed.
Lemma limit_le ts q : In q (flat ts) -> snd (snd q) <= limit_of ts.
Proof. unfold limit_of. induction (flat ts) as [|q' l IH]; [intros []|]. cbn [fold_right]. intros [->|H]; [lia|]. specialize (IH H). lia. Qed.
Lemma array_size {A} (f : A -> bytes) l n : (forall x, In x l -> zlen (f x) <= n) -> zlen (w_array f l) <= 4 + zlen l * n.
Proof.
  intros H. unfold w_array. rewrite zlen_app. unfold w_int32. rewrite zlen_w_be. change (Z.of_nat 4) with 4.
  enough (zlen (concat (map f l)) <= zlen l * n) by lia. clear -H. induction l as [|x l IH]; [unfold zlen; cbn; lia|].
  cbn [map concat]. rewrite zlen_app, zlen_cons. pose proof (H x (or_introl eq_refl)).
  assert (zlen (concat (map f l)) <= zlen l * n) by (apply IH; intros y Hy; apply H; now right). lia.
Qed.
Lemma ents_size L ts : forall res, 0 <= L -> Forall (fun x : Z * bytes => zlen (snd x) <= L) res ->
  zlen (concat (map (fun t => w_string (fst t) ++
    w_array (fun p : Z * Z * Z * bytes => let '(i, e, hw, set) := p in
      w_int32 i ++ w_int16 e ++ w_int64 hw ++ w_int32 (zlen set) ++ set) (snd t)) (fetch_ents ts res))) <=
  fold_right (fun t n => 6 + zlen (fst t) + zlen (snd t) * (18 + L) + n) 0 ts.
Proof.
  induction ts as [|[t ps] ts IH]; intros res HL Hr; [destruct res; vm_compute; discriminate|].
  destruct Hr as [|x res Hx Hr].
  - cbn [fetch_ents map concat fold_right fst snd]. specialize (IH [] HL (List.Forall_nil _)).
    assert (E : fetch_ents ts [] = []) by (destruct ts as [|[? ?] ?]; reflexivity). rewrite E in IH. cbn [map concat] in IH.
    pose proof (zlen_nonneg t). pose proof (zlen_nonneg ps). change (zlen (@nil Z)) with 0 in *. nia.
  - cbn [fetch_ents map concat fold_right fst snd]. rewrite !zlen_app. specialize (IH res HL Hr).
    unfold w_string at 1. rewrite zlen_app. unfold w_int16 at 1. rewrite zlen_w_be. change (Z.of_nat 2) with 2.
    match goal with |- context [zlen (w_array ?f ?l)] => pose proof (array_size f l (18 + L)) as Ha end.
    rewrite zlen_map in Ha. enough (zlen (w_array (fun p : Z * Z * Z * bytes => let '(i, e, hw, set) := p in
      w_int32 i ++ w_int16 e ++ w_int64 hw ++ w_int32 (zlen set) ++ set) (map (fun p : Z * Z * Z => (p.1.1, 0, x.1, x.2)) ps)) <= 4 + zlen ps * (18 + L)) by lia.
    apply Ha. intros y Hy. apply in_map_iff in Hy as (p & <- & _). rewrite !zlen_app. unfold w_int32, w_int16, w_int64. rewrite !zlen_w_be. lia.
Qed.
Lemma reply_size A corr wait ts B r : fetch_reply A corr wait ts B r -> posts_small (A ++ B) -> zlen r <= fetch_room ts.
Proof.
  intros H Hp. destruct (H Hp) as (res & HF & _ & ->). pose proof (limit_nonneg ts) as HL.
  assert (Hr : Forall (fun x : Z * bytes => zlen (snd x) <= limit_of ts) res).
  { assert (G : forall q, In q (flat ts) -> snd (snd q) <= limit_of ts) by (intros; now apply limit_le). revert G.
    generalize (limit_of ts) HL. clear -HF. intros L HL. induction HF as [|q x l res Hq _ IH]; intros G; constructor.
    - pose proof (G q (or_introl eq_refl)) as Gq. destruct q as [t [[idx off] max]]. destruct Hq as (rs & _ & E & [->|[_ Hz]] & _); cbn [fst snd] in *; [rewrite E; exact HL|lia].
    - apply IH. intros q' Hq'. apply G. now right. }
  pose proof (ents_size (limit_of ts) ts res HL Hr) as Hs.
  unfold w_reply, w_frame, w_fetch_resp, w_array. rewrite !zlen_app.
  assert (Z32 : forall z, zlen (w_int32 z) = 4) by (intros z; unfold w_int32; apply zlen_w_be). rewrite !Z32.
  assert (E : forall m, fold_right (fun t n => 6 + zlen (fst t) + zlen (snd t) * (18 + limit_of ts) + n) m ts =
    m + fold_right (fun t n => 6 + zlen (fst t) + zlen (snd t) * (18 + limit_of ts) + n) 0 ts).
  { intros m. generalize (limit_of ts) as L. intros L. clear. induction ts as [|t ts IH]; cbn [fold_right]; lia. }
  unfold fetch_room. rewrite E. unfold w_array in Hs. rewrite !Z.add_assoc. apply Z.add_le_mono_l. exact Hs.
Qed.
Theorem fetch_size port ch A c corr client r w mb ts s :
  let m := w_request 1 2 corr client (w_fetch_req r w mb ts) in
  l_header 1 2 corr client = true -> l_fetch r w mb ts = true -> zlen (w_fetch_req r w mb ts) <= 4096 ->
  nonneg_offsets ts -> (length ts <= length (flat ts))%nat ->
  serving port ch A c m s ->
  answers_right c s (fun B rep => posts_small ((A ++ [OFrame c m]) ++ B) -> zlen rep <= fetch_room ts).
Proof.
  cbv zeta. intros H1 H2 H3 H4 H5 H6. eapply answers_right_mono; [|exact (fetch_answered_right _ _ _ _ _ _ _ _ _ _ _ H1 H2 H3 H4 H5 H6)].
  intros B rep. apply reply_size.
Qed.
