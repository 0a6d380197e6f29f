(** * StreamProofs: requests in, replies out, on one connection *)
From Verif Require Export StreamSpec RequestProofs.
From stdpp Require Import gmap list.
From Coq Require Import ZifyBool ZifyNat.
Open Scope Z_scope.
Open Scope list_scope.

(** ** Frames *)
Lemma w_be_get n b : all_bytes b = true -> length b = n -> w_be n (be_get b) = b.
Proof.
  revert n. induction b as [|x b IH] using rev_ind; intros n Hb Hn.
  - subst n. reflexivity.
  - rewrite app_length in Hn. cbn in Hn. destruct n as [|n]; [lia|].
    unfold all_bytes in Hb. rewrite forallb_app in Hb. apply andb_true_iff in Hb as [Hb Hx].
    cbn in Hx. unfold is_byte in Hx.
    assert (G : be_get (b ++ [x]) = be_get b * 256 + x) by (unfold be_get; now rewrite fold_left_app).
    rewrite G. assert (E : forall m z y, 0 <= y < 256 -> w_be (S m) (z * 256 + y) = w_be m z ++ [y]).
    { clear. intros m. induction m as [|m IH]; intros z y Hy.
      - cbn [w_be app]. change (256 ^ Z.of_nat 0) with 1. rewrite Z.div_1_r. f_equal.
        rewrite Z.add_comm, Z_mod_plus_full. apply Z.mod_small. lia.
      - replace (w_be (S m) z ++ [y]) with ((z / 256 ^ Z.of_nat m) mod 256 :: (w_be m z ++ [y])) by reflexivity.
        rewrite <- IH by assumption. change (w_be (S (S m)) (z * 256 + y)) with
          (((z * 256 + y) / 256 ^ Z.of_nat (S m)) mod 256 :: w_be (S m) (z * 256 + y)). f_equal. f_equal.
        rewrite Nat2Z.inj_succ, Z.pow_succ_r by lia. rewrite <- Z.div_div by lia. f_equal.
        rewrite Z.div_add_l by lia. rewrite (Z.div_small y) by lia. lia. }
    rewrite E by lia. rewrite IH; [reflexivity|assumption|lia].
Qed.
Lemma be_get_range b : all_bytes b = true -> 0 <= be_get b < 256 ^ zlen b.
Proof.
  induction b as [|x b IH] using rev_ind; intros H.
  { change (0 <= 0 < 1). lia. }
  unfold all_bytes in H. rewrite forallb_app in H. apply andb_true_iff in H as [Hb Hx].
  cbn in Hx. unfold is_byte in Hx. specialize (IH Hb).
  replace (be_get (b ++ [x])) with (be_get b * 256 + x) by (unfold be_get; now rewrite fold_left_app).
  rewrite zlen_app. change (zlen [x]) with 1. rewrite Z.pow_add_r by (pose proof (zlen_nonneg b); lia).
  change (256 ^ 1) with 256. lia.
Qed.
Lemma all_bytes_app a b : all_bytes (a ++ b) = all_bytes a && all_bytes b.
Proof. apply forallb_app. Qed.
Lemma be_get_w n z : be_get (w_be n z) = z mod 256 ^ Z.of_nat n.
Proof. rewrite <- be_put_w. apply be_get_put. Qed.

(** What [getMessage] finds is a frame. *)
Lemma getMessage_frame inb msg rest : all_bytes inb = true -> getMessage inb = GMsg msg rest ->
  inb = w_frame msg ++ rest /\ zlen msg < 2 ^ 32 - 4.
Proof.
  intros Hb. unfold getMessage. destruct (zlen inb <? 4) eqn:E4; [discriminate|].
  set (h := firstn 4 inb).
  assert (Hh : all_bytes h = true /\ length h = 4%nat).
  { split; [|unfold h; rewrite firstn_length; unfold zlen in *; lia].
    rewrite <- (firstn_skipn 4 inb), all_bytes_app in Hb. now apply andb_true_iff in Hb as [? _]. }
  destruct Hh as [Hh Hl]. pose proof (be_get_range h Hh) as Hr. unfold zlen in Hr at 1. rewrite Hl in Hr.
  change (256 ^ Z.of_nat 4) with (2 ^ 32) in Hr.
  destruct (zlen inb <? be_get h + 4) eqn:Es; [discriminate|].
  destruct (uwrap 32 (4 + be_get h) <? 4) eqn:Eu; [discriminate|].
  assert (Hlt : be_get h < 2 ^ 32 - 4).
  { destruct (Z_lt_ge_dec (be_get h) (2 ^ 32 - 4)) as [|Hge]; [assumption|]. exfalso.
    unfold uwrap in Eu. replace (4 + be_get h) with (be_get h + 4 - 2 ^ 32 + 1 * 2 ^ 32) in Eu by lia.
    rewrite Z_mod_plus_full, Z.mod_small in Eu by lia. lia. }
  assert (U : uwrap 32 (4 + be_get h) = 4 + be_get h) by (apply Z.mod_small; lia).
  rewrite U. intros [= <- <-].
  set (body := skipn 4 (firstn (Z.to_nat (4 + be_get h)) inb)).
  assert (Hz : zlen body = be_get h).
  { unfold body, zlen in *. rewrite skipn_length, firstn_length. lia. }
  split; [|lia]. unfold w_frame. rewrite Hz.
  assert (E1 : firstn (Z.to_nat (4 + be_get h)) inb = h ++ body).
  { transitivity (firstn 4 (firstn (Z.to_nat (4 + be_get h)) inb) ++ body); [symmetry; apply firstn_skipn|].
    f_equal. rewrite firstn_firstn. unfold h at 2. f_equal. lia. }
  rewrite <- (firstn_skipn (Z.to_nat (4 + be_get h)) inb) at 1. rewrite E1.
  unfold w_int32. rewrite (w_be_get 4 h Hh Hl). f_equal. 
Qed.
Lemma getMessage_found msg rest : zlen msg < 2 ^ 32 - 4 -> getMessage (w_frame msg ++ rest) = GMsg msg rest.
Proof.
  intros Hz. pose proof (zlen_nonneg msg) as Hn. pose proof (zlen_nonneg rest) as Hn2.
  unfold getMessage, w_frame. set (h := w_int32 (zlen msg)).
  assert (Hl : length h = 4%nat) by apply w_be_length.
  assert (E : firstn 4 ((h ++ msg) ++ rest) = h).
  { rewrite <- app_assoc. rewrite <- Hl at 1. apply firstn_app_exact. reflexivity. }
  rewrite E. assert (G : be_get h = zlen msg).
  { unfold h, w_int32. rewrite be_get_w. apply Z.mod_small. change (256 ^ Z.of_nat 4) with (2 ^ 32). lia. }
  rewrite G. assert (Zh : zlen h = 4) by (unfold zlen; lia).
  rewrite !zlen_app, Zh.
  replace (4 + zlen msg + zlen rest <? 4) with false by lia.
  replace (4 + zlen msg + zlen rest <? zlen msg + 4) with false by lia.
  assert (U : uwrap 32 (4 + zlen msg) = 4 + zlen msg) by (apply Z.mod_small; lia).
  rewrite U. replace (4 + zlen msg <? 4) with false by lia.
  assert (E2 : firstn (Z.to_nat (4 + zlen msg)) ((h ++ msg) ++ rest) = h ++ msg).
  { apply firstn_app_exact. rewrite app_length. unfold zlen. lia. }
  rewrite E2. assert (E3 : skipn 4 (h ++ msg) = msg) by (rewrite <- Hl; now apply skipn_app_exact).
  rewrite E3. f_equal. apply skipn_app_exact. rewrite app_length. unfold zlen. lia.
Qed.
Lemma getMessage_none inb : getMessage inb = GNone -> no_frame inb.
Proof. intros H m rest Hz ->. rewrite getMessage_found in H by assumption. discriminate. Qed.

(** ** The correlation id *)
Lemma peek_sint_ok n r off next z : 0 < n -> 0 <= off -> peek_sint n r off = DOk next z ->
  next = off + n /\ next <= 4096 /\ next <= zlen r /\
  z = swrap (8 * n) (be_get (skipn (Z.to_nat off) (firstn (Z.to_nat next) r))).
Proof.
  intros Hn Ho. unfold peek_sint, peek_fixed, peek.
  destruct (_ || _ || _) eqn:E; [discriminate|]. intros [= <- <-].
  unfold bufsize in E. repeat split; try lia.
Qed.
Lemma w_be_swrap n z : w_be n (swrap (8 * Z.of_nat n) z) = w_be n z.
Proof.
  rewrite <- (w_be_mod n n (swrap _ z)) by lia. rewrite <- (w_be_mod n n z) by lia.
  f_equal. replace (256 ^ Z.of_nat n) with (2 ^ (8 * Z.of_nat n)) by (rewrite Z.pow_mul_r by lia; reflexivity).
  destruct n as [|n].
  { cbn. now rewrite !Z.mod_1_r. }
  apply (uwrap_swrap (8 * Z.of_nat (S n)) z). lia.
Qed.
Lemma header_corr msg next key ver corr : all_bytes msg = true ->
  peekObject msg 0 tHeader0 = DOk next (VStruct [VInt key; VInt ver; VInt corr]) -> has_corr msg corr.
Proof.
  intros Hb. unfold peekObject, tHeader0, fields. cbn [dec map]. unfold dec_fields. cbn [dec tCompact plain].
  destruct (peek_sint 2 msg 0) as [n1 v1| |] eqn:E1; cbn [dmap]; try discriminate. cbn [settable].
  destruct (peek_sint 2 msg n1) as [n2 v2| |] eqn:E2; cbn [dmap]; try discriminate. cbn [settable].
  destruct (peek_sint 4 msg n2) as [n3 v3| |] eqn:E3; cbn [dmap]; try discriminate. cbn [settable].
  intros [= _ <- <- <-].
  apply peek_sint_ok in E1 as (-> & _ & _ & _); [|lia|lia].
  apply peek_sint_ok in E2 as (-> & _ & _ & _); [|lia|lia].
  apply peek_sint_ok in E3 as (-> & _ & Hl & ->); [|lia|lia].
  change (0 + 2 + 2) with 4 in *. change (4 + 4) with 8 in *.
  set (w := skipn (Z.to_nat 4) (firstn (Z.to_nat 8) msg)).
  assert (Lw : length w = 4%nat) by (unfold w, zlen in *; rewrite skipn_length, firstn_length; lia).
  assert (M : msg = firstn 4 msg ++ w ++ skipn 8 msg).
  { unfold w. rewrite <- (firstn_skipn 8 msg) at 1. rewrite app_assoc. f_equal.
    transitivity (firstn 4 (firstn 8 msg) ++ skipn 4 (firstn 8 msg)); [symmetry; apply firstn_skipn|].
    rewrite firstn_firstn. reflexivity. }
  assert (Bw : all_bytes w = true).
  { rewrite M, !all_bytes_app in Hb. apply andb_true_iff in Hb as [_ Hb]. now apply andb_true_iff in Hb as [? _]. }
  exists (firstn 4 msg), (skipn 8 msg). split; [|split].
  - rewrite M at 1. f_equal. f_equal. unfold w_int32. change (8 * 4) with (8 * Z.of_nat 4).
    rewrite w_be_swrap. symmetry. now apply w_be_get.
  - unfold zlen in *. rewrite firstn_length. lia.
  - unfold l_i32. pose proof (swrap_range (8 * 4) (be_get w) ltac:(lia)). change (8 * 4 - 1) with 31 in *. lia.
Qed.
Lemma begin_corr port msg corr extra tk : all_bytes msg = true ->
  beginRequest port msg = Some (corr, extra, tk) -> has_corr msg corr.
Proof.
  intros Hb. unfold beginRequest.
  destruct (peekObject msg 0 tHeader0) as [next v| |] eqn:E; try discriminate.
  destruct v as [| | | | | | | |fs| |]; try discriminate.
  destruct fs as [|[| key | | | | | | | | |] fs]; try discriminate.
  destruct fs as [|[| ver | | | | | | | | |] fs]; try discriminate.
  destruct fs as [|[| co | | | | | | | | |] fs]; try discriminate.
  destruct fs; try discriminate.
  destruct (peekString msg next) as [n2 cl| |]; try discriminate.
  destruct (dispatch key ver) as [a|]; try discriminate.
  destruct (startApi a port (discard msg n2)) as [[rest tk']|]; try discriminate.
  intros [= <- <- <-]. eapply header_corr; eauto.
Qed.

(** ** The invariant of one connection *)
Definition stream (c : nat) (os : list obs) (k : conn) : Prop :=
  framed_with c os (cIn k) /\ all_bytes (cIn k) = true /\
  match cSt k with
  | CLoop => all_answered c os
  | CRead | CClosed => all_answered c os /\ no_frame (cIn k)
  | CBusy corr _ _ => exists ms m rs, frames c os = ms ++ [m] /\ Forall2 reply_to ms rs /\
      writes c os = concat rs /\ has_corr m corr /\ wcount c os = (3 * length ms)%nat
  | CSend chunks => exists ms m rs part, frames c os = ms ++ [m] /\ Forall2 reply_to ms rs /\
      reply_to m (part ++ concat chunks) /\ writes c os = concat rs ++ part /\ chunks <> [] /\ (length chunks <= 3)%nat /\
      wcount c os = (3 * length ms + 3 - length chunks)%nat
  end.
Definition fresh (c : nat) (os : list obs) : Prop :=
  reads c os = [] /\ frames c os = [] /\ writes c os = [] /\ wcount c os = 0%nat.
Definition framed (c : nat) (os : list obs) : Prop :=
  exists rest, framed_with c os rest.

Lemma wcount_app c a b : wcount c (a ++ b) = (wcount c a + wcount c b)%nat.
Proof. unfold wcount. now rewrite List.filter_app, app_length. Qed.
Lemma apart_wcount c os : Forall (apart c) os -> wcount c os = 0%nat.
Proof.
  induction 1 as [|o os Ho _ IH]; [reflexivity|]. unfold wcount in *. cbn.
  destruct o; try exact IH. destruct (Nat.eqb_spec c c0) as [->|]; [|exact IH]. now contradict Ho.
Qed.

Definition silent (c : nat) (o : list obs) : Prop :=
  reads c o = [] /\ frames c o = [] /\ writes c o = [] /\ wcount c o = 0%nat.
Lemma silent_apart c o : Forall (apart c) o -> silent c o.
Proof. intros H. split; [now apply apart_reads|]. split; [now apply apart_frames|]. split; [now apply apart_writes|now apply apart_wcount]. Qed.
Lemma silent_eq c os o : silent c o -> reads c (os ++ o) = reads c os /\ frames c (os ++ o) = frames c os /\
  writes c (os ++ o) = writes c os /\ wcount c (os ++ o) = wcount c os.
Proof.
  intros (H1 & H2 & H3 & H4). rewrite reads_app, frames_app, writes_app, wcount_app, H1, H2, H3, H4.
  rewrite !app_nil_r. auto with lia.
Qed.
Lemma stream_silent c os o k : silent c o -> stream c os k -> stream c (os ++ o) k.
Proof.
  intros Hs. destruct (silent_eq c os o Hs) as (E1 & E2 & E3 & E4).
  unfold stream, framed_with, all_answered. rewrite E1, E2, E3, E4. trivial.
Qed.
Lemma in_order_silent c os o : silent c o -> in_order c os -> in_order c (os ++ o).
Proof.
  intros Hs. destruct (silent_eq c os o Hs) as (E1 & E2 & E3 & E4). unfold in_order. now rewrite E2, E3.
Qed.
Lemma framed_silent c os o : silent c o -> framed c os -> framed c (os ++ o).
Proof.
  intros Hs. destruct (silent_eq c os o Hs) as (E1 & E2 & E3 & E4). unfold framed, framed_with. now rewrite E1, E2.
Qed.

Lemma answered_in_order c os : all_answered c os -> in_order c os.
Proof.
  intros [(rs & H1 & H2) _]. exists (frames c os), [], rs, []. rewrite !app_nil_r. split_and!; auto.
Qed.
Lemma stream_final c os k : stream c os k -> framed c os /\ in_order c os.
Proof.
  intros (Hr & _ & Hs). split; [eexists; exact Hr|].
  destruct (cSt k) as [| |corr extra tk|chunks|].
  - now apply answered_in_order.
  - destruct Hs. now apply answered_in_order.
  - destruct Hs as (ms & m & rs & Hf & H2 & Hw & _). exists ms, [m], rs, []. rewrite app_nil_r. split_and!; auto.
    right. eauto.
  - destruct Hs as (ms & m & rs & part & Hf & H2 & Hm & Hw & _).
    exists ms, [m], rs, part. split_and!; auto. right. exists m. split; [reflexivity|]. right.
    exists (part ++ concat chunks). split; [assumption|]. now exists (concat chunks).
  - destruct Hs. now apply answered_in_order.
Qed.

(** ** Own steps *)
Ltac stream3 := split; [assumption|]; split; [assumption|]; cbn [cSt cIn]; now auto.
Lemma frames_one c m : frames c [OFrame c m] = [m].
Proof. cbn. now rewrite Nat.eqb_refl. Qed.
Lemma no_answer_yet c os msg : all_answered c os -> in_order c (os ++ [OFrame c msg; OCrash c]).
Proof.
  intros [(rs & H1 & H2) _]. exists (frames c os), [msg], rs, [].
  rewrite frames_app, writes_app, H2. cbn [frames writes flat_map]. rewrite Nat.eqb_refl.
  split_and!; auto. right. eauto.
Qed.

Lemma own_step s c ch k os s' o : stream c os k -> sConns s !! c = Some k -> sCrash s = false ->
  conn_step s c ch k = (s', o) ->
  framed c (os ++ o) /\ in_order c (os ++ o) /\
  (sCrash s' = true \/ exists k', sConns s' !! c = Some k' /\ stream c (os ++ o) k').
Proof.
  intros Hst Hk Hcr. pose proof (stream_final _ _ _ Hst) as [Hfr Hio].
  assert (Hset : forall k' ds, sConns (set_conn s c k' ds) !! c = Some k').
  { intros k' ds. cbn. apply list_lookup_insert. now apply lookup_lt_Some in Hk. }
  assert (Hsil : forall o', silent c o' -> framed c (os ++ o') /\ in_order c (os ++ o')).
  { intros o' Ho'. split; [now apply framed_silent|now apply in_order_silent]. }
  assert (Hcrash : silent c [OCrash c]) by (repeat split; reflexivity).
  assert (Hnil : silent c []) by (repeat split; reflexivity).
  assert (Hend : forall k' ds o', stream c (os ++ o') k' -> s' = set_conn s c k' ds ->
    framed c (os ++ o') /\ in_order c (os ++ o') /\
    (sCrash s' = true \/ exists k', sConns s' !! c = Some k' /\ stream c (os ++ o') k')).
  { intros k' ds o' H ->. destruct (stream_final _ _ _ H). split_and!; auto. right. eauto. }
  unfold conn_step. destruct k as [inb st]. cbn [cIn cSt].
  destruct st as [| |corr extra tk|chunks|].
  - destruct Hst as (Hr & Hb & Ha). cbn [cIn cSt] in *. destruct (getMessage inb) as [|msg rest|] eqn:Eg.
    + apply getMessage_none in Eg. destruct (sCancel s); intros [= <- <-]; eapply Hend; try reflexivity.
      * apply stream_silent; [repeat split; reflexivity|]. stream3.
      * apply stream_silent; [assumption|]. stream3.
    + apply getMessage_frame in Eg as [-> Hz]; [|assumption].
      rewrite all_bytes_app in Hb. apply andb_true_iff in Hb as [Hbf Hbr].
      unfold w_frame in Hbf. rewrite all_bytes_app in Hbf. apply andb_true_iff in Hbf as [_ Hbm].
      assert (R : reads c os = concat (map w_frame (frames c os ++ [msg])) ++ rest /\
        Forall (fun m => zlen m < 2 ^ 32 - 4) (frames c os ++ [msg])).
      { destruct Hr as [Hr Hsz]. split; [|apply Forall_app; split; [assumption|now repeat constructor]].
        rewrite map_app, concat_app. cbn [map concat]. rewrite app_nil_r, <- app_assoc. exact Hr. }
      destruct (beginRequest (sPort s) msg) as [[[corr extra] tk]|] eqn:Eb; intros [= <- <-].
      * eapply Hend; [|reflexivity]. unfold stream, framed_with. cbn [cIn cSt].
        rewrite reads_app, frames_app, writes_app, wcount_app, frames_one. cbn [reads writes flat_map wcount List.filter length].
        rewrite !app_nil_r. split; [exact R|]. split; [assumption|].
        destruct Ha as [(rs & H1 & H2) H3]. exists (frames c os), msg, rs. split_and!; auto; [|lia].
        eapply begin_corr; eauto.
      * split_and!; [|now apply no_answer_yet|now left].
        exists rest. unfold framed_with. rewrite reads_app, frames_app. cbn [reads flat_map frames]. rewrite Nat.eqb_refl, app_nil_r. exact R.
    + intros [= <- <-]. destruct (Hsil _ Hcrash). auto.
  - intros [= <- <-]. destruct (Hsil _ Hnil). split_and!; auto. right. eexists; split; [exact Hk|]. now apply stream_silent.
  - destruct Hst as (Hr & Hb & (ms & m & rs & Hf & H2 & Hw & Hc & Hn)). cbn [cIn cSt] in *.
    assert (T : match tstep c (env_of s) ch (sDs s) tk with
      | TCont ds tk' os => (set_conn s c (Conn inb (CBusy corr extra tk')) ds, os)
      | TPanic => (crash s, [OCrash c]) end = (s', o) ->
      framed c (os ++ o) /\ in_order c (os ++ o) /\
      (sCrash s' = true \/ exists k', sConns s' !! c = Some k' /\ stream c (os ++ o) k')).
    { destruct (tstep c (env_of s) ch (sDs s) tk) as [ds tk' o'|] eqn:Et; intros [= <- <-].
      - eapply Hend; [|reflexivity]. apply stream_silent.
        + apply tstep_obs in Et as [->|(? & ? & ? & ? & ->)]; repeat split; reflexivity.
        + split; [assumption|]; split; [assumption|]; cbn [cSt]. eauto 10.
      - destruct (Hsil _ Hcrash). auto. }
    destruct tk as [t v| | | | | | | | | |]; try exact T. clear T.
    unfold finishRequest. destruct extra; [|intros [= <- <-]; destruct (Hsil _ Hcrash); now auto].
    destruct (encodeObject t v) as [payload|]; [|intros [= <- <-]; destruct (Hsil _ Hcrash); now auto].
    intros [= <- <-]. eapply Hend; [|reflexivity]. apply stream_silent; [assumption|].
    split; [assumption|]; split; [assumption|]; cbn [cSt]. exists ms, m, rs, []. rewrite app_nil_r. split_and!; auto; try discriminate; cbn [length]; try lia.
    exists corr, payload. split; [assumption|]. apply reply_bytes.
  - destruct Hst as (Hr & Hb & (ms & m & rs & part & Hf & H2 & Hm & Hw & Hne & Hle & Hn)). cbn [cIn cSt] in *.
    destruct chunks as [|b bs]; [congruence|]. intros [= <- <-]. eapply Hend; [|reflexivity].
    unfold stream, framed_with. cbn [cIn cSt]. rewrite reads_app, frames_app, writes_app, wcount_app.
    assert (W : writes c [OWrite c b] = b) by (cbn; now rewrite Nat.eqb_refl, app_nil_r).
    assert (N : wcount c [OWrite c b] = 1%nat) by (unfold wcount; cbn; now rewrite Nat.eqb_refl).
    rewrite W, N. cbn [reads frames flat_map]. rewrite !app_nil_r. split; [exact Hr|]. split; [assumption|].
    cbn [length] in *. destruct bs as [|b' bs].
    + split.
      * exists (rs ++ [part ++ b]). rewrite frames_app, writes_app, Hf, Hw, W. cbn [frames flat_map]. rewrite app_nil_r.
        split; [apply Forall2_app; [assumption|]; constructor; [|constructor]; cbn in Hm; now rewrite app_nil_r in Hm|].
        rewrite concat_app. cbn [concat]. now rewrite app_nil_r, app_assoc.
      * rewrite wcount_app, frames_app, N, Hn, Hf. cbn [frames flat_map]. rewrite app_nil_r, app_length. cbn. lia.
    + exists ms, m, rs, (part ++ b). split_and!; auto; try discriminate; cbn [length] in *; try lia.
      * cbn [concat] in *. now rewrite <- !app_assoc.
      * now rewrite Hw, app_assoc.
  - intros [= <- <-]. destruct (Hsil _ Hnil). split_and!; auto. right. eexists; split; [exact Hk|]. now apply stream_silent.
Qed.

(** ** Runs *)
Definition flow (c : nat) (os : list obs) (s : sys) : Prop :=
  framed c os /\ in_order c os /\
  (sCrash s = false -> match sConns s !! c with Some k => stream c os k | None => fresh c os end).

Lemma fresh_flow c os : fresh c os -> framed c os /\ in_order c os.
Proof.
  intros (H1 & H2 & H3 & _). split.
  - exists []. unfold framed_with. rewrite H1, H2. now repeat constructor.
  - exists [], [], [], []. rewrite H2, H3. split_and!; auto.
Qed.
Lemma step_fresh s ev s' o c : sConns s !! c = None -> step s ev = (s', o) ->
  Forall (apart c) o /\ (sConns s' !! c = None \/ sConns s' !! c = Some (Conn [] CLoop)).
Proof.
  intros Hk H. unfold step in H. destruct (sCrash s).
  { injection H as <- <-. auto. }
  assert (A : forall d o', Forall (fun x => obs_conn x = Some d) o' -> c <> d -> Forall (apart c) o').
  { intros d o' Ho Hd. eapply Forall_impl; [exact Ho|]. cbn. intros x Hx. unfold apart. congruence. }
  assert (B : forall d k, sConns s !! d = Some k -> c <> d) by (intros d k Hd ->; congruence).
  assert (C : forall d k0 k' ds, sConns s !! d = Some k0 -> sConns (set_conn s d k' ds) !! c = None).
  { intros d k0 k' ds Hd. cbn. rewrite list_lookup_insert_ne; [assumption|]. intros ->. congruence. }
  destruct ev as [cl|i| |d ch|d chunk|d|d|d|d gone|d|w| |].
  - destruct (call_ok cl); injection H as <- <-; auto.
  - destruct (sThreads s !! i) as [a|]; [|injection H as <- <-; auto].
    destruct (astep i (sWall s) (sDs s) a) as [[ds a'] os'] eqn:E. injection H as <- <-.
    split; [|auto]. pose proof (astep_obs _ _ _ _ _ _ _ E) as Ho. eapply Forall_impl; [exact Ho|]. intros x Hx. unfold apart. cbn in Hx. congruence.
  - destruct (sCancel s); injection H as <- <-; [auto|]. split; [constructor|].
    cbn. destruct (decide (c = length (sConns s))) as [->|Hne].
    + right. rewrite lookup_app_r by lia. now rewrite Nat.sub_diag.
    + left. apply lookup_ge_None in Hk. apply lookup_ge_None. rewrite app_length. cbn. lia.
  - destruct (sConns s !! d) as [k|] eqn:Ed; [|injection H as <- <-; auto].
    apply conn_step_own in H as [Ho [(k' & ds & ->)|[->| ->]]]; split; eauto.
  - destruct (sConns s !! d) as [[inb [| | | |]]|] eqn:Ed; try (injection H as <- <-; now auto).
    destruct (_ && _); injection H as <- <-; [|auto]. split; [|eauto]. eapply (A d); [|eauto]. now repeat constructor.
  - destruct (sConns s !! d) as [[inb [| | | |]]|] eqn:Ed; injection H as <- <-; eauto.
  - destruct (sConns s !! d) as [[inb [| | | |]]|] eqn:Ed; injection H as <- <-; auto.
    split; [|eauto]. eapply (A d); [|eauto]. now repeat constructor.
  - destruct (sConns s !! d) as [[inb [| | | |]]|] eqn:Ed; injection H as <- <-; auto.
    split; [|auto]. eapply (A d); [|eauto]. now repeat constructor.
  - destruct (sConns s !! d) as [[inb [| | | |]]|] eqn:Ed; try (injection H as <- <-; now auto).
    destruct gone; injection H as <- <-; eauto.
    split; [|auto]. eapply (A d); [|eauto]. now repeat constructor.
  - injection H as <- <-. split; [now repeat constructor|auto].
  - injection H as <- <-. split; [now repeat constructor|auto].
  - injection H as <- <-. split; [now repeat constructor|auto].
  - destruct (forallb closed (sConns s)); injection H as <- <-; split; auto. now repeat constructor.
Qed.

Lemma stream_new c os : fresh c os -> stream c os (Conn [] CLoop).
Proof.
  intros (H1 & H2 & H3 & H4). unfold stream, framed_with, all_answered. cbn [cIn cSt]. rewrite H1, H2, H3, H4.
  split; [now repeat constructor|]. split; [reflexivity|]. split; [|reflexivity]. exists []. auto.
Qed.

Lemma flow_step c os s ev s' o : flow c os s -> (forall gone, ev <> EvSendFail c gone) ->
  step s ev = (s', o) -> flow c (os ++ o) s'.
Proof.
  intros (Hf & Hi & Hs) Hne H. destruct (sCrash s) eqn:Hcr.
  { unfold step in H. rewrite Hcr in H. injection H as <- <-. rewrite app_nil_r. split_and!; auto. congruence. }
  specialize (Hs eq_refl). destruct (sConns s !! c) as [k|] eqn:Hk.
  2: { destruct (step_fresh _ _ _ _ _ Hk H) as [Ho Hk'].
    assert (Hfr : fresh c (os ++ o)).
    { destruct (silent_eq c os o (silent_apart _ _ Ho)) as (E1 & E2 & E3 & E4). unfold fresh.
      now rewrite E1, E2, E3, E4. }
    destruct (fresh_flow _ _ Hfr). split_and!; auto. intros _. destruct Hk' as [-> | ->]; [assumption|now apply stream_new]. }
  destruct (decide (ev_conn ev = Some c)) as [He|He].
  2: { destruct (step_other _ _ _ _ c _ He Hk H) as [Hk' Ho]. apply silent_apart in Ho.
       split_and!; [now apply framed_silent|now apply in_order_silent|]. intros _. rewrite Hk'. now apply stream_silent. }
  assert (Hcrash : silent c [OCrash c]) by (repeat split; reflexivity).
  assert (Hset : forall k' ds, sConns (set_conn s c k' ds) !! c = Some k').
  { intros k' ds. cbn. apply list_lookup_insert. now apply lookup_lt_Some in Hk. }
  assert (Same : forall os', os' = os -> flow c os' s).
  { intros os' ->. split_and!; auto. intros _. now rewrite Hk. }
  assert (Hend : forall k' ds, stream c (os ++ o) k' -> s' = set_conn s c k' ds -> flow c (os ++ o) s').
  { intros k' ds HH ->. destruct (stream_final _ _ _ HH). split_and!; auto. intros _. now rewrite Hset. }
  assert (Hcr' : o = [OCrash c] -> s' = crash s -> flow c (os ++ o) s').
  { intros -> ->. split_and!; [now apply framed_silent|now apply in_order_silent|discriminate]. }
  unfold step in H. rewrite Hcr in H.
  destruct ev as [cl|i| |d ch|d chunk|d|d|d|d gone|d|w| |]; cbn [ev_conn] in He; try discriminate;
    injection He as ->; rewrite Hk in H.
  - destruct (own_step _ _ _ _ _ _ _ Hs Hk Hcr H) as (H1 & H2 & H3). split_and!; auto.
    intros Hc'. destruct H3 as [H3|(k' & Hk' & H3)]; [congruence|]. now rewrite Hk'.
  - destruct k as [inb [| | | |]]; try (injection H as <- <-; apply Same, app_nil_r).
    destruct ((0 <? zlen chunk) && (zlen chunk <=? 8192) && all_bytes chunk) eqn:Ec;
      injection H as <- <-; [|apply Same, app_nil_r].
    apply andb_true_iff in Ec as [_ Ec]. eapply Hend; [|reflexivity].
    destruct Hs as (Hr & Hb & Ha & _). cbn [cIn cSt] in *.
    unfold stream, framed_with, all_answered. cbn [cIn cSt]. rewrite reads_app, frames_app, writes_app, wcount_app.
    assert (R : reads c [ORead c chunk] = chunk) by (cbn; now rewrite Nat.eqb_refl, app_nil_r).
    rewrite R. cbn [frames writes flat_map wcount List.filter length]. rewrite !app_nil_r, Nat.add_0_r.
    destruct Hr as [Hr Hsz]. split; [split; [now rewrite Hr, app_assoc|assumption]|]. split; [now rewrite all_bytes_app, Hb|exact Ha].
  - destruct k as [inb [| | | |]]; injection H as <- <-; try (apply Same, app_nil_r).
    eapply Hend; [|reflexivity]. rewrite app_nil_r. destruct Hs as (Hr & Hb & Ha & _). stream3.
  - destruct k as [inb [| | | |]]; injection H as <- <-; try (apply Same, app_nil_r).
    eapply Hend; [|reflexivity]. apply stream_silent; [repeat split; reflexivity|].
    destruct Hs as (Hr & Hb & Ha). stream3.
  - destruct k as [inb [| | | |]]; injection H as <- <-; try (apply Same, app_nil_r). now apply Hcr'.
  - now destruct (Hne gone).
Qed.

Lemma flow_run c evs : forall s os s' o, flow c os s -> sends_ok c evs -> run s evs = (s', o) -> flow c (os ++ o) s'.
Proof.
  induction evs as [|ev evs IH]; cbn; intros s os s' o Hf Hok H.
  - injection H as <- <-. now rewrite app_nil_r.
  - destruct (step s ev) as [s1 o1] eqn:E1. destruct (run s1 evs) as [s2 o2] eqn:E2. injection H as <- <-.
    rewrite app_assoc. eapply IH; [|intros g Hg; eapply Hok; right; exact Hg|exact E2].
    eapply flow_step; [exact Hf| |exact E1]. intros g ->. eapply Hok. now left.
Qed.
Lemma flow_init c port ch : flow c [] (init port ch).
Proof.
  assert (F : fresh c []) by (repeat split).
  destruct (fresh_flow _ _ F). split_and!; auto.
Qed.
Lemma flow_reach c port ch evs s os : run (init port ch) evs = (s, os) -> sends_ok c evs -> flow c os s.
Proof. intros H Hok. change os with ([] ++ os). eapply flow_run; eauto using flow_init. Qed.

(** ** Consequences *)
Lemma framing c port ch evs s os : run (init port ch) evs = (s, os) -> sends_ok c evs ->
  exists rest, framed_with c os rest.
Proof. intros H Hok. apply (flow_reach c) in H as (Hf & _); assumption. Qed.

Lemma frames_unique : forall ms1 ms2 r1 r2 S,
  Forall (fun m => zlen m < 2 ^ 32 - 4) ms1 -> Forall (fun m => zlen m < 2 ^ 32 - 4) ms2 ->
  concat (map w_frame ms1) ++ r1 = S -> concat (map w_frame ms2) ++ r2 = S ->
  ms1 `prefix_of` ms2 \/ ms2 `prefix_of` ms1.
Proof.
  induction ms1 as [|m1 ms1 IH]; intros ms2 r1 r2 S F1 F2 E1 E2.
  { left. exists ms2. reflexivity. }
  destruct ms2 as [|m2 ms2]; [right; now exists (m1 :: ms1)|].
  apply Forall_cons in F1 as [Z1 F1]. apply Forall_cons in F2 as [Z2 F2].
  cbn [map concat] in E1, E2. rewrite <- app_assoc in E1, E2.
  pose proof (getMessage_found m1 (concat (map w_frame ms1) ++ r1) Z1) as G1.
  pose proof (getMessage_found m2 (concat (map w_frame ms2) ++ r2) Z2) as G2.
  rewrite E1 in G1. rewrite E2, G1 in G2. injection G2 as <- G2.
  destruct (IH ms2 r1 r2 _ F1 F2 G2 eq_refl) as [H|H]; [left|right]; now apply prefix_cons.
Qed.

(** Two runs in which parts of the same byte stream are read process the same
    requests, as far as each has come. *)
Lemma chunking c1 c2 port1 ch1 evs1 s1 os1 port2 ch2 evs2 s2 os2 S :
  run (init port1 ch1) evs1 = (s1, os1) -> sends_ok c1 evs1 -> reads c1 os1 `prefix_of` S ->
  run (init port2 ch2) evs2 = (s2, os2) -> sends_ok c2 evs2 -> reads c2 os2 `prefix_of` S ->
  frames c1 os1 `prefix_of` frames c2 os2 \/ frames c2 os2 `prefix_of` frames c1 os1.
Proof.
  intros H1 O1 [x1 P1] H2 O2 [x2 P2].
  destruct (framing _ _ _ _ _ _ H1 O1) as (r1 & E1 & F1). destruct (framing _ _ _ _ _ _ H2 O2) as (r2 & E2 & F2).
  rewrite E1, <- app_assoc in P1. rewrite E2, <- app_assoc in P2.
  symmetry in P1, P2. eapply (frames_unique _ _ _ _ S); eauto.
Qed.

Lemma stream_wcount c os k : stream c os k -> wcount c os = (3 * length (frames c os))%nat ->
  all_answered c os /\ (cSt k = CLoop \/ no_frame (cIn k)).
Proof.
  intros (_ & _ & Hs) Hn. destruct (cSt k) as [| |corr extra tk|chunks|].
  - auto.
  - destruct Hs. auto.
  - exfalso. destruct Hs as (ms & m & rs & Hf & _ & _ & _ & Hw). rewrite Hf, app_length in Hn. cbn in Hn. lia.
  - exfalso. destruct Hs as (ms & m & rs & part & Hf & _ & _ & _ & Hne & Hl & Hw). rewrite Hf, app_length in Hn.
    destruct chunks; [congruence|]. cbn in *. lia.
  - destruct Hs. auto.
Qed.

(** A request that has been received completely, all before it answered, is
    what the connection's goroutine does next. *)
Lemma taken_up c port ch evs s os m rest : run (init port ch) evs = (s, os) -> sends_ok c evs ->
  crashed os = false -> wcount c os = (3 * length (frames c os))%nat ->
  zlen m < 2 ^ 32 - 4 -> reads c os = concat (map w_frame (frames c os)) ++ w_frame m ++ rest ->
  forall ch', exists s' o, step s (EvConn c ch') = (s', OFrame c m :: o).
Proof.
  intros H Hok Hc Hn Hz Hr ch'. pose proof (init_run_inv _ _ _ _ _ H) as Hinv.
  apply (flow_reach c) in H as (_ & _ & Hs); [|assumption].
  assert (Hcr : sCrash s = false) by (rewrite (i_crash _ _ _ _ Hinv); exact Hc).
  specialize (Hs Hcr). destruct (sConns s !! c) as [k|] eqn:Hk.
  2: { exfalso. destruct Hs as (E1 & E2 & _). rewrite E1, E2 in Hr. change (concat (map w_frame []) ++ w_frame m ++ rest) with (w_frame m ++ rest) in Hr.
       assert (L : zlen (w_frame m ++ rest) = 0) by (rewrite <- Hr; reflexivity).
       unfold w_frame, w_int32 in L. rewrite !zlen_app, zlen_w_be in L.
       pose proof (zlen_nonneg m). pose proof (zlen_nonneg rest). lia. }
  destruct (stream_wcount _ _ _ Hs Hn) as [_ Hcase]. destruct Hs as ((Er & _) & _).
  rewrite Hr in Er. apply app_inv_head in Er.
  destruct Hcase as [Hcl|Hnf]; [|now destruct (Hnf m rest Hz)].
  unfold step. rewrite Hcr, Hk. unfold conn_step. rewrite Hcl, <- Er, getMessage_found by assumption.
  destruct (beginRequest (sPort s) m) as [[[? ?] ?]|]; eauto.
Qed.

(** ** The end of a connection *)
Lemma run_at evs : forall s s' B A x D, run s evs = (s', B) -> B = A ++ x :: D ->
  exists e1 ev e2 s1 B1 s2 o1 o2 D', evs = e1 ++ ev :: e2 /\ run s e1 = (s1, B1) /\
    step s1 ev = (s2, o1 ++ x :: o2) /\ A = B1 ++ o1 /\ run s2 e2 = (s', D') /\ D = o2 ++ D'.
Proof.
  induction evs as [|ev evs IH]; intros s s' B A x D H HB; cbn in H.
  - injection H as <- <-. destruct A; discriminate.
  - destruct (step s ev) as [s1 o1] eqn:E1. destruct (run s1 evs) as [s2 o2] eqn:E2. injection H as <- <-.
    apply app_eq_inv in HB as [(k & E & E')|(k & E & E')].
    + destruct k as [|y k].
      * (* the step ends just before x *)
        rewrite app_nil_r in E. cbn in E'. subst o1.
        destruct (IH s1 s2 o2 [] x D E2 (eq_sym E')) as (e1 & ev' & e2 & s3 & B1 & s4 & p1 & p2 & D' & -> & H1 & H2 & H3 & H4 & H5).
        exists (ev :: e1), ev', e2, s3, (A ++ B1), s4, p1, p2, D'. split_and!; auto.
        -- cbn. now rewrite E1, H1.
        -- rewrite <- app_assoc, <- H3, app_nil_r. reflexivity.
      * cbn in E'. injection E' as -> E'. subst o1.
        exists [], ev, evs, s, [], s1, A, k, o2. split_and!; auto.
    + subst A. destruct (IH s1 s2 o2 k x D E2 E') as (e1 & ev' & e2 & s3 & B1 & s4 & p1 & p2 & D' & -> & H1 & H2 & H3 & H4 & H5).
      exists (ev :: e1), ev', e2, s3, (o1 ++ B1), s4, p1, p2, D'. split_and!; auto.
      -- cbn. now rewrite E1, H1.
      -- rewrite <- app_assoc, <- H3. reflexivity.
Qed.

Lemma step_closed s ev s' o1 o2 c : step s ev = (s', o1 ++ OClosed c :: o2) ->
  sCrash s = false /\ o1 = [] /\ o2 = [] /\ exists inb, s' = set_conn s c (Conn inb CClosed) (sDs s) /\
    ((sConns s !! c = Some (Conn inb CLoop) /\ getMessage inb = GNone) \/ sConns s !! c = Some (Conn inb CRead)).
Proof.
  unfold step. destruct (sCrash s) eqn:Hcr; [intros [= _ E]; now destruct o1|].
  assert (One : forall x, [x] = o1 ++ OClosed c :: o2 -> x = OClosed c /\ o1 = [] /\ o2 = []).
  { intros x E. destruct o1 as [|y [|? ?]]; inversion E; auto. }
  assert (No : forall l, Forall (fun x => forall d, x <> OClosed d) l -> l <> o1 ++ OClosed c :: o2).
  { intros l Hl ->. apply Forall_app in Hl as [_ Hl]. apply Forall_cons in Hl as [Hl _]. now apply (Hl c). }
  destruct ev as [cl|i| |d chh|d chunk|d|d|d|d gone|d|w| |].
  - destruct (call_ok cl); intros [= _ E]; now destruct o1.
  - destruct (sThreads s !! i) as [a|]; [|intros [= _ E]; now destruct o1].
    destruct (astep i (sWall s) (sDs s) a) as [[ds a'] os'] eqn:E. intros [= _ E'].
    apply astep_obs in E. exfalso. revert E'. apply No. eapply Forall_impl; [exact E|]. cbn. intros x Hx e ->. discriminate.
  - destruct (sCancel s); intros [= _ E]; now destruct o1.
  - destruct (sConns s !! d) as [[inb st]|] eqn:Hd; [|intros [= _ E]; now destruct o1].
    unfold conn_step. cbn [cIn cSt].
    destruct st as [| |corr extra tk|chunks|]; try (intros [= _ E]; now destruct o1).
    + destruct (getMessage inb) as [|msg rest|] eqn:Eg.
      * destruct (sCancel s); intros [= <- E]; [|now destruct o1].
        apply One in E as ([= ->] & -> & ->). split_and!; auto. exists inb. auto.
      * destruct (beginRequest (sPort s) msg) as [[[corr extra] tk]|]; intros [= _ E]; exfalso; revert E; apply No;
          repeat constructor; discriminate.
      * intros [= _ E]. apply One in E as ([=] & _).
    + assert (T : forall tk, match tstep d (env_of s) chh (sDs s) tk with
        | TCont ds tk' os => (set_conn s d (Conn inb (CBusy corr extra tk')) ds, os)
        | TPanic => (crash s, [OCrash d]) end <> (s', o1 ++ OClosed c :: o2)).
      { intros tk'. destruct (tstep d (env_of s) chh (sDs s) tk') as [ds tk'' o'|] eqn:Et; intros [= _ E].
        - apply tstep_obs in Et as [->|(? & ? & ? & ? & ->)]; [now destruct o1|]. apply One in E as ([=] & _).
        - apply One in E as ([=] & _). }
      destruct tk as [t v| | | | | | | | | |]; try (match goal with |- context [tstep _ _ _ _ ?x] => intros E; destruct (T x E) end).
      destruct (finishRequest corr extra t v); intros [= _ E]; [now destruct o1|]. apply One in E as ([=] & _).
    + destruct chunks; intros [= _ E]; [now destruct o1|]. apply One in E as ([=] & _).
  - destruct (sConns s !! d) as [[inb [| | | |]]|] eqn:Hd; try (intros [= _ E]; now destruct o1).
    destruct (_ && _); intros [= _ E]; [|now destruct o1]. apply One in E as ([=] & _).
  - destruct (sConns s !! d) as [[inb [| | | |]]|] eqn:Hd; intros [= _ E]; now destruct o1.
  - destruct (sConns s !! d) as [[inb [| | | |]]|] eqn:Hd; intros [= <- E]; try now destruct o1.
    apply One in E as ([= ->] & -> & ->). split_and!; auto. exists inb. auto.
  - destruct (sConns s !! d) as [[inb [| | | |]]|] eqn:Hd; intros [= _ E]; try now destruct o1. apply One in E as ([=] & _).
  - destruct (sConns s !! d) as [[inb [| | | |]]|] eqn:Hd; try (intros [= _ E]; now destruct o1).
    destruct gone; intros [= _ E]; [now destruct o1|]. apply One in E as ([=] & _).
  - intros [= _ E]. apply One in E as ([=] & _).
  - intros [= _ E]. apply One in E as ([=] & _).
  - intros [= _ E]. apply One in E as ([=] & _).
  - destruct (forallb closed (sConns s)); intros [= _ E]; [|now destruct o1]. apply One in E as ([=] & _).
Qed.

(** A closed connection stays closed and silent. *)
Lemma closed_step s ev s' o c inb : sConns s !! c = Some (Conn inb CClosed) -> step s ev = (s', o) ->
  sConns s' !! c = Some (Conn inb CClosed) /\ silent c o /\ crashed_by c o = false.
Proof.
  intros Hk H. destruct (decide (ev_conn ev = Some c)) as [He|He].
  2: { destruct (step_other _ _ _ _ c _ He Hk H) as [Hk' Ho]. split; [assumption|].
       split; [now apply silent_apart|now apply apart_crashed_by]. }
  unfold step in H. destruct (sCrash s); [injection H as <- <-; repeat split; assumption|].
  destruct ev; cbn [ev_conn] in He; try discriminate; injection He as ->; rewrite Hk in H; cbn in H;
    injection H as <- <-; repeat split; assumption.
Qed.
Lemma closed_run c inb evs : forall s s' o, sConns s !! c = Some (Conn inb CClosed) -> run s evs = (s', o) ->
  sConns s' !! c = Some (Conn inb CClosed) /\ silent c o.
Proof.
  induction evs as [|ev evs IH]; cbn; intros s s' o Hk H.
  - injection H as <- <-. repeat split; assumption.
  - destruct (step s ev) as [s1 o1] eqn:E1. destruct (run s1 evs) as [s2 o2] eqn:E2. injection H as <- <-.
    destruct (closed_step _ _ _ _ _ _ Hk E1) as (Hk1 & S1 & _). destruct (IH _ _ _ Hk1 E2) as [Hk2 S2].
    split; [assumption|]. destruct (silent_eq c o1 o2 S2) as (Q1 & Q2 & Q3 & Q4). unfold silent.
    rewrite Q1, Q2, Q3, Q4. exact S1.
Qed.

Lemma set_conn_same s c k ds k0 : sConns s !! c = Some k0 -> sConns (set_conn s c k ds) !! c = Some k.
Proof. intros H. cbn. apply list_lookup_insert. now apply lookup_lt_Some in H. Qed.

(** When a connection is closed every complete request received on it has been
    answered; afterwards nothing is read from or written to it. *)
Lemma closing c port ch evs s A D : run (init port ch) evs = (s, A ++ OClosed c :: D) -> sends_ok c evs ->
  all_answered c A /\ (exists rest, framed_with c A rest /\ no_frame rest) /\
  reads c D = [] /\ writes c D = [] /\ frames c D = [].
Proof.
  intros H Hok. destruct (run_at _ _ _ _ A (OClosed c) D H eq_refl)
    as (e1 & ev & e2 & s1 & B1 & s2 & o1 & o2 & D' & -> & H1 & H2 & HA & H3 & HD).
  apply step_closed in H2 as (Hcr & -> & -> & inb & -> & Hc). rewrite app_nil_r in HA. subst A. cbn in HD. subst D'.
  apply (flow_reach c) in H1 as (_ & _ & Hs); [|intros g Hg; apply (Hok g); apply in_or_app; now left].
  specialize (Hs Hcr). 
  assert (Q : exists k0, sConns s1 !! c = Some k0) by (destruct Hc as [[? _]|?]; eauto).
  destruct Q as [k0 Hk0].
  destruct (closed_run c inb e2 _ _ _ (set_conn_same _ _ _ _ _ Hk0) H3) as [_ (R1 & R2 & R3 & _)].
  destruct Hc as [[Hk Hg]|Hk]; rewrite Hk in Hs; destruct Hs as (Hr & _ & Ha); cbn [cIn cSt] in *.
  - split_and!; auto; try apply Ha. exists inb. split; [assumption|now apply getMessage_none].
  - destruct Ha as [Ha Hnf]. split_and!; auto; try apply Ha. eauto.
Qed.

(** ** After FinishRequests or RequestStop *)
Lemma nreads_app c a b : nreads c (a ++ b) = (nreads c a + nreads c b)%nat.
Proof. unfold nreads. now rewrite List.filter_app, app_length. Qed.
Definition reading (s : sys) (c : nat) : nat :=
  match sConns s !! c with Some (Conn _ CRead) => 1 | _ => 0 end.
Lemma apart_nreads c os : Forall (apart c) os -> nreads c os = 0%nat.
Proof.
  induction 1 as [|o os Ho _ IH]; [reflexivity|]. unfold nreads in *. cbn.
  destruct o; try exact IH. destruct (Nat.eqb_spec c c0) as [->|]; [|exact IH]. now contradict Ho.
Qed.

Lemma cancel_step s ev s' o : sCancel s = true -> step s ev = (s', o) -> ~ In ORestart o ->
  sCancel s' = true /\ length (sConns s') = length (sConns s) /\
  forall c, (nreads c o + reading s' c <= reading s c)%nat.
Proof.
  intros Hx H Hno. unfold step in H. destruct (sCrash s); [injection H as <- <-; auto with lia|].
  assert (Set_ : forall d k k' ds, sConns s !! d = Some k -> cSt k' <> CRead ->
    length (sConns (set_conn s d k' ds)) = length (sConns s) /\
    forall c, (reading (set_conn s d k' ds) c <= reading s c)%nat /\
              (c = d -> reading (set_conn s d k' ds) c = 0%nat)).
  { intros d k k' ds Hd Hk'. split; [cbn; apply insert_length|]. intros c. unfold reading. cbn.
    assert (L : (d < length (sConns s))%nat) by (now apply lookup_lt_Some in Hd).
    destruct (decide (c = d)) as [->|Hne].
    - rewrite list_lookup_insert by assumption. destruct k' as [? []]; cbn in Hk'; try congruence; split; lia.
    - rewrite list_lookup_insert_ne by congruence. split; [lia|congruence]. }
  destruct ev as [cl|i| |d chh|d chunk|d|d|d|d gone|d|w| |].
  - destruct (call_ok cl); injection H as <- <-; auto with lia.
  - destruct (sThreads s !! i) as [a|]; [|injection H as <- <-; auto with lia].
    destruct (astep i (sWall s) (sDs s) a) as [[ds a'] os'] eqn:E. injection H as <- <-.
    split; [assumption|]. split; [reflexivity|]. intros c. apply astep_obs in E.
    rewrite apart_nreads; [unfold reading; cbn; lia|]. eapply Forall_impl; [exact E|]. cbn. intros x Hx'. unfold apart. congruence.
  - rewrite Hx in H. injection H as <- <-. auto with lia.
  - destruct (sConns s !! d) as [k|] eqn:Hd; [|injection H as <- <-; auto with lia].
    assert (N : forall c, nreads c o = 0%nat /\ (s' = s \/ s' = crash s \/ exists k' ds, s' = set_conn s d k' ds /\ cSt k' <> CRead)).
    { intros c. unfold conn_step in H. destruct (cSt k) as [| |corr extra tk|[|b bs]|].
      - destruct (getMessage (cIn k)) as [|msg rest|].
        + rewrite Hx in H. injection H as <- <-. split; [reflexivity|]. right; right. do 2 eexists. split; [reflexivity|discriminate].
        + destruct (beginRequest (sPort s) msg) as [[[corr extra] tk]|]; injection H as <- <-; split; auto.
          right; right. do 2 eexists. split; [reflexivity|discriminate].
        + injection H as <- <-. auto.
      - injection H as <- <-. auto.
      - assert (T : match tstep d (env_of s) chh (sDs s) tk with
          | TCont ds tk' os => (set_conn s d (Conn (cIn k) (CBusy corr extra tk')) ds, os)
          | TPanic => (crash s, [OCrash d]) end = (s', o) -> 
          nreads c o = 0%nat /\ (s' = s \/ s' = crash s \/ exists k' ds, s' = set_conn s d k' ds /\ cSt k' <> CRead)).
        { destruct (tstep d (env_of s) chh (sDs s) tk) as [ds tk'' o'|] eqn:Et; intros [= <- <-]; [|auto].
          split; [apply tstep_obs in Et as [->|(? & ? & ? & ? & ->)]; reflexivity|].
          right; right. do 2 eexists. split; [reflexivity|discriminate]. }
        destruct tk as [t v| | | | | | | | | |]; try exact (T H).
        destruct (finishRequest corr extra t v); injection H as <- <-; split; auto.
        right; right. do 2 eexists. split; [reflexivity|discriminate].
      - injection H as <- <-. split; [reflexivity|]. right; right. do 2 eexists. split; [reflexivity|discriminate].
      - injection H as <- <-. split; [reflexivity|]. right; right. do 2 eexists. split; [reflexivity|]. now destruct bs.
      - injection H as <- <-. auto. }
    destruct (N 0%nat) as [_ [->|[->|(k' & ds & -> & Hk')]]].
    + split_and!; auto. intros c. destruct (N c) as [-> _]. lia.
    + split_and!; auto. intros c. destruct (N c) as [-> _]. unfold reading. cbn. lia.
    + destruct (Set_ d k k' ds Hd Hk') as [L R]. split_and!; auto. intros c. destruct (N c) as [-> _]. destruct (R c). lia.
  - destruct (sConns s !! d) as [[inb [| | | |]]|] eqn:Hd; try (injection H as <- <-; now auto with lia).
    destruct (_ && _); injection H as <- <-; [|auto with lia].
    destruct (Set_ d _ (Conn (inb ++ chunk) CLoop) (sDs s) Hd ltac:(discriminate)) as [L R]. split_and!; auto.
    intros c. destruct (R c) as [R1 R2]. unfold nreads. cbn. destruct (Nat.eqb_spec c d) as [->|]; cbn; [|lia].
    rewrite R2 by reflexivity. unfold reading. rewrite Hd. lia.
  - destruct (sConns s !! d) as [[inb [| | | |]]|] eqn:Hd; injection H as <- <-; auto with lia.
    destruct (Set_ d _ (Conn inb CLoop) (sDs s) Hd ltac:(discriminate)) as [L R]. split_and!; auto.
    intros c. destruct (R c) as [R1 R2]. cbn [nreads List.filter length]. lia.
  - destruct (sConns s !! d) as [[inb [| | | |]]|] eqn:Hd; injection H as <- <-; auto with lia.
    destruct (Set_ d _ (Conn inb CClosed) (sDs s) Hd ltac:(discriminate)) as [L R]. split_and!; auto.
    intros c. destruct (R c) as [R1 R2]. cbn [nreads List.filter length]. lia.
  - destruct (sConns s !! d) as [[inb [| | | |]]|] eqn:Hd; injection H as <- <-; auto with lia.
  - destruct (sConns s !! d) as [[inb [| | |ch0|]]|] eqn:Hd; try (injection H as <- <-; now auto with lia).
    destruct gone; injection H as <- <-.
    + destruct (Set_ d _ (Conn inb CLoop) (sDs s) Hd ltac:(discriminate)) as [L R]. split_and!; auto.
      intros c. destruct (R c) as [R1 R2]. cbn [nreads List.filter length]. lia.
    + now auto with lia.
  - injection H as <- <-. now auto with lia.
  - injection H as <- <-. now auto with lia.
  - injection H as <- <-. now auto with lia.
  - destruct (forallb closed (sConns s)); injection H as <- <-; [|auto with lia]. exfalso. apply Hno. now left.
Qed.
Lemma cancel_run evs : forall s s' o, sCancel s = true -> run s evs = (s', o) -> ~ In ORestart o ->
  length (sConns s') = length (sConns s) /\ forall c, (nreads c o + reading s' c <= reading s c)%nat.
Proof.
  induction evs as [|ev evs IH]; cbn; intros s s' o Hx H Hno.
  - injection H as <- <-. auto with lia.
  - destruct (step s ev) as [s1 o1] eqn:E1. destruct (run s1 evs) as [s2 o2] eqn:E2. injection H as <- <-.
    destruct (cancel_step _ _ _ _ Hx E1) as (Hx1 & L1 & R1); [intros Hin; apply Hno, in_or_app; now left|].
    destruct (IH _ _ _ Hx1 E2) as [L2 R2]; [intros Hin; apply Hno, in_or_app; now right|].
    split; [congruence|]. intros c. rewrite nreads_app. specialize (R1 c). specialize (R2 c). lia.
Qed.
(** No connection beyond those accepted before is served, and at most one more
    read succeeds on each of those. *)
Lemma unserved c evs : forall s s' o, (length (sConns s) <= c)%nat -> length (sConns s') = length (sConns s) ->
  run s evs = (s', o) -> silent c o.
Proof.
  induction evs as [|ev evs IH]; cbn; intros s s' o Hc Hl H.
  - injection H as <- <-. repeat split.
  - destruct (step s ev) as [s1 o1] eqn:E1. destruct (run s1 evs) as [s2 o2] eqn:E2. injection H as <- <-.
    assert (M : forall s ev s' o, step s ev = (s', o) -> (length (sConns s) <= length (sConns s'))%nat).
    { clear. intros s ev s' o H. destruct (le_lt_dec (length (sConns s)) (length (sConns s'))) as [|Hlt]; [assumption|].
      assert (exists k, sConns s !! length (sConns s') = Some k) as [k Hk] by (apply lookup_lt_is_Some; lia).
      destruct (decide (ev_conn ev = Some (length (sConns s')))) as [He|He].
      - unfold step in H. destruct (sCrash s); [injection H as <- <-; lia|].
        destruct ev; cbn in He; try discriminate; injection He as ->; rewrite Hk in H.
        + apply conn_step_own in H as [_ [(k' & ds & Hs')|[Hs'|Hs']]]; rewrite Hs' in Hlt; cbn in Hlt; try lia. rewrite insert_length in Hlt. lia.
        + destruct k as [? []]; try (injection H as <- <-; lia). destruct (_ && _); injection H as Hs' _; rewrite <- Hs' in Hlt; cbn in Hlt; try rewrite insert_length in Hlt; lia.
        + destruct k as [? []]; injection H as Hs' _; rewrite <- Hs' in Hlt; cbn in Hlt; try rewrite insert_length in Hlt; lia.
        + destruct k as [? []]; injection H as Hs' _; rewrite <- Hs' in Hlt; cbn in Hlt; try rewrite insert_length in Hlt; lia.
        + destruct k as [? []]; injection H as Hs' _; rewrite <- Hs' in Hlt; cbn in Hlt; try rewrite insert_length in Hlt; lia.
        + destruct k as [? []]; try (injection H as Hs' _; rewrite <- Hs' in Hlt; cbn in Hlt; lia). destruct gone; injection H as Hs' _; rewrite <- Hs' in Hlt; cbn in Hlt; try rewrite insert_length in Hlt; lia.
      - destruct (step_other _ _ _ _ _ _ He Hk H) as [Hk' _]. apply lookup_lt_Some in Hk'. lia. }
    assert (M' : forall evs s s' o, run s evs = (s', o) -> (length (sConns s) <= length (sConns s'))%nat).
    { clear -M. induction evs as [|ev evs IH]; cbn; intros s s' o H; [injection H as <- <-; lia|].
      destruct (step s ev) as [s1 o1] eqn:E1. destruct (run s1 evs) as [s2 o2] eqn:E2. injection H as <- <-.
      apply M in E1. apply IH in E2. lia. }
    pose proof (M _ _ _ _ E1) as L1. pose proof (M' _ _ _ _ E2) as L2.
    assert (Hk : sConns s !! c = None) by (now apply lookup_ge_None).
    destruct (step_fresh _ _ _ _ _ Hk E1) as [Ho _].
    assert (S2 : silent c o2) by (eapply IH; [| |exact E2]; lia).
    destruct (silent_eq c o1 o2 S2) as (Q1 & Q2 & Q3 & Q4). unfold silent. rewrite Q1, Q2, Q3, Q4.
    now apply silent_apart.
Qed.
Lemma after_cancel port ch e1 s1 A e2 s2 B : run (init port ch) e1 = (s1, A) -> tr_cancelled A = true ->
  run s1 e2 = (s2, B) -> ~ In ORestart B ->
  forall c, (nreads c B <= 1)%nat /\
    ((length (sConns s1) <= c)%nat -> reads c B = [] /\ frames c B = [] /\ writes c B = []).
Proof.
  intros H1 Hx H2 Hno c. pose proof (init_run_inv _ _ _ _ _ H1) as Hinv.
  rewrite <- (i_cancel _ _ _ _ Hinv) in Hx. destruct (cancel_run _ _ _ _ Hx H2 Hno) as [L R]. split.
  - specialize (R c). assert (reading s1 c <= 1)%nat; [|lia]. unfold reading.
    destruct (sConns s1 !! c) as [[? []]|]; lia.
  - intros Hc. destruct (unserved c e2 _ _ _ Hc L H2) as (Q1 & Q2 & Q3 & _). auto.
Qed.

(** An idle connection of a cancelled server closes. *)
Lemma finish_closes c port ch evs s os rest : run (init port ch) evs = (s, os) -> sends_ok c evs ->
  crashed os = false -> tr_cancelled os = true -> (c < length (sConns s))%nat ->
  wcount c os = (3 * length (frames c os))%nat ->
  framed_with c os rest -> no_frame rest -> zlen rest < 2 ^ 32 ->
  forall ch', exists s' o, run s [EvTimeout c; EvConn c ch'] = (s', o) /\
    sConns s' !! c = Some (Conn rest CClosed) /\ crashed o = false.
Proof.
  intros H Hok Hc Hx Hlt Hn [Hr _] Hnf Hz ch'. pose proof (init_run_inv _ _ _ _ _ H) as Hinv.
  apply (flow_reach c) in H as (_ & _ & Hs); [|assumption].
  assert (Hcr : sCrash s = false) by (rewrite (i_crash _ _ _ _ Hinv); exact Hc).
  rewrite <- (i_cancel _ _ _ _ Hinv) in Hx.
  specialize (Hs Hcr). destruct (sConns s !! c) as [k|] eqn:Hk; [|apply lookup_ge_None in Hk; lia].
  destruct (stream_wcount _ _ _ Hs Hn) as [_ Hcase]. destruct Hs as ((Er & _) & Hb & Hst).
  rewrite Hr in Er. apply app_inv_head in Er. destruct k as [inb st]. cbn [cIn cSt] in *. subst inb.
  assert (G : getMessage rest = GNone).
  { destruct (getMessage rest) as [|m r|] eqn:Eg; [reflexivity| |].
    - apply getMessage_frame in Eg as [E Hm]; [|assumption]. now destruct (Hnf m r Hm).
    - exfalso. unfold getMessage in Eg. destruct (zlen rest <? 4) eqn:E4; [discriminate|].
      assert (Hh : 0 <= be_get (firstn 4 rest)).
      { apply be_get_range. rewrite <- (firstn_skipn 4 rest), all_bytes_app in Hb. now apply andb_true_iff in Hb as [? _]. }
      destruct (zlen rest <? be_get (firstn 4 rest) + 4) eqn:Es; [discriminate|].
      assert (U : uwrap 32 (4 + be_get (firstn 4 rest)) = 4 + be_get (firstn 4 rest)) by (apply Z.mod_small; lia).
      rewrite U in Eg. replace (4 + be_get (firstn 4 rest) <? 4) with false in Eg by lia. discriminate. }
  assert (Loop : forall s0, sConns s0 !! c = Some (Conn rest CLoop) -> sCrash s0 = false -> sCancel s0 = true ->
    exists s' o, (let '(s1, o1) := step s0 (EvConn c ch') in (s1, o1 ++ [])) = (s', o) /\
      sConns s' !! c = Some (Conn rest CClosed) /\ crashed o = false).
  { intros s0 K0 C0 X0. unfold step. rewrite C0, K0. unfold conn_step. cbn [cSt cIn]. rewrite G, X0.
    do 2 eexists. split; [reflexivity|]. split; [|reflexivity]. eapply set_conn_same, K0. }
  cbn [run]. destruct st as [| |corr extra tk|chunks|].
  - assert (E : step s (EvTimeout c) = (s, [])) by (unfold step; now rewrite Hcr, Hk).
    rewrite E. destruct (Loop s Hk Hcr Hx) as (s' & o & E' & ? & ?).
    destruct (step s (EvConn c ch')) as [s1 o1]. injection E' as <- <-. do 2 eexists. split; [reflexivity|]. auto.
  - assert (E : step s (EvTimeout c) = (set_conn s c (Conn rest CLoop) (sDs s), [])) by (unfold step; now rewrite Hcr, Hk).
    rewrite E. destruct (Loop _ (set_conn_same s c (Conn rest CLoop) (sDs s) _ Hk) Hcr Hx) as (s' & o & E' & ? & ?).
    destruct (step _ (EvConn c ch')) as [s1 o1]. injection E' as <- <-. do 2 eexists. split; [reflexivity|]. auto.
  - exfalso. destruct Hst as (ms & m & rs & Hf & _ & _ & _ & Hw). rewrite Hf, app_length in Hn. cbn in Hn. lia.
  - exfalso. destruct Hst as (ms & m & rs & part & Hf & _ & _ & _ & Hne & Hl & Hw). rewrite Hf, app_length in Hn.
    destruct chunks; [congruence|]. cbn in *. lia.
  - assert (E : step s (EvTimeout c) = (s, [])) by (unfold step; now rewrite Hcr, Hk).
    assert (E2 : step s (EvConn c ch') = (s, [])) by (unfold step; now rewrite Hcr, Hk).
    rewrite E, E2. do 2 eexists. split; [reflexivity|]. auto.
Qed.
