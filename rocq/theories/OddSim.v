(** * OddSim: an execution with one request written differently *)
From Verif Require Export OddProofs.
From stdpp Require Import gmap list.
From Coq Require Import ZifyBool ZifyNat.
Open Scope Z_scope.
Open Scope list_scope.

Section sim.
Context (m' : bytes) (c : nat) (Hm : all_bytes m' = true).

Definition pconn (d : Z) (k : conn) : conn := Conn (patch m' d (cIn k)) (cSt k).
Definition repl (d : Z) (s : sys) : sys :=
  Sys (sDs s) (alter (pconn d) c (sConns s)) (sThreads s) (sMono s) (sWall s) (sCancel s) (sCrash s) (sPort s) (sVers s).
Definition flen (o : list obs) : Z := zlen (concat (map w_frame (frames c o))).
Definition inl (s : sys) : Z := match sConns s !! c with Some k => zlen (cIn k) | None => 0 end.

Lemma flen_app a b : flen (a ++ b) = flen a + flen b.
Proof. unfold flen. now rewrite frames_app, map_app, concat_app, zlen_app. Qed.
Lemma flen_none o : frames c o = [] -> flen o = 0.
Proof. unfold flen. now intros ->. Qed.
Lemma flen_nonneg o : 0 <= flen o.
Proof. apply zlen_nonneg. Qed.

Lemma repl_set d d' s k ds : set_conn (repl d' s) c (pconn d k) ds = repl d (set_conn s c k ds).
Proof.
  unfold repl, set_conn. cbn. f_equal. apply list_eq. intros i. destruct (decide (i = c)) as [->|Hi].
  - destruct (decide (c < length (sConns s))%nat) as [L|L].
    + rewrite list_lookup_insert by (now rewrite alter_length). rewrite list_lookup_alter, list_lookup_insert by assumption. reflexivity.
    + rewrite !lookup_ge_None_2; [reflexivity| |]; rewrite ?insert_length, ?alter_length, ?insert_length; lia.
  - rewrite list_lookup_insert_ne, list_lookup_alter_ne, list_lookup_alter_ne, list_lookup_insert_ne by congruence. reflexivity.
Qed.
Lemma repl_set_ne d s c0 k ds : c0 <> c -> set_conn (repl d s) c0 k ds = repl d (set_conn s c0 k ds).
Proof.
  intros Hne. unfold repl, set_conn. cbn. f_equal. apply list_eq. intros i.
  destruct (decide (i = c0)) as [->|Hi]; [|destruct (decide (i = c)) as [->|Hi2]].
  - rewrite (list_lookup_alter_ne (pconn d) _ c c0) by congruence. destruct (decide (c0 < length (sConns s))%nat) as [L|L].
    + rewrite !list_lookup_insert by (rewrite ?alter_length; assumption). reflexivity.
    + rewrite !lookup_ge_None_2; [reflexivity| |]; rewrite ?insert_length, ?alter_length; lia.
  - rewrite list_lookup_insert_ne by congruence. rewrite !list_lookup_alter. rewrite list_lookup_insert_ne by congruence. reflexivity.
  - rewrite list_lookup_insert_ne, list_lookup_alter_ne, list_lookup_alter_ne, list_lookup_insert_ne by congruence. reflexivity.
Qed.
Lemma repl_at d s c0 : sConns (repl d s) !! c0 = if decide (c0 = c) then pconn d <$> sConns s !! c0 else sConns s !! c0.
Proof. unfold repl. cbn. destruct (decide (c0 = c)) as [->|H]; [apply list_lookup_alter|apply list_lookup_alter_ne; congruence]. Qed.
Lemma repl_closed d s : forallb closed (sConns (repl d s)) = forallb closed (sConns s).
Proof.
  unfold repl. cbn. generalize c as i, (sConns s) as l. clear. intros i l. revert i. induction l as [|k l IH]; intros i; [reflexivity|].
  destruct i; cbn; [reflexivity|]. f_equal. apply IH.
Qed.
Lemma repl_app d l : alter (pconn d) c (l ++ [Conn [] CLoop]) = alter (pconn d) c l ++ [Conn [] CLoop].
Proof.
  generalize c as i. clear. induction l as [|k l IH]; intros i.
  - destruct i as [|i]; [reflexivity|]. now destruct i.
  - destruct i; cbn; [reflexivity|]. f_equal. apply IH.
Qed.

(** What one step does. *)
Definition matched (d : Z) (s : sys) (ev : event) (s1 : sys) (o : list obs) : Prop :=
  inl s1 = inl s + zlen (reads c o) - flen o /\
  exists ev' o', step (repl (flen o + d) s) ev' = (repl d s1, o') /\ same_but_read c o o' /\
    reads c o' = patch m' (flen o + d - inl s) (reads c o) /\ frames c o' = frames c o.

Lemma matched_same d s ev s1 o : frames c o = [] -> reads c o = [] -> inl s1 = inl s ->
  step (repl d s) ev = (repl d s1, o) -> matched d s ev s1 o.
Proof.
  intros F R L H. split.
  - rewrite R, (flen_none o F), zlen_nil. lia.
  - exists ev, o. rewrite (flen_none o F), R. split; [exact H|]. split; [|split; [reflexivity|reflexivity]].
    clear. induction o; constructor; auto.
Qed.
Lemma inl_set s k ds k0 : sConns s !! c = Some k0 -> inl (set_conn s c k ds) = zlen (cIn k).
Proof. intros H. unfold inl, set_conn. cbn. now rewrite list_lookup_insert by (eapply lookup_lt_Some; exact H). Qed.
Lemma inl_set_ne s c0 k ds : c0 <> c -> inl (set_conn s c0 k ds) = inl s.
Proof. intros H. unfold inl, set_conn. cbn. now rewrite list_lookup_insert_ne. Qed.


(** The connection as it is in the changed state. *)
Definition pc (d : Z) (c0 : nat) (k : conn) : conn := if decide (c0 = c) then pconn d k else k.
Lemma pc_st d c0 k : cSt (pc d c0 k) = cSt k.
Proof. unfold pc. now destruct (decide (c0 = c)). Qed.
Lemma repl_conn d s c0 : sConns (repl d s) !! c0 = pc d c0 <$> sConns s !! c0.
Proof. rewrite repl_at. unfold pc. destruct (decide (c0 = c)); [reflexivity|]. now destruct (sConns s !! c0). Qed.
Lemma conn_matched d s ev c0 k st ds o : sConns s !! c0 = Some k -> frames c o = [] -> reads c o = [] ->
  step (repl d s) ev = (set_conn (repl d s) c0 (Conn (cIn (pc d c0 k)) st) ds, o) ->
  matched d s ev (set_conn s c0 (Conn (cIn k) st) ds) o.
Proof.
  intros Hk F R H. unfold pc in H. destruct (decide (c0 = c)) as [->|Hne].
  - change (Conn (cIn (pconn d k)) st) with (pconn d (Conn (cIn k) st)) in H. rewrite repl_set in H.
    apply matched_same; try assumption. rewrite (inl_set _ _ _ _ Hk). unfold inl. now rewrite Hk.
  - rewrite repl_set_ne in H by assumption. apply matched_same; try assumption. now apply inl_set_ne.
Qed.
Lemma idle_matched d s ev o : frames c o = [] -> reads c o = [] -> step (repl d s) ev = (repl d s, o) -> matched d s ev s o.
Proof. intros. now apply matched_same. Qed.

Lemma conn_step_match d s c0 ch k s1 o : 4 <= d -> conns_bytes s -> sCrash s = false -> sConns s !! c0 = Some k ->
  conn_step s c0 ch k = (s1, o) -> sCrash s1 = false -> matched d s (EvConn c0 ch) s1 o.
Proof.
  intros Hd Hb Hcr Hk H Hc1.
  assert (St : forall d', step (repl d' s) (EvConn c0 ch) = conn_step (repl d' s) c0 ch (pc d' c0 k)).
  { intros d'. unfold step. change (sCrash (repl d' s)) with (sCrash s). now rewrite Hcr, repl_conn, Hk. }
  assert (T : forall tk corr extra, cSt k = CBusy corr extra tk -> (forall t v, tk <> TkRet t v) ->
      match tstep c0 (env_of s) ch (sDs s) tk with
        | TCont ds tk' os => (set_conn s c0 (Conn (cIn k) (CBusy corr extra tk')) ds, os)
        | TPanic => (crash s, [OCrash c0]) end = (s1, o) -> matched d s (EvConn c0 ch) s1 o).
  { intros tk corr extra Es Hn E. destruct (tstep c0 (env_of s) ch (sDs s) tk) as [ds tk' o'|] eqn:Et; injection E as <- <-; [|discriminate].
    assert (F : frames c o' = [] /\ reads c o' = []) by (apply tstep_obs in Et as [->|(?&?&?&?&->)]; split; reflexivity).
    apply conn_matched; [assumption|apply F|apply F|]. rewrite St. unfold conn_step. rewrite pc_st, Es.
    change (env_of (repl d s)) with (env_of s). change (sDs (repl d s)) with (sDs s).
    destruct tk; try (exfalso; now eapply Hn); now rewrite Et. }
  unfold conn_step in H. destruct (cSt k) as [| |corr extra tk|[|b bs]|] eqn:Es.
  - destruct (getMessage (cIn k)) as [|msg rest|] eqn:Eg.
    + assert (G : getMessage (cIn (pc d c0 k)) = GNone).
      { unfold pc. destruct (decide (c0 = c)); [|exact Eg]. unfold pconn. cbn [cIn]. now rewrite getMessage_patch, Eg by (auto; eapply Hb; eassumption). }
      destruct (sCancel s) eqn:Ecn; injection H as <- <-; (apply conn_matched; [assumption|reflexivity|reflexivity|]);
        rewrite St; unfold conn_step; rewrite pc_st, Es, G; change (sCancel (repl d s)) with (sCancel s); rewrite Ecn; reflexivity.
    + destruct (beginRequest (sPort s) msg) as [[[corr extra] tk]|] eqn:Eb; injection H as <- <-; [|discriminate].
      destruct (decide (c0 = c)) as [->|Hne].
      * assert (F : frames c [OFrame c msg] = [msg]) by (cbn; now rewrite Nat.eqb_refl).
        assert (L : flen [OFrame c msg] = 4 + zlen msg).
        { unfold flen. rewrite F. cbn [map concat]. rewrite app_nil_r. unfold w_frame, w_int32. now rewrite zlen_app, zlen_w_be. }
        assert (Hin : zlen (cIn k) = 4 + zlen msg + zlen rest).
        { apply getMessage_frame in Eg as [-> _]; [|eapply Hb; eassumption]. unfold w_frame, w_int32. now rewrite !zlen_app, zlen_w_be. }
        assert (Hi : inl s = zlen (cIn k)) by (unfold inl; now rewrite Hk).
        split.
        { rewrite (inl_set _ _ _ _ Hk), L, Hi, Hin. change (reads c [OFrame c msg]) with (@nil Z). rewrite zlen_nil. cbn [cIn]. lia. }
        exists (EvConn c ch), [OFrame c msg]. rewrite St. unfold conn_step, pc. destruct (decide (c = c)); [|contradiction]. unfold pconn at 1 2. cbn [cSt cIn].
        rewrite Es, getMessage_patch, Eg by (try assumption; try (eapply Hb; eassumption); rewrite L; pose proof (zlen_nonneg msg); lia).
        rewrite L. pose proof (zlen_nonneg msg). rewrite (patch_before m' (4 + zlen msg + d - 4) msg) by lia.
        change (sPort (repl (4 + zlen msg + d) s)) with (sPort s). rewrite Eb.
        replace (4 + zlen msg + d - 4 - zlen msg) with d by lia.
        change (Conn (patch m' d rest) (CBusy corr extra tk)) with (pconn d (Conn rest (CBusy corr extra tk))).
        change (sDs (repl (4 + zlen msg + d) s)) with (sDs s). rewrite repl_set. split; [reflexivity|]. split; [|split; reflexivity].
        constructor; [now left|constructor].
      * assert (F : frames c [OFrame c0 msg] = []) by (cbn; destruct (Nat.eqb_spec c c0); [congruence|reflexivity]).
        apply matched_same; [exact F|reflexivity|now apply inl_set_ne|]. rewrite St. unfold conn_step, pc. destruct (decide (c0 = c)); [contradiction|].
        rewrite Es, Eg. change (sPort (repl d s)) with (sPort s). rewrite Eb. now rewrite repl_set_ne.
    + injection H as <- <-. discriminate.
  - injection H as <- <-. apply idle_matched; [reflexivity|reflexivity|]. rewrite St. unfold conn_step. now rewrite pc_st, Es.
  - destruct tk as [t v| | | | | | | | | |];
        try (match type of H with context [tstep _ _ _ _ ?x] => apply (T x corr extra eq_refl); [discriminate|exact H] end).
    destruct (finishRequest corr extra t v) eqn:Ef; injection H as <- <-; [|discriminate].
    apply conn_matched; [assumption|reflexivity|reflexivity|]. rewrite St. unfold conn_step. now rewrite pc_st, Es, Ef.
  - injection H as <- <-. apply conn_matched; [assumption|reflexivity|reflexivity|]. rewrite St. unfold conn_step. now rewrite pc_st, Es.
  - injection H as <- <-. apply conn_matched; [assumption|reflexivity|reflexivity|]. rewrite St. unfold conn_step. now rewrite pc_st, Es.
  - injection H as <- <-. apply idle_matched; [reflexivity|reflexivity|]. rewrite St. unfold conn_step. now rewrite pc_st, Es.
Qed.

Lemma step_match d s ev s1 o : 4 <= d -> conns_bytes s -> step s ev = (s1, o) -> sCrash s1 = false -> matched d s ev s1 o.
Proof.
  intros Hd Hb H Hc1. assert (Hcr : sCrash s = false).
  { destruct (sCrash s) eqn:E; [|reflexivity]. unfold step in H. rewrite E in H. injection H as <- <-. congruence. }
  destruct ev as [cl|i| |c0 ch|c0 chunk|c0|c0|c0|c0 gone|x|w| |].
  - unfold step in H. rewrite Hcr in H. destruct (call_ok cl) eqn:E; injection H as <- <-;
      (apply matched_same; [reflexivity|reflexivity|reflexivity|]); unfold step; cbn [sCrash repl]; rewrite Hcr, E; reflexivity.
  - unfold step in H. rewrite Hcr in H. destruct (sThreads s !! i) as [a|] eqn:E.
    + destruct (astep i (sWall s) (sDs s) a) as [[ds a'] os] eqn:Ea. injection H as <- <-.
      pose proof (astep_obs _ _ _ _ _ _ _ Ea) as Ho.
      assert (Ho' : Forall (apart c) os) by (eapply Forall_impl; [exact Ho|]; intros x0 Hx; unfold apart; rewrite Hx; discriminate).
      apply matched_same; [now apply apart_frames|now apply apart_reads|reflexivity|].
      unfold step; cbn [sCrash repl sThreads sWall sDs]; rewrite Hcr, E, Ea. reflexivity.
    + injection H as <- <-. apply matched_same; [reflexivity|reflexivity|reflexivity|]. unfold step; cbn [sCrash repl sThreads]; rewrite Hcr, E. reflexivity.
  - unfold step in H. rewrite Hcr in H. destruct (sCancel s) eqn:E; injection H as <- <-; (apply matched_same; [reflexivity|reflexivity| |]);
      try reflexivity; try (unfold step; cbn [sCrash repl sCancel]; rewrite Hcr, E; unfold repl; cbn; rewrite ?repl_app, ?Hcr; reflexivity).
    unfold inl. cbn. destruct (sConns s !! c) as [k|] eqn:Ek.
    + rewrite lookup_app_l by (eapply lookup_lt_Some; exact Ek). now rewrite Ek.
    + apply lookup_ge_None in Ek. destruct (decide (c = length (sConns s))) as [Ec|Ec].
      * rewrite list_lookup_middle by congruence. reflexivity.
      * rewrite lookup_ge_None_2; [reflexivity|]. rewrite app_length. cbn. lia.
  - pose proof H as H'. unfold step in H. rewrite Hcr in H. destruct (sConns s !! c0) as [k|] eqn:Ek; [eapply conn_step_match; eauto|].
    injection H as <- <-. apply idle_matched; [reflexivity|reflexivity|]. unfold step. cbn [sCrash repl]. now rewrite Hcr, repl_conn, Ek.
  - unfold step in H. rewrite Hcr in H.
    assert (N : forall k, sConns s !! c0 = k -> match k with Some (Conn _ CRead) => False | _ => True end -> matched d s (EvRecv c0 chunk) s []).
    { intros k Ek Hn. apply idle_matched; [reflexivity|reflexivity|]. unfold step. cbn [sCrash repl]. rewrite Hcr, repl_conn, Ek.
      destruct k as [[inb st]|]; [|reflexivity]. cbn [fmap option_fmap option_map]. pose proof (pc_st d c0 (Conn inb st)) as Es.
      destruct (pc d c0 (Conn inb st)) as [inb' st'] eqn:Ep. cbn [cSt] in Es. subst st'. now destruct st. }
    destruct (sConns s !! c0) as [[inb st]|] eqn:Ek; [|injection H as <- <-; exact (N _ eq_refl I)].
    destruct st; try (injection H as <- <-; exact (N _ eq_refl I)).
    destruct ((0 <? zlen chunk) && (zlen chunk <=? 8192) && all_bytes chunk) eqn:Ec; injection H as <- <-.
    + destruct (decide (c0 = c)) as [->|Hne].
      * assert (R : reads c [ORead c chunk] = chunk) by (cbn; now rewrite Nat.eqb_refl, app_nil_r).
        assert (L : flen [ORead c chunk] = 0) by reflexivity.
        assert (Hi : inl s = zlen inb) by (unfold inl; now rewrite Ek).
        split; [rewrite (inl_set _ _ _ _ Ek), Hi, R, L; cbn [cIn]; rewrite zlen_app; lia|].
        set (chunk' := patch m' (d - zlen inb) chunk).
        exists (EvRecv c chunk'), [ORead c chunk']. rewrite L, Hi, R. replace (0 + d) with d by lia.
        assert (R' : reads c [ORead c chunk'] = chunk') by (cbn; now rewrite Nat.eqb_refl, app_nil_r).
        split; [|split; [|split; [exact R'|reflexivity]]].
        -- unfold step. cbn [sCrash repl]. rewrite Hcr, repl_conn, Ek. cbn [fmap option_fmap option_map]. unfold pc, pconn.
           destruct (decide (c = c)); [|contradiction]. cbn [cIn cSt].
           replace ((0 <? zlen chunk') && (zlen chunk' <=? 8192) && all_bytes chunk') with true.
           2: { unfold chunk'. rewrite patch_len. symmetry. rewrite !andb_true_iff in *. split; [apply Ec|]. apply patch_bytes; [assumption|apply Ec]. }
           change (sDs (repl d s)) with (sDs s).
           replace (Conn (patch m' d inb ++ chunk') CLoop) with (pconn d (Conn (inb ++ chunk) CLoop)) by (unfold pconn; cbn [cIn cSt]; now rewrite patch_app).
           now rewrite repl_set.
        -- constructor; [|constructor]. right. exists chunk, chunk'. split; [reflexivity|]. split; [reflexivity|]. unfold chunk'. now rewrite patch_len.
      * apply matched_same; [reflexivity|cbn; destruct (Nat.eqb_spec c c0); [congruence|reflexivity]|now apply inl_set_ne|].
        unfold step. cbn [sCrash repl]. rewrite Hcr, repl_conn, Ek. cbn [fmap option_fmap option_map]. unfold pc. destruct (decide (c0 = c)); [contradiction|].
        rewrite Ec. change (sDs (repl d s)) with (sDs s). now rewrite repl_set_ne.
    + apply idle_matched; [reflexivity|reflexivity|]. unfold step. cbn [sCrash repl]. rewrite Hcr, repl_conn, Ek. cbn [fmap option_fmap option_map].
      pose proof (pc_st d c0 (Conn inb CRead)) as Es.
      destruct (pc d c0 (Conn inb CRead)) as [inb' st'] eqn:Ep. cbn [cSt] in Es. subst st'. now rewrite Ec.
  - unfold step in H. rewrite Hcr in H.
    destruct (sConns s !! c0) as [[inb st]|] eqn:Ek.
    2: { injection H as <- <-. apply idle_matched; [reflexivity|reflexivity|]. unfold step. cbn [sCrash repl]. now rewrite Hcr, repl_conn, Ek. }
    pose proof (pc_st d c0 (Conn inb st)) as Es. cbn [cSt] in Es.
    assert (St2 : sConns (repl d s) !! c0 = Some (Conn (cIn (pc d c0 (Conn inb st))) st)).
    { rewrite repl_conn, Ek. cbn [fmap option_fmap option_map]. f_equal. rewrite <- Es at 3. now destruct (pc d c0 (Conn inb st)). }
    destruct st; try (injection H as <- <-); try discriminate;
      first [apply idle_matched; [reflexivity|reflexivity|] | eapply (conn_matched d s _ c0 (Conn inb _)); [exact Ek|reflexivity|reflexivity|]];
      unfold step; change (sCrash (repl d s)) with (sCrash s); rewrite Hcr, St2; reflexivity.
  - unfold step in H. rewrite Hcr in H.
    destruct (sConns s !! c0) as [[inb st]|] eqn:Ek.
    2: { injection H as <- <-. apply idle_matched; [reflexivity|reflexivity|]. unfold step. cbn [sCrash repl]. now rewrite Hcr, repl_conn, Ek. }
    pose proof (pc_st d c0 (Conn inb st)) as Es. cbn [cSt] in Es.
    assert (St2 : sConns (repl d s) !! c0 = Some (Conn (cIn (pc d c0 (Conn inb st))) st)).
    { rewrite repl_conn, Ek. cbn [fmap option_fmap option_map]. f_equal. rewrite <- Es at 3. now destruct (pc d c0 (Conn inb st)). }
    destruct st; try (injection H as <- <-); try discriminate;
      first [apply idle_matched; [reflexivity|reflexivity|] | eapply (conn_matched d s _ c0 (Conn inb _)); [exact Ek|reflexivity|reflexivity|]];
      unfold step; change (sCrash (repl d s)) with (sCrash s); rewrite Hcr, St2; reflexivity.
  - unfold step in H. rewrite Hcr in H.
    destruct (sConns s !! c0) as [[inb st]|] eqn:Ek.
    2: { injection H as <- <-. apply idle_matched; [reflexivity|reflexivity|]. unfold step. cbn [sCrash repl]. now rewrite Hcr, repl_conn, Ek. }
    pose proof (pc_st d c0 (Conn inb st)) as Es. cbn [cSt] in Es.
    assert (St2 : sConns (repl d s) !! c0 = Some (Conn (cIn (pc d c0 (Conn inb st))) st)).
    { rewrite repl_conn, Ek. cbn [fmap option_fmap option_map]. f_equal. rewrite <- Es at 3. now destruct (pc d c0 (Conn inb st)). }
    destruct st; try (injection H as <- <-); try discriminate;
      first [apply idle_matched; [reflexivity|reflexivity|] | eapply (conn_matched d s _ c0 (Conn inb _)); [exact Ek|reflexivity|reflexivity|]];
      unfold step; change (sCrash (repl d s)) with (sCrash s); rewrite Hcr, St2; reflexivity.
  - unfold step in H. rewrite Hcr in H.
    destruct (sConns s !! c0) as [[inb st]|] eqn:Ek.
    2: { injection H as <- <-. apply idle_matched; [reflexivity|reflexivity|]. unfold step. cbn [sCrash repl]. now rewrite Hcr, repl_conn, Ek. }
    pose proof (pc_st d c0 (Conn inb st)) as Es. cbn [cSt] in Es.
    assert (St2 : sConns (repl d s) !! c0 = Some (Conn (cIn (pc d c0 (Conn inb st))) st)).
    { rewrite repl_conn, Ek. cbn [fmap option_fmap option_map]. f_equal. rewrite <- Es at 3. now destruct (pc d c0 (Conn inb st)). }
    destruct st; try destruct gone; try (injection H as <- <-); try discriminate;
      first [apply idle_matched; [reflexivity|reflexivity|] | eapply (conn_matched d s _ c0 (Conn inb _)); [exact Ek|reflexivity|reflexivity|]];
      unfold step; change (sCrash (repl d s)) with (sCrash s); rewrite Hcr, St2; reflexivity.
  - unfold step in H. rewrite Hcr in H. injection H as <- <-. apply matched_same; [reflexivity|reflexivity|reflexivity|]. unfold step; cbn [sCrash repl]; rewrite Hcr. reflexivity.
  - unfold step in H. rewrite Hcr in H. injection H as <- <-. apply matched_same; [reflexivity|reflexivity|reflexivity|]. unfold step; cbn [sCrash repl]; rewrite Hcr. reflexivity.
  - unfold step in H. rewrite Hcr in H. injection H as <- <-. apply matched_same; [reflexivity|reflexivity|reflexivity|]. unfold step; cbn [sCrash repl]; rewrite Hcr. reflexivity.
  - unfold step in H. rewrite Hcr in H. destruct (forallb closed (sConns s)) eqn:E; injection H as <- <-;
      (apply matched_same; [reflexivity|reflexivity|reflexivity|]); unfold step; rewrite repl_closed; cbn [sCrash repl]; rewrite Hcr, E; reflexivity.
Qed.

Lemma run_match d evs : forall s s1 A, 4 <= d -> conns_bytes s -> run s evs = (s1, A) -> sCrash s1 = false ->
  exists evs' A', run (repl (flen A + d) s) evs' = (repl d s1, A') /\ same_but_read c A A' /\
    reads c A' = patch m' (flen A + d - inl s) (reads c A) /\ frames c A' = frames c A.
Proof.
  induction evs as [|ev evs IH]; intros s s1 A Hd Hb H Hc; cbn [run] in H.
  - injection H as <- <-. exists [], []. change (flen []) with 0. replace (0 + d) with d by lia. repeat split. constructor.
  - destruct (step s ev) as [s2 o1] eqn:E1. destruct (run s2 evs) as [s3 o2] eqn:E2. injection H as <- <-.
    destruct (IH s2 s3 o2 Hd ltac:(eapply step_bytes; eauto) E2 Hc) as (evs' & A' & R' & S' & P' & F').
    assert (Hc2 : sCrash s2 = false).
    { destruct (sCrash s2) eqn:E; [|reflexivity]. rewrite (run_crashed s2 evs E) in E2. injection E2 as <- <-. congruence. }
    pose proof (flen_nonneg o2).
    destruct (step_match (flen o2 + d) s ev s2 o1 ltac:(lia) Hb E1 Hc2) as (L & ev' & o' & St & Ss & P & F).
    exists (ev' :: evs'), (o' ++ A'). rewrite flen_app. replace (flen o1 + flen o2 + d) with (flen o1 + (flen o2 + d)) by lia.
    cbn [run]. rewrite St, R'. split; [reflexivity|]. split; [now apply Forall2_app|]. rewrite !reads_app, !frames_app, F, F', P, P'.
    split; [|reflexivity]. rewrite patch_app. replace (flen o2 + d - inl s2) with (flen o1 + (flen o2 + d) - inl s - zlen (reads c o1)) by lia. reflexivity.
Qed.
End sim.

Lemma set_repl m' c d s k ds : set_conn (repl m' c d s) c k ds = set_conn s c k ds.
Proof.
  unfold repl, set_conn. cbn. f_equal. apply list_eq. intros i. destruct (decide (i = c)) as [->|Hi].
  - destruct (decide (c < length (sConns s))%nat) as [L|L].
    + rewrite !list_lookup_insert by (rewrite ?alter_length; assumption). reflexivity.
    + rewrite !lookup_ge_None_2; [reflexivity| |]; rewrite ?insert_length, ?alter_length; lia.
  - rewrite list_lookup_insert_ne, list_lookup_alter_ne, list_lookup_insert_ne by congruence. reflexivity.
Qed.
Lemma reworded_bytes : forall sh b b', reworded sh b b' -> all_bytes b = true -> all_bytes b' = true.
Proof.
  fix IH 4. intros sh b b' H Hb. destruct H as [n b Hn|n k Hn Hneg Hk|s Hs|e bs bs' Hl HF|fs bs bs' HF].
  - assumption.
  - apply w_be_bytes.
  - assumption.
  - rewrite all_bytes_app in *. apply andb_true_iff in Hb as [H1 H2]. rewrite H1. cbn [andb]. clear H1 Hl. revert H2.
    induction HF as [|x y l l' Hx HF IHF]; intros H2; [reflexivity|]. cbn [concat] in *. rewrite all_bytes_app in *.
    apply andb_true_iff in H2 as [H1 H2]. rewrite (IH _ _ _ Hx H1). now apply IHF.
  - revert Hb. induction HF as [|f x y fs l l' Hx HF IHF]; intros H2; [reflexivity|]. cbn [concat] in *. rewrite all_bytes_app in *.
    apply andb_true_iff in H2 as [H1 H2]. rewrite (IH _ _ _ Hx H1). now apply IHF.
Qed.

(** Another message of the same length that starts the same handler. *)
Theorem serving_instead port ch A c m s m' : serving port ch A c m s -> sCrash s = false ->
  all_bytes m' = true -> zlen m' = zlen m -> beginRequest port m = beginRequest port m' ->
  exists A' pre post, same_but_read c A A' /\ reads c A = pre ++ m ++ post /\ reads c A' = pre ++ m' ++ post /\
    frames c A' = frames c A /\ serving port ch A' c m' s.
Proof.
  intros (evs & s0 & ev & o & Hr & Hs) Hc Hm Hz Hb.
  assert (Hby : conns_bytes s0) by (eapply run_bytes; [|exact Hr]; intros d k Hd; discriminate).
  destruct (step_frame _ _ _ _ c Hs) as (inb & msg & rest & ch' & -> & Hc0 & Hk & Hg & Hcase); [cbn; now rewrite Nat.eqb_refl|].
  destruct Hcase as [(corr & extra & tk & Hbeg & Ho & Es)|(_ & _ & ->)]; [|discriminate].
  injection Ho as <- ->. pose proof (getMessage_frame _ _ _ (Hby _ _ Hk) Hg) as [Ein Hlen]. cbn [cIn] in Ein. 
  assert (Hp : sPort s0 = port).
  { exact (i_port _ _ _ _ (run_inv _ _ _ _ _ _ _ (init_inv port ch) Hr)). }
  destruct (run_match m' c Hm 4 evs (init port ch) s0 A ltac:(lia)) as (evs' & A' & R' & S' & P' & F'); try assumption.
  { intros d k Hd. discriminate. }
  pose proof (intake_run c evs (init port ch) [] s0 A ltac:(split; [exists []; split; [reflexivity|constructor]|]; intros _; split; reflexivity) Hr) as [_ Hi].
  specialize (Hi Hc0). rewrite Hk in Hi. destruct Hi as [[Hi _] _]. cbn [cIn app] in Hi.
  assert (H4 : forall x, zlen (w_int32 x) = 4) by (intros; unfold w_int32; now rewrite zlen_w_be).
  assert (Pf : patch m' 4 (w_frame m ++ rest) = w_frame m' ++ rest).
  { unfold w_frame. rewrite patch_app, zlen_app, H4. rewrite patch_app, (patch_before m' 4) by (rewrite H4; lia). rewrite H4.
    rewrite Z.sub_diag, patch_over by congruence. rewrite patch_after by lia. now rewrite Hz. }
  exists A', (concat (map w_frame (frames c A)) ++ w_int32 (zlen m)), rest. split; [exact S'|]. subst inb.
  split; [rewrite Hi; unfold w_frame at 2; now rewrite <- !app_assoc|]. split; [|split; [exact F'|]].
  - rewrite P', Hi. change (inl c (init port ch)) with 0. rewrite patch_app, patch_before by (unfold flen; lia).
    rewrite <- app_assoc. f_equal. replace (flen c A + 4 - 0 - zlen (concat (map w_frame (frames c A)))) with 4 by (unfold flen; lia).
    rewrite Pf. unfold w_frame. rewrite <- app_assoc. now rewrite Hz.
  - exists evs', (repl m' c 4 s0), (EvConn c ch'), []. split; [exact R'|].
    unfold step. change (sCrash (repl m' c 4 s0)) with (sCrash s0). rewrite Hc0.
    rewrite repl_at. destruct (decide (c = c)); [|contradiction]. rewrite Hk. cbn [fmap option_fmap option_map]. unfold conn_step, pconn. cbn [cSt cIn].
    rewrite Pf, getMessage_found by lia. change (sPort (repl m' c 4 s0)) with (sPort s0). rewrite Hp in *. rewrite <- Hb, Hbeg.
    change (sDs (repl m' c 4 s0)) with (sDs s0). rewrite set_repl. now rewrite Es.
Qed.

Theorem odd_as_plain port ch A c m s key ver corr h b extra :
  serving port ch A c m s -> sCrash s = false -> is_request m key ver corr h b extra ->
  exists sh client hc body A' pre post, let m' := w_request key ver corr client (body ++ extra) in
    layout key ver = Some sh /\ h = w_int16 key ++ w_int16 ver ++ w_int32 corr ++ hc /\
    reworded SStr hc (w_nstring client) /\ reworded sh b body /\
    l_header key ver corr client = true /\ plain_body key body /\ zlen body <= 4096 /\
    same_but_read c A A' /\ reads c A = pre ++ m ++ post /\ reads c A' = pre ++ m' ++ post /\ frames c A' = frames c A /\
    serving port ch A' c m' s.
Proof.
  intros Hs Hc Hreq. pose proof (serving_bytes _ _ _ _ _ _ Hs) as Hb.
  destruct (request_plain _ _ _ _ _ _ _ Hreq Hb) as (sh & client & hc & body & Hl & Eh & Rh & Rb & Lh & Pb & Zb & Zm & Hbeg).
  destruct Hreq as (-> & _). subst h. rewrite !all_bytes_app, !andb_true_iff in Hb. destruct Hb as ((B1 & B2 & B3 & B4) & B5 & B6).
  assert (Hm' : all_bytes (w_request key ver corr client (body ++ extra)) = true).
  { unfold w_request. rewrite !all_bytes_app, B1, B2, B3, B6. rewrite (reworded_bytes _ _ _ Rh B4), (reworded_bytes _ _ _ Rb B5). reflexivity. }
  destruct (serving_instead _ _ _ _ _ _ _ Hs Hc Hm' Zm (Hbeg port)) as (A' & pre & post & S1 & S2 & S3 & S4 & S5).
  exists sh, client, hc, body, A', pre, post. cbn zeta. repeat (split; [assumption || reflexivity|]). assumption.
Qed.
