(** * HugeProofs: frames whose size field holds one of the last four numbers;
    records whose size does not fit an int32 *)
From Verif Require Export StreamProofs CodecMore.
From stdpp Require Import gmap list.
Open Scope Z_scope.
Open Scope list_scope.

Lemma frame_size m rest : zlen m < 2 ^ 32 ->
  zlen (w_frame m ++ rest) = 4 + zlen m + zlen rest /\ be_get (firstn 4 (w_frame m ++ rest)) = zlen m.
Proof.
  intros Hz. pose proof (zlen_nonneg m) as Hn. unfold w_frame. set (h := w_int32 (zlen m)).
  assert (Hl : length h = 4%nat) by apply w_be_length. split.
  - rewrite !zlen_app. unfold zlen at 1. rewrite Hl. lia.
  - assert (E : firstn 4 ((h ++ m) ++ rest) = h).
    { rewrite <- app_assoc. rewrite <- Hl at 1. apply firstn_app_exact. reflexivity. }
    rewrite E. unfold h, w_int32. rewrite be_get_w. apply Z.mod_small. change (256 ^ Z.of_nat 4) with (2 ^ 32). lia.
Qed.
Lemma getMessage_huge m rest : 2 ^ 32 - 4 <= zlen m < 2 ^ 32 -> getMessage (w_frame m ++ rest) = GPanic.
Proof.
  intros Hz. pose proof (zlen_nonneg rest) as Hn2. destruct (frame_size m rest) as [L G]; [lia|].
  unfold getMessage. rewrite G, L.
  replace (4 + zlen m + zlen rest <? 4) with false by lia.
  replace (4 + zlen m + zlen rest <? zlen m + 4) with false by lia.
  unfold uwrap. replace (4 + zlen m) with (zlen m + 4 - 2 ^ 32 + 1 * 2 ^ 32) by lia.
  rewrite Z_mod_plus_full, Z.mod_small by lia. now replace (zlen m + 4 - 2 ^ 32 <? 4) with true by lia.
Qed.

(** A connection that waits for bytes, or has ended, has no complete frame. *)
Definition no_more (s : sys) : Prop := forall c k, sConns s !! c = Some k ->
  cSt k = CRead \/ cSt k = CClosed -> getMessage (cIn k) = GNone.
Lemma no_more_set s c k ds : no_more s -> (cSt k = CRead \/ cSt k = CClosed -> getMessage (cIn k) = GNone) ->
  no_more (set_conn s c k ds).
Proof.
  intros H Hk d k'. cbn. destruct (decide (c = d)) as [->|Hne].
  - destruct (decide (d < length (sConns s))%nat) as [Hlt|Hge].
    + rewrite list_lookup_insert by assumption. intros [= <-]. exact Hk.
    + rewrite list_insert_ge by lia. apply H.
  - rewrite list_lookup_insert_ne by assumption. apply H.
Qed.
Lemma no_more_step s ev : no_more s -> no_more (fst (step s ev)).
Proof.
  intros H. unfold step. destruct (sCrash s); [assumption|].
  assert (No : forall st, (st = CLoop \/ (exists a b t, st = CBusy a b t) \/ exists l, st = CSend l) -> forall inb : bytes,
    st = CRead \/ st = CClosed -> getMessage inb = GNone).
  { intros st [->|[(a & b & t & ->)|[l ->]]] inb [E|E]; discriminate. }
  destruct ev as [cl|j| |d chh|d chunk|d|d|d|d gone|d|w| |].
  - destruct (call_ok cl); exact H.
  - destruct (sThreads s !! j) as [a|]; [|exact H]. destruct (astep j (sWall s) (sDs s) a) as [[ds a'] o]. exact H.
  - destruct (sCancel s); [exact H|]. intros c k. cbn. intros E. apply lookup_app_Some in E as [E|[_ E]]; [eauto|].
    apply list_lookup_singleton_Some in E as [_ <-]. intros [E|E]; discriminate.
  - destruct (sConns s !! d) as [k|] eqn:Ek; [|exact H]. unfold conn_step.
    destruct (cSt k) as [| |corr extra tk|[|b bs]|] eqn:Es; try exact H.
    + destruct (getMessage (cIn k)) as [|msg rest|] eqn:Eg.
      * destruct (sCancel s); apply no_more_set; auto.
      * destruct (beginRequest (sPort s) msg) as [[[? ?] ?]|]; [|exact H]. apply no_more_set; [assumption|]. apply No. eauto 6.
      * exact H.
    + assert (T : no_more (fst match tstep d (env_of s) chh (sDs s) tk with
        | TCont ds tk' os => (set_conn s d (Conn (cIn k) (CBusy corr extra tk')) ds, os)
        | TPanic => (crash s, [OCrash d]) end)).
      { destruct (tstep d (env_of s) chh (sDs s) tk); [|exact H]. apply no_more_set; [assumption|]. apply No. eauto 6. }
      destruct tk; try exact T. destruct (finishRequest corr extra t v); [|exact H]. apply no_more_set; [assumption|]. apply No. eauto 6.
    + apply no_more_set; [assumption|]. apply No. auto.
    + apply no_more_set; [assumption|]. apply No. destruct bs; eauto.
  - destruct (sConns s !! d) as [[inb []]|]; try exact H. destruct (_ && _); [|exact H]. apply no_more_set; [assumption|]. apply No. auto.
  - destruct (sConns s !! d) as [[inb []]|]; try exact H. apply no_more_set; [assumption|]. apply No. auto.
  - destruct (sConns s !! d) as [[inb []]|] eqn:E; try exact H. apply no_more_set; [assumption|]. intros _. apply (H _ _ E). auto.
  - destruct (sConns s !! d) as [[inb []]|]; exact H.
  - destruct (sConns s !! d) as [[inb []]|]; try exact H. destruct gone; [|exact H]. apply no_more_set; [assumption|]. apply No. auto.
  - exact H.
  - exact H.
  - exact H.
  - destruct (forallb closed (sConns s)); exact H.
Qed.
Lemma no_more_run evs : forall s s' o, no_more s -> run s evs = (s', o) -> no_more s'.
Proof.
  induction evs as [|ev evs IH]; intros s s' o H E; cbn in E; [now injection E as <- _|].
  pose proof (no_more_step s ev H) as H1. destruct (step s ev) as [s1 o1]. destruct (run s1 evs) as [s2 o2] eqn:E2.
  injection E as <- _. eapply IH; eauto.
Qed.

Theorem huge_frame c port ch evs s os m rest : run (init port ch) evs = (s, os) -> sends_ok c evs ->
  crashed os = false -> wcount c os = (3 * length (frames c os))%nat ->
  2 ^ 32 - 4 <= zlen m < 2 ^ 32 -> reads c os = concat (map w_frame (frames c os)) ++ w_frame m ++ rest ->
  forall ch', exists s', step s (EvConn c ch') = (s', [OCrash c]) /\ sCrash s' = true.
Proof.
  intros H Hok Hc Hn Hz Hr ch'. pose proof (init_run_inv _ _ _ _ _ H) as Hinv.
  assert (Hnm : no_more s) by (eapply no_more_run, H; intros d k E; destruct d; discriminate E).
  apply (flow_reach c) in H as (_ & _ & Hs); [|assumption].
  assert (Hcr : sCrash s = false) by (rewrite (i_crash _ _ _ _ Hinv); exact Hc).
  specialize (Hs Hcr). destruct (sConns s !! c) as [k|] eqn:Hk.
  2: { exfalso. destruct Hs as (E1 & E2 & _). rewrite E1, E2 in Hr. change (concat (map w_frame []) ++ w_frame m ++ rest) with (w_frame m ++ rest) in Hr.
       assert (L : zlen (w_frame m ++ rest) = 0) by (rewrite <- Hr; reflexivity).
       destruct (frame_size m rest) as [L' _]; [lia|]. pose proof (zlen_nonneg m). pose proof (zlen_nonneg rest). lia. }
  pose proof (Hnm c k Hk) as Hno. destruct Hs as ((Er & _) & _ & Hs). rewrite Hr in Er. apply app_inv_head in Er.
  rewrite <- Er, getMessage_huge in Hno by assumption.
  exists (crash s). split; [|reflexivity]. unfold step. rewrite Hcr, Hk. unfold conn_step.
  destruct (cSt k) as [| |corr extra tk|chunks|].
  - now rewrite <- Er, getMessage_huge by assumption.
  - exfalso. now assert (GPanic = GNone) by auto.
  - exfalso. destruct Hs as (ms & m' & rs & Hf & _ & _ & _ & Hw). rewrite Hf, app_length in Hn. clear - Hn Hw. cbn [length] in Hn. lia.
  - exfalso. destruct Hs as (ms & m' & rs & part & Hf & _ & _ & _ & Hne & Hl & Hw). rewrite Hf, app_length in Hn.
    destruct chunks; [congruence|]. clear - Hn Hl Hw. cbn [length] in *. lia.
  - exfalso. now assert (GPanic = GNone) by auto.
Qed.

(** ** Such a frame can be received *)
Definition one_by_one (c : nat) (b : bytes) : list event := flat_map (fun x => [EvConn c (Ch [] []); EvRecv c [x]]) b.
Definition waiting_for (b : bytes) : Prop := forall x y, b = x ++ y -> y <> [] -> getMessage x = GNone.
Lemma received port ch b : all_bytes b = true -> waiting_for b ->
  exists s, run (init port ch) (EvAccept :: one_by_one 0 b) = (s, map (fun x => ORead 0 [x]) b) /\
    sConns s = [Conn b CLoop] /\ sCrash s = false /\ sCancel s = false.
Proof.
  induction b as [|z b IH] using rev_ind; intros Hb Hw.
  - eexists. split; [reflexivity|]. auto.
  - rewrite all_bytes_app in Hb. apply andb_true_iff in Hb as [Hb Hz]. destruct IH as (s & Hs & Hk & Hcr & Hca).
    { assumption. }
    { intros x y E Hy. apply (Hw x (y ++ [z])); [now rewrite E, app_assoc|]. destruct y; discriminate. }
    change (EvAccept :: one_by_one 0 (b ++ [z])) with ([EvAccept] ++ flat_map (fun x => [EvConn 0 (Ch [] []); EvRecv 0 [x]]) (b ++ [z])).
    rewrite flat_map_app, app_assoc. change ([EvAccept] ++ flat_map _ b) with (EvAccept :: one_by_one 0 b).
    rewrite run_app, Hs, map_app. cbn [fst snd].
    assert (G : getMessage b = GNone) by (apply (Hw b [z]); [reflexivity|discriminate]).
    set (s1 := set_conn s 0 (Conn b CRead) (sDs s)).
    assert (E1 : step s (EvConn 0 (Ch [] [])) = (s1, [])).
    { unfold step. rewrite Hcr, Hk. cbn [lookup list_lookup]. unfold conn_step. cbn [cSt cIn]. now rewrite G, Hca. }
    assert (E2 : step s1 (EvRecv 0 [z]) = (set_conn s1 0 (Conn (b ++ [z]) CLoop) (sDs s1), [ORead 0 [z]])).
    { unfold step. change (sCrash s1) with (sCrash s). rewrite Hcr. unfold s1 at 1. cbn [sConns set_conn]. rewrite Hk.
      cbn [insert list_insert lookup list_lookup]. change (0 <? zlen [z]) with true. change (zlen [z] <=? 8192) with true. now rewrite Hz. }
    cbn [flat_map app run]. rewrite E1, E2. cbn [app]. eexists. split; [reflexivity|].
    cbn. rewrite Hk. auto.
Qed.
Lemma frame_waits m : zlen m < 2 ^ 32 -> waiting_for (w_frame m).
Proof.
  intros Hz x y E Hy. unfold getMessage. destruct (zlen x <? 4) eqn:E4; [reflexivity|].
  destruct (frame_size m []) as [L G]; [assumption|]. rewrite app_nil_r, E in L, G.
  assert (Ey : 0 < zlen y) by (destruct y; [congruence|]; unfold zlen; cbn [length]; lia).
  assert (F : firstn 4 (x ++ y) = firstn 4 x).
  { rewrite firstn_app. replace (4 - length x)%nat with 0%nat by (unfold zlen in *; lia). apply app_nil_r. }
  rewrite F in G. rewrite G. rewrite zlen_app in L. change (zlen []) with 0 in L. now replace (zlen x <? zlen m + 4) with true by lia.
Qed.
Lemma reads_singles b : reads 0 (map (fun x => ORead 0 [x]) b) = b.
Proof. unfold reads. induction b as [|x b IH]; [reflexivity|]. cbn. f_equal. exact IH. Qed.
Lemma frames_singles b : frames 0 (map (fun x => ORead 0 [x]) b) = [].
Proof. unfold frames. induction b as [|x b IH]; [reflexivity|]. cbn. exact IH. Qed.
Lemma wcount_singles b : wcount 0 (map (fun x => ORead 0 [x]) b) = 0%nat.
Proof. unfold wcount. induction b as [|x b IH]; [reflexivity|]. cbn. exact IH. Qed.
Lemma crashed_singles b : crashed (map (fun x => ORead 0 [x]) b) = false.
Proof. unfold crashed. induction b as [|x b IH]; [reflexivity|]. cbn. exact IH. Qed.
Theorem huge_possible port ch m : all_bytes m = true -> zlen m < 2 ^ 32 ->
  exists evs s os, run (init port ch) evs = (s, os) /\ sends_ok 0 evs /\ crashed os = false /\
    wcount 0 os = (3 * length (frames 0 os))%nat /\ reads 0 os = concat (map w_frame (frames 0 os)) ++ w_frame m ++ [].
Proof.
  intros Hb Hz. assert (Hf : all_bytes (w_frame m) = true) by (unfold w_frame, w_int32; now rewrite all_bytes_app, w_be_bytes, Hb).
  destruct (received port ch (w_frame m) Hf (frame_waits m Hz)) as (s & Hs & _).
  exists (EvAccept :: one_by_one 0 (w_frame m)), s, (map (fun x => ORead 0 [x]) (w_frame m)).
  split; [exact Hs|]. split.
  { intros g [E|E]; [discriminate E|]. unfold one_by_one in E. apply in_flat_map in E as (x & _ & [E|[E|[]]]); discriminate E. }
  rewrite crashed_singles, wcount_singles, frames_singles, reads_singles, app_nil_r. auto.
Qed.
Lemma huge_exists : exists m, all_bytes m = true /\ 2 ^ 32 - 4 <= zlen m < 2 ^ 32.
Proof.
  assert (G : forall n, 0 <= n -> exists m, all_bytes m = true /\ zlen m = n).
  { intros n Hn. exists (repeat 0 (Z.to_nat n)). split.
    - unfold all_bytes. generalize (Z.to_nat n). induction n0 as [|k IH]; [reflexivity|]. cbn. exact IH.
    - unfold zlen. rewrite repeat_length. lia. }
  destruct (G (2 ^ 32 - 4)) as (m & H1 & H2); [lia|]. exists m. split; [exact H1|]. rewrite H2. lia.
Qed.

(** ** Records of 2 GiB and more *)
Theorem huge_record ms r max : obytes (rKey r) = true -> obytes (rVal r) = true ->
  2 ^ 31 <= rec_size r < 2 ^ 32 -> msTotal ms <= max ->
  exists ms' m b, appendMessage ms r max = Some ms' /\ msMsgs ms' = msMsgs ms ++ [m] /\
    msTotal ms' = msTotal ms + rec_size r - 2 ^ 32 /\ encodeObject tMessageV1 (message_val m) = Some b /\ zlen b = rec_size r.
Proof.
  intros Hk Hv Hr Hm.
  assert (E : swrap 32 (34 + olen (rKey r) + olen (rVal r)) = rec_size r - 2 ^ 32).
  { change (34 + olen (rKey r) + olen (rVal r)) with (rec_size r). unfold swrap. change (2 ^ (32 - 1)) with (2 ^ 31).
    replace (rec_size r + 2 ^ 31) with (rec_size r + 2 ^ 31 - 2 ^ 32 + 1 * 2 ^ 32) by lia. rewrite Z_mod_plus_full, Z.mod_small by lia. lia. }
  destruct (appendMessage ms r max) as [ms'|] eqn:Ea.
  - destruct (message_layout ms r max ms' Hk Hv Ea) as (m & b & H1 & H2 & _ & H3 & _). exists ms', m, b. split; [reflexivity|]. split; [exact H1|].
    split; [|split; [exact H2|exact H3]]. unfold appendMessage in Ea. rewrite E in Ea. destruct (_ <? _); [discriminate|]. injection Ea as <-. cbn. lia.
  - exfalso. unfold appendMessage in Ea. rewrite E in Ea. replace (max <? msTotal ms + (rec_size r - 2 ^ 32)) with false in Ea by lia. discriminate.
Qed.
Lemma huge_record_exists : exists r, obytes (rKey r) = true /\ obytes (rVal r) = true /\ 2 ^ 31 <= rec_size r < 2 ^ 32.
Proof.
  assert (G : forall n, 0 <= n -> exists r, obytes (rKey r) = true /\ obytes (rVal r) = true /\ rec_size r = 34 + n).
  { intros n Hn. exists (Rec 0 0 None (Some (repeat 0 (Z.to_nat n))) []). cbn [rKey rVal obytes]. split; [reflexivity|]. split.
    - unfold all_bytes. generalize (Z.to_nat n). induction n0 as [|k IH]; [reflexivity|]. cbn. exact IH.
    - unfold rec_size. cbn [rKey rVal blen]. unfold zlen. rewrite repeat_length. lia. }
  destruct (G (2 ^ 31)) as (r & H1 & H2 & H3); [lia|]. exists r. rewrite H3. split; [exact H1|]. split; [exact H2|]. lia.
Qed.
