(** * HeaderProofs: headers have no influence on anything a client sees *)
From Verif Require Export HeaderSpec ServerProofs.
From stdpp Require Import pmap gmap list.
Open Scope Z_scope.
Open Scope list_scope.

(** ** Order of map_to_list *)
Lemma Pto_list_fmap {A B} (f : A -> B) t : forall j acc,
  Pto_list_raw j (Pfmap_raw f t) (map (fun q => (fst q, f (snd q))) acc) =
  map (fun q => (fst q, f (snd q))) (Pto_list_raw j t acc).
Proof.
  induction t as [|o l IHl r IHr]; intros j acc; [reflexivity|]. cbn. rewrite IHr, IHl, map_app. f_equal. now destruct o.
Qed.
Lemma map_to_list_order `{Countable K} {A B} (f : A -> B) (m : gmap K A) :
  map_to_list (f <$> m) = map (fun q => (fst q, f (snd q))) (map_to_list m).
Proof.
  destruct m as [[t Ht] Hm]. pose proof (Pto_list_fmap f t 1 []) as E. cbn in E.
  unfold map_to_list. cbn. unfold map_to_list. cbn.
  change (@fmap Pmap_raw (@Pfmap_raw) A B f t) with (Pfmap_raw f t). rewrite E.
  generalize (Pto_list_raw 1 t []) as l.
  induction l as [|[i x] l IH]; [reflexivity|]. cbn. destruct (decode i); cbn; [f_equal|]; exact IH.
Qed.
Lemma pick_map {A B} (f : A -> B) n : forall l, pick n (map f l) = option_map (fun q => (f (fst q), map f (snd q))) (pick n l).
Proof. induction n as [|n IH]; intros [|x l]; try reflexivity. cbn. rewrite IH. now destruct (pick n l) as [[? ?]|]. Qed.
Lemma shuffle_map {A B} (f : A -> B) ch l : shuffle ch (map f l) = map f (shuffle ch l).
Proof.
  unfold shuffle. rewrite map_length. generalize (length l) as n. intros n. revert ch l.
  induction n as [|n IH]; intros ch l; [reflexivity|]. cbn. rewrite pick_map. destruct (pick (hd 0%nat ch) l) as [[x r]|]; [|reflexivity].
  cbn. now rewrite IH.
Qed.

(** ** Removing headers *)
Definition nh_rec (r : krecord) : krecord := Rec (rAttr r) (rTs r) (rKey r) (rVal r) [].
Definition nh_part (kp : kpart) : kpart := Part (pIndex kp) (pError kp) (map nh_rec (pRecs kp)) (pOffs kp) (pMeta kp).
Definition nh_topic (kt : ktopic) : ktopic := nh_part <$> kt.
Definition nh_store (ds : store) : store := nh_topic <$> ds.
Definition nh_obs (o : obs) : obs := match o with OPosted i t p r => OPosted i t p (nh_rec r) | _ => o end.
Definition nh_call (c : call) : call := match c with CallPost t p k v h ts => CallPost t p k v [] ts | _ => c end.
Definition nh_event (e : event) : event := match e with EvCall c => EvCall (nh_call c) | _ => e end.
Definition nh_thread (a : athread) : athread :=
  match a with
  | APostTopic t p k v h ts => APostTopic t p k v [] ts
  | APostPart t p k v h ts => APostPart t p k v [] ts
  | APostNow t p k v h ts => APostNow t p k v [] ts
  | APostRec t p r => APostRec t p (nh_rec r)
  | _ => a
  end.
Definition nh_sys (s : sys) : sys :=
  Sys (nh_store (sDs s)) (sConns s) (map nh_thread (sThreads s)) (sMono s) (sWall s) (sCancel s) (sCrash s) (sPort s) (sVers s).

Lemma nh_get ds t : nh_store ds !! t = nh_topic <$> ds !! t.
Proof. apply lookup_fmap. Qed.
Lemma nh_getTopic ds t : getTopic (nh_store ds) t = getTopic ds t.
Proof. unfold getTopic. rewrite nh_get. now destruct (ds !! t). Qed.
Lemma nh_lookupPart ds t p : lookupPart (nh_store ds) t p = option_map nh_part (lookupPart ds t p).
Proof. unfold lookupPart. rewrite nh_get. destruct (ds !! t) as [kt|]; [|reflexivity]. cbn. unfold nh_topic. rewrite lookup_fmap. now destruct (kt !! p). Qed.
Lemma nh_hasPart ds t p : hasPart (nh_store ds) t p = hasPart ds t p.
Proof. unfold hasPart. rewrite nh_lookupPart. now destruct (lookupPart ds t p). Qed.
Lemma nh_createTopic ds t : createTopic (nh_store ds) t = nh_store (createTopic ds t).
Proof.
  unfold createTopic. rewrite nh_get. destruct (ds !! t); [reflexivity|]. cbn. unfold nh_store. rewrite fmap_insert. f_equal.
  unfold nh_topic. now rewrite fmap_empty.
Qed.
Lemma nh_createPartition ds t p : createPartition (nh_store ds) t p = nh_store (createPartition ds t p).
Proof.
  unfold createPartition. rewrite nh_get. destruct (ds !! t) as [kt|]; [|reflexivity]. cbn.
  unfold nh_topic at 1. rewrite lookup_fmap. destruct (kt !! p); [reflexivity|]. cbn. unfold nh_store. rewrite fmap_insert. f_equal.
  unfold nh_topic. now rewrite fmap_insert.
Qed.
Lemma nh_updPart ds t p f f' : (forall kp, f' (nh_part kp) = nh_part (f kp)) -> updPart (nh_store ds) t p f' = nh_store (updPart ds t p f).
Proof.
  intros H. unfold updPart. rewrite nh_get. destruct (ds !! t) as [kt|]; [|reflexivity]. cbn.
  unfold nh_topic at 1. rewrite lookup_fmap. destruct (kt !! p) as [kp|]; [|reflexivity]. cbn. rewrite H. unfold nh_store. rewrite fmap_insert. f_equal.
  unfold nh_topic. now rewrite fmap_insert.
Qed.
Lemma nh_postRecord ds t p r : postRecord (nh_store ds) t p (nh_rec r) = nh_store (postRecord ds t p r).
Proof. apply nh_updPart. intros kp. unfold nh_part. cbn. now rewrite map_app. Qed.
Lemma nh_setOffset ds t p g o : setOffset (nh_store ds) t p g o = nh_store (setOffset ds t p g o).
Proof. apply nh_updPart. reflexivity. Qed.
Lemma nh_touchGroup ds t p g : touchGroup (nh_store ds) t p g = nh_store (touchGroup ds t p g).
Proof.
  unfold touchGroup. rewrite nh_lookupPart. destruct (lookupPart ds t p) as [kp|]; [|reflexivity]. cbn.
  destruct (pOffs kp !! g); [reflexivity|]. apply nh_setOffset.
Qed.
Lemma nh_commitOffset ds t p g o : commitOffset (nh_store ds) t p g o = nh_store (commitOffset ds t p g o).
Proof.
  unfold commitOffset. rewrite nh_lookupPart. destruct (lookupPart ds t p) as [kp|]; [|reflexivity]. cbn.
  change (offsetOf (nh_part kp) g) with (offsetOf kp g). destruct (offsetOf kp g <? o); [|reflexivity]. apply nh_setOffset.
Qed.

(** ** Handlers *)
Lemma nh_assign l : forall chs, assign_topics (map (fun q => (fst q, nh_topic (snd q))) l) chs = assign_topics l chs.
Proof.
  induction l as [|[n kt] l IH]; intros chs; [reflexivity|]. cbn [map assign_topics fst snd]. rewrite IH. f_equal. f_equal. f_equal.
  unfold nh_topic. rewrite map_to_list_order, shuffle_map, map_map. reflexivity.
Qed.
Lemma nh_sync ds ch chs : syncReply (nh_store ds) ch chs = syncReply ds ch chs.
Proof.
  unfold syncReply, makeMemberAssignment, memberAssignmentVal. unfold nh_store. rewrite map_to_list_order, shuffle_map, nh_assign. reflexivity.
Qed.
Lemma nh_scan l : forall i ts T, list_scan (map nh_rec l) i ts T = list_scan l i ts T.
Proof. induction l as [|r l IH]; intros; [reflexivity|]. cbn. now rewrite IH. Qed.
Lemma nh_zlen l : zlen (map nh_rec l) = zlen l.
Proof. unfold zlen. now rewrite map_length. Qed.
Lemma nh_listOne o T w : listOne (option_map nh_part o) T w = listOne o T w.
Proof.
  destruct o as [kp|]; [|reflexivity]. cbn. rewrite nh_zlen, <- map_rev, nh_scan.
  destruct (T =? -1); [reflexivity|]. destruct (T =? -2); [|reflexivity]. now destruct (pRecs kp).
Qed.
Lemma nh_fetchOne ds fd : fetchOne (nh_store ds) fd = fetchOne ds fd.
Proof.
  unfold fetchOne. destruct (fdKp fd) as [[t p]|]; [|reflexivity]. rewrite nh_lookupPart.
  destruct (lookupPart ds t p) as [kp|]; [|reflexivity]. cbn [option_map nh_part pRecs]. rewrite nh_zlen, nth_error_map.
  destruct (fdOff fd <? zlen (pRecs kp)); [|reflexivity]. destruct (fdOff fd <? 0); [reflexivity|].
  now destruct (nth_error (pRecs kp) (Z.to_nat (fdOff fd))).
Qed.
Definition nh_tres (r : tres) : tres := match r with TCont ds tk o => TCont (nh_store ds) tk (map nh_obs o) | TPanic => TPanic end.
Lemma nh_tstep c e ch ds tk : tstep c e ch (nh_store ds) tk = nh_tres (tstep c e ch ds tk).
Proof.
  assert (F : forall rq fds, fetchFinish (nh_store ds) rq fds = nh_tres (fetchFinish ds rq fds)).
  { intros rq fds. unfold fetchFinish. now destruct (fetchReply rq fds). }
  destruct tk; cbn [tstep].
  - reflexivity.
  - reflexivity.
  - rewrite nh_sync. now destruct (syncReply ds (chTop ch) (chIn ch)).
  - destruct ops as [|[n|p] ops]; [reflexivity|now rewrite nh_getTopic|]. destruct kt; [now rewrite nh_hasPart|reflexivity].
  - destruct todo; [destruct more; [reflexivity|]; destruct (_ || _); [apply F|reflexivity]|].
    rewrite nh_fetchOne. now destruct (fetchOne ds f) as [[? ?]|].
  - destruct (eCancel e); [apply F|reflexivity].
  - now destruct (wake <=? eMono e).
  - destruct pend.
    + destruct kt; [|reflexivity]. cbn. now rewrite nh_commitOffset.
    + destruct ops as [|[n|p] ops]; [reflexivity|now rewrite nh_getTopic|]. destruct kt; [|reflexivity]. rewrite nh_hasPart. now destruct (hasPart _ _ _).
  - destruct pend.
    + destruct kt; [|reflexivity]. cbn. now rewrite nh_lookupPart, nh_listOne.
    + destruct ops as [|[n|p] ops]; [reflexivity|now rewrite nh_getTopic|]. destruct kt; [|reflexivity]. rewrite nh_hasPart. now destruct (hasPart _ _ _).
  - destruct ops as [|[n|p] ops]; [reflexivity|now rewrite nh_getTopic|]. destruct kt; [|reflexivity]. rewrite nh_hasPart. now destruct (hasPart _ _ _).
  - destruct ops as [|[n|p] ops]; [reflexivity|reflexivity|]. destruct kt; [|reflexivity]. rewrite nh_lookupPart.
    destruct (lookupPart ds b p); [|reflexivity]. cbn. now rewrite nh_touchGroup.
Qed.
Lemma nh_astep i w ds a : astep i w (nh_store ds) (nh_thread a) =
  (let '(ds', a', o) := astep i w ds a in (nh_store ds', nh_thread a', map nh_obs o)).
Proof.
  destruct a; cbn; rewrite ?nh_createTopic, ?nh_createPartition, ?nh_postRecord, ?nh_setOffset, ?nh_getTopic, ?nh_hasPart; try reflexivity.
  - destruct ts; cbn; now rewrite ?nh_createTopic.
  - now destruct (getTopic ds t).
  - now destruct (hasPart ds t (swrap 32 p)).
Qed.
Lemma nh_set_conn s c k ds : set_conn (nh_sys s) c k (nh_store ds) = nh_sys (set_conn s c k ds).
Proof. reflexivity. Qed.
Definition nh_res (r : sys * list obs) : sys * list obs := (nh_sys (fst r), map nh_obs (snd r)).
Lemma nh_conn_step s c ch k : conn_step (nh_sys s) c ch k = nh_res (conn_step s c ch k).
Proof.
  unfold conn_step. cbn [sCancel sPort sDs nh_sys].
  change (env_of (nh_sys s)) with (env_of s).
  destruct (cSt k) as [| |corr extra tk|[|b bs]|]; try reflexivity.
  - destruct (getMessage (cIn k)); [|destruct (beginRequest (sPort s) msg) as [[[? ?] ?]|]; reflexivity|reflexivity].
    now destruct (sCancel s).
  - assert (T : match tstep c (env_of s) ch (nh_store (sDs s)) tk with
        | TCont ds tk' os => (set_conn (nh_sys s) c (Conn (cIn k) (CBusy corr extra tk')) ds, os)
        | TPanic => (crash (nh_sys s), [OCrash c]) end = nh_res (match tstep c (env_of s) ch (sDs s) tk with
        | TCont ds tk' os => (set_conn s c (Conn (cIn k) (CBusy corr extra tk')) ds, os)
        | TPanic => (crash s, [OCrash c]) end)).
    { rewrite nh_tstep. now destruct (tstep c (env_of s) ch (sDs s) tk). }
    destruct tk; try exact T. now destruct (finishRequest corr extra t v).
Qed.
Definition ev_headers_ok (ev : event) : bool :=
  match ev with EvCall (CallPost _ _ _ _ h _) => headers_ok h | _ => true end.
Lemma nh_step s ev : ev_headers_ok ev = true -> step (nh_sys s) (nh_event ev) = nh_res (step s ev).
Proof.
  intros Hh. unfold step. cbn [sCrash nh_sys]. destruct (sCrash s); [reflexivity|].
  destruct ev as [cl|j| |d chh|d chunk|d|d|d|d gone|d|w| |]; cbn [nh_event].
  - assert (E : call_ok (nh_call cl) = call_ok cl).
    { destruct cl; try reflexivity. cbn. cbn in Hh. unfold headers_ok in Hh. now rewrite Hh. }
    rewrite E. destruct (call_ok cl); [|reflexivity]. unfold nh_res, nh_sys. cbn. rewrite map_app. repeat f_equal.
    cbn. f_equal. now destruct cl.
  - cbn [sThreads sWall sDs nh_sys]. rewrite list_lookup_fmap || rewrite (list_lookup_fmap nh_thread).
    destruct (sThreads s !! j) as [a|]; [|reflexivity]. cbn. rewrite nh_astep.
    destruct (astep j (sWall s) (sDs s) a) as [[ds' a'] o]. unfold nh_res, nh_sys. cbn. repeat f_equal. symmetry. apply (list_fmap_insert nh_thread).
  - cbn. now destruct (sCancel s).
  - cbn [sConns nh_sys]. destruct (sConns s !! d); [|reflexivity]. apply nh_conn_step.
  - cbn. destruct (sConns s !! d) as [[inb []]|]; try reflexivity. now destruct (_ && _).
  - cbn. destruct (sConns s !! d) as [[inb []]|]; reflexivity.
  - cbn. destruct (sConns s !! d) as [[inb []]|]; reflexivity.
  - cbn. destruct (sConns s !! d) as [[inb []]|]; reflexivity.
  - cbn. destruct (sConns s !! d) as [[inb []]|]; try reflexivity. now destruct gone.
  - reflexivity.
  - reflexivity.
  - reflexivity.
  - cbn. now destruct (forallb closed (sConns s)).
Qed.
Lemma nh_run evs : forall s, forallb ev_headers_ok evs = true -> run (nh_sys s) (map nh_event evs) = nh_res (run s evs).
Proof.
  induction evs as [|ev evs IH]; intros s H; [reflexivity|]. cbn in H. apply andb_true_iff in H as [H1 H2].
  cbn [map run]. rewrite nh_step by assumption. destruct (step s ev) as [s1 o1]. cbn. rewrite IH by assumption.
  destruct (run s1 evs) as [s2 o2]. unfold nh_res. cbn. now rewrite map_app.
Qed.
Lemma nh_init port ch : nh_sys (init port ch) = init port ch.
Proof. unfold nh_sys, init. cbn. f_equal. unfold nh_store, new_store. apply fmap_empty. Qed.

Lemma alike_nh e1 e2 : Forall2 alike e1 e2 -> forall s1 s2, nh_sys s1 = nh_sys s2 ->
  nh_res (run s1 e1) = nh_res (run s2 e2).
Proof.
  induction 1 as [|x y e1 e2 Hxy _ IH]; intros s1 s2 Hs.
  - unfold nh_res. cbn. now rewrite Hs.
  - assert (Hstep : nh_res (step s1 x) = nh_res (step s2 y)).
    { assert (S : forall s s' ev, nh_sys s = nh_sys s' -> nh_res (step s ev) = nh_res (step s' ev)).
      { intros s s' ev E. destruct (ev_headers_ok ev) eqn:Eh; [now rewrite <- !nh_step, E|].
        destruct ev as [[]|j| |d chh|d chunk|d|d|d|d gone|d|w| |]; try discriminate. cbn in Eh. unfold step.
        assert (Ec : call_ok (CallPost t p k v hdrs ts) = false) by (cbn; unfold headers_ok in Eh; rewrite Eh, andb_false_r; reflexivity).
        rewrite Ec. assert (Hcr : sCrash s = sCrash s') by exact (f_equal sCrash E). rewrite Hcr. destruct (sCrash s'); unfold nh_res; cbn; now rewrite E. }
      destruct Hxy as [ev|t p k v h h' ts Hh Hh']; [now apply S|].
      rewrite (S s1 s2 _ Hs). rewrite <- !nh_step by assumption. reflexivity. }
    cbn [run]. destruct (step s1 x) as [s1' o1]. destruct (step s2 y) as [s2' o2]. pose proof (f_equal fst Hstep) as Hs'. pose proof (f_equal snd Hstep) as Ho. cbn [nh_res fst snd] in Hs', Ho.
    specialize (IH _ _ Hs'). destruct (run s1' e1) as [t1 q1], (run s2' e2) as [t2 q2]. pose proof (f_equal fst IH) as H1. pose proof (f_equal snd IH) as H2. unfold nh_res in *. cbn [fst snd] in *. rewrite !map_app. now rewrite Ho, H1, H2.
Qed.
Lemma nh_alike_obs o1 : forall o2, map nh_obs o1 = map nh_obs o2 -> Forall2 alike_obs o1 o2.
Proof.
  induction o1 as [|x o1 IH]; intros [|y o2] H; try discriminate; [constructor|]. cbn in H. injection H as Hx H. constructor; [|now apply IH].
  destruct x, y; cbn in Hx; try discriminate; try (injection Hx; intros; subst; constructor).
  - destruct r, r0. unfold nh_rec in Hx. cbn in Hx. injection Hx as -> -> -> -> -> -> ->. constructor.
  - constructor.
  - constructor.
Qed.
Theorem headers_unseen port ch e1 e2 : Forall2 alike e1 e2 ->
  Forall2 alike_obs (snd (run (init port ch) e1)) (snd (run (init port ch) e2)).
Proof. intros H. apply nh_alike_obs. exact (f_equal snd (alike_nh _ _ H (init port ch) (init port ch) eq_refl)). Qed.
Theorem headers_not_delivered port ch e1 e2 c : Forall2 alike e1 e2 ->
  let A := snd (run (init port ch) e1) in let B := snd (run (init port ch) e2) in
  writes c A = writes c B /\ reads c A = reads c B /\ frames c A = frames c B.
Proof.
  intros H. apply (headers_unseen port ch) in H. cbv zeta. induction H as [|x y A B Hxy _ (IH1 & IH2 & IH3)]; [auto|].
  unfold writes, reads, frames in *. cbn [flat_map]. rewrite IH1, IH2, IH3. destruct Hxy; auto.
Qed.
