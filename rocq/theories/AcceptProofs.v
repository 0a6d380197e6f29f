(** * AcceptProofs: every well-formed request but Fetch is answered *)
From Verif Require Export RejectProofs CommitProofs ListProofs OffProofs SyncProofs DispatchProofs ReplyMore.
From stdpp Require Import gmap list.
From Coq Require Import ZifyBool ZifyNat.
Open Scope Z_scope.
Open Scope list_scope.

(** ** What the decoder returns has the shape of its type *)
Fixpoint vshape (t : ty) (v : val) {struct t} : bool :=
  match t, v with
  | (TUint8 | TInt16 | TInt32 | TInt64), VInt _ => true
  | TString, VStr _ => true
  | TNullableString, VNStr _ => true
  | TSlice e, VSlice (Some l) => forallb (vshape e) l
  | TStruct fs, VStruct vs =>
      (fix go (fs : list (ftag * ty)) (vs : list val) : bool :=
         match fs, vs with
         | [], [] => true
         | (_, t') :: fs', x :: vs' => vshape t' x && go fs' vs'
         | _, _ => false
         end) fs vs
  | _, _ => false
  end.
Definition vshapes := fix go (fs : list (ftag * ty)) (vs : list val) : bool :=
  match fs, vs with
  | [], [] => true
  | (_, t') :: fs', x :: vs' => vshape t' x && go fs' vs'
  | _, _ => false
  end.

Lemma dec_vshape t : simple t = true -> forall r off n v, dec t false r off = DOk n v -> settable t v = true -> vshape t v = true.
Proof.
  induction t as [t Hbase|e IH|e IH|e IH|fs IH|e IH] using ty_ind'; intros Hs r off n v H Hset; try discriminate.
  - destruct t; try discriminate; try contradiction; cbn [dec] in H;
      match type of H with dmap _ ?d = _ => destruct d; try discriminate; injection H as <- <-; reflexivity end.
  - cbn [dec simple] in *. unfold dec_var_array, dec_fixed_array in H. destruct (peek_sint 4 r off) as [n1 len| |]; try discriminate.
    destruct (len <? 0); [injection H as <- <-; discriminate|].
    destruct (dec_items (dec e false) (settable e) r (Z.to_nat len) n1) as [n2 xs| |] eqn:E; try discriminate.
    injection H as <- <-. cbn [vshape]. clear Hset. revert n1 n2 xs E. induction (Z.to_nat len) as [|k IHk]; intros n1 n2 xs E; cbn in E.
    + injection E as <- <-. reflexivity.
    + destruct (dec e false r n1) as [m x| |] eqn:Ex; try discriminate. destruct (settable e x) eqn:Sx; try discriminate.
      fold (dec_items (dec e false) (settable e) r) in E.
      destruct (dec_items (dec e false) (settable e) r k m) as [m2 ys| |] eqn:Ey; try discriminate. injection E as <- <-.
      cbn [forallb]. rewrite (IH Hs _ _ _ _ Ex Sx), (IHk _ _ _ Ey). reflexivity.
  - cbn [dec simple] in *. destruct (dec_fields dec r fs off) as [n1 vs| |] eqn:E; try discriminate. injection H as <- <-.
    change (vshapes fs vs = true). clear Hset. revert off n1 vs E Hs. induction IH as [|[tg t] fs Ht _ IHfs]; intros off n1 vs E Hs; cbn in E.
    + injection E as <- <-. reflexivity.
    + cbn [forallb] in Hs. apply andb_true_iff in Hs as [Hs1 Hs2]. apply andb_true_iff in Hs1 as [Hc Hs1]. apply negb_true_iff in Hc.
      rewrite Hc in E. destruct (dec t false r off) as [m x| |] eqn:Ex; try discriminate. destruct (settable t x) eqn:Sx; try discriminate.
      fold (dec_fields dec r) in E. destruct (dec_fields dec r fs m) as [m2 ys| |] eqn:Ey; try discriminate. injection E as <- <-.
      cbn [vshapes]. cbn [snd] in Ht. rewrite (Ht Hs1 _ _ _ _ Ex Sx). cbn [andb]. eapply IHfs; eassumption.
Qed.

Lemma good_vshape t b v : simple t = true -> zlen b <= bufsize -> good (dec t false) b v -> settable t v = true -> vshape t v = true.
Proof.
  intros Hs Hb Hg Hset. destruct (Hg []) as [G _]. specialize (G []). rewrite zlen_nil in G.
  eapply dec_vshape; [exact Hs|apply G; lia|exact Hset].
Qed.

(** ** Such values are requests *)
Lemma list_of_vshape {A} (f : val -> option A) e v : vshape (TSlice e) v = true -> (forall x, vshape e x = true -> exists y, f x = Some y) ->
  exists l, list_of f v = Some l.
Proof.
  intros H Hf. destruct v as [| | | | |o| | | | |]; try discriminate. destruct o as [l|]; [|discriminate]. cbn [list_of vshape] in *.
  induction l as [|x l IH]; [eexists; reflexivity|]. cbn [forallb] in H. apply andb_true_iff in H as [H1 H2].
  destruct (Hf x H1) as [y Hy]. destruct (IH H2) as [ys Hys]. exists (y :: ys). cbn [mapM]. now rewrite Hy, Hys.
Qed.
Lemma vshapes_cons tg t fs vs : vshapes ((tg, t) :: fs) vs = true ->
  exists x vs', vs = x :: vs' /\ vshape t x = true /\ vshapes fs vs' = true.
Proof. destruct vs as [|x vs']; [discriminate|]. cbn [vshapes]. intros H. apply andb_true_iff in H as [H1 H2]. eauto. Qed.
Lemma vshapes_nil vs : vshapes [] vs = true -> vs = [].
Proof. destruct vs; [reflexivity|discriminate]. Qed.
Lemma vshape_struct fs v : vshape (TStruct fs) v = true -> exists vs, v = VStruct vs /\ vshapes fs vs = true.
Proof. destruct v; try discriminate. intros H. eexists. split; [reflexivity|exact H]. Qed.
Ltac vs_inv H :=
  unfold fields in H; cbn [map] in H; apply vshape_struct in H as (? & -> & H);
  repeat (apply vshapes_cons in H as (? & ? & -> & ? & H)); apply vshapes_nil in H as ->;
  repeat match goal with
  | Hx : vshape TInt32 ?v = true |- _ => is_var v; destruct v; try discriminate Hx; clear Hx
  | Hx : vshape TInt64 ?v = true |- _ => is_var v; destruct v; try discriminate Hx; clear Hx
  | Hx : vshape TString ?v = true |- _ => is_var v; destruct v; try discriminate Hx; clear Hx
  | Hx : vshape TNullableString ?v = true |- _ => is_var v; destruct v; try discriminate Hx; clear Hx
  end.
Lemma topic_of_vshape {P} (f : val -> option P) e v : vshape (fields [TString; TSlice e]) v = true ->
  (forall x, vshape e x = true -> exists y, f x = Some y) -> exists t, topic_of f v = Some t.
Proof.
  intros H Hf. vs_inv H. destruct (list_of_vshape f e _ H1 Hf) as [l Hl]. cbn [topic_of]. rewrite Hl. eauto.
Qed.
Lemma zint_vshape v : vshape TInt32 v = true -> exists z, zint v = Some z.
Proof. destruct v; try discriminate. cbn. eauto. Qed.
Lemma zstr_vshape v : vshape TString v = true -> exists z, zstr v = Some z.
Proof. destruct v; try discriminate. cbn. eauto. Qed.
Ltac part_vs H := vs_inv H; cbn; eauto.
Lemma list_part_vshape v : vshape (fields [TInt32; TInt64]) v = true -> exists p, list_part_of v = Some p.
Proof. intros H. part_vs H. Qed.
Lemma commit_part_vshape v : vshape (fields [TInt32; TInt64; TNullableString]) v = true -> exists p, commit_part_of v = Some p.
Proof. intros H. part_vs H. Qed.
Lemma metadata_vshape v : vshape tMetadataReq v = true -> exists rq, metadata_req_of v = Some rq.
Proof.
  intros H. unfold tMetadataReq in H. vs_inv H. eapply list_of_vshape; [eassumption|exact zstr_vshape].
Qed.
Ltac last_list f e := 
  match goal with Hx : vshape (TSlice _) ?ts = true |- _ =>
    let l := fresh "l" in let Hl := fresh "Hl" in
    destruct (list_of_vshape f e ts Hx) as [l Hl]; [|rewrite Hl; eauto] end.
Ltac head_vs H := vs_inv H.
Lemma list_vshape v : vshape tListReq v = true -> exists rq, list_req_of v = Some rq.
Proof.
  unfold tListReq. intros H. head_vs H. cbn [list_req_of].
  last_list (topic_of list_part_of) tListReqTopic. intros y Hy. exact (topic_of_vshape _ _ _ Hy list_part_vshape).
Qed.
Lemma commit_vshape v : vshape tCommitReq v = true -> exists rq, commit_req_of v = Some rq.
Proof.
  unfold tCommitReq. intros H. head_vs H. cbn [commit_req_of].
  last_list (topic_of commit_part_of) tCommitReqTopic. intros y Hy. exact (topic_of_vshape _ _ _ Hy commit_part_vshape).
Qed.
Lemma off_vshape v : vshape tOffReq v = true -> exists rq, off_req_of v = Some rq.
Proof.
  unfold tOffReq. intros H. head_vs H. cbn [off_req_of].
  last_list (topic_of zint) tOffReqTopic. intros y Hy. exact (topic_of_vshape _ _ _ Hy zint_vshape).
Qed.

(** ** Answered *)
Definition some_reply (corr : Z) (_ : list obs) (r : bytes) : Prop := exists payload, r = w_reply corr payload.
Lemma const_some port ch A c m s corr t v : serving port ch A c m s -> beginRequest port m = Some (corr, [], TkRet t v) ->
  (exists payload, encodeObject t v = Some payload) -> exists K, answers c s (some_reply corr) K.
Proof.
  intros Hs Hb [pl He]. exists 4%nat. eapply answers_mono; [|exact (answers_const _ _ _ _ _ _ _ _ _ _ Hs Hb He)].
  intros B r ->. eexists. reflexivity.
Qed.
Lemma versions_some port ch A c m s corr : serving port ch A c m s -> beginRequest port m = Some (corr, [], TkVersions) ->
  exists K, answers c s (some_reply corr) K.
Proof.
  intros Hs Hb. exists 5%nat. destruct (serving_inv _ _ _ _ _ _ _ _ _ Hs Hb) as (inb & Hk & Hi & Hc).
  rewrite initApiVersions_eq in Hi.
  eapply (answers_intro port adv_map (A ++ [OFrame c m]) c corr
    (fun _ n tk => (n = 0%nat /\ tk = TkVersions) \/
      (n = 1%nat /\ exists cc, tk = TkRet tApiVersionsResp (apiVersionsReply adv_map cc)))); eauto.
  - split.
    + intros B n tk o _ H. exact H.
    + intros s1 B n tk ch1 Hi1 _ Hret [[-> ->]|(-> & cc & ->)]; [|discriminate].
      eexists _, _, _. cbn [tstep env_of eVers]. rewrite (i_vers _ _ _ _ Hi1). eauto 10.
    + intros B n t' v' [[-> ?]|(-> & cc & [= -> ->])]; [discriminate|]. eauto using versions_enc.
  - intros B n tk [[-> _]|(-> & _)]; lia.
  - intros B n t' v' pl _ He. eexists. reflexivity.
Qed.
Lemma commit_some port ch A c m s corr rq : serving port ch A c m s ->
  beginRequest port m = Some (corr, [], TkCommit rq (plan (cqTopics rq)) None None []) -> exists K, answers c s (some_reply corr) K.
Proof.
  intros Hs Hb. eexists. destruct (serving_inv _ _ _ _ _ _ _ _ _ Hs Hb) as (inb & Hk & Hi & Hc).
  eapply (answers_intro port (initApiVersions ch) (A ++ [OFrame c m]) c corr (commit_inv (A ++ [OFrame c m]) c rq)); eauto using commit_handler.
  - cbn [commit_inv]. split; [reflexivity|]. exists None, []. split; [|split; [discriminate|reflexivity]].
    split; [constructor|]. now rewrite plan_length.
  - intros B n tk H. exact (commit_inv_bound _ _ _ _ _ _ H).
  - intros B n t' v' pl _ He. eexists. reflexivity.
Qed.
Lemma list_some port ch A c m s corr rq : serving port ch A c m s ->
  beginRequest port m = Some (corr, [], TkList rq (plan (lqTopics rq)) None None []) -> exists K, answers c s (some_reply corr) K.
Proof.
  intros Hs Hb. eexists. destruct (serving_inv _ _ _ _ _ _ _ _ _ Hs Hb) as (inb & Hk & Hi & Hc).
  eapply (answers_intro port (initApiVersions ch) (A ++ [OFrame c m]) c corr (list_inv (A ++ [OFrame c m]) (lqTopics rq))); eauto using list_handler.
  - cbn [list_inv]. exists None, []. split; [|discriminate]. split; [constructor|]. now rewrite plan_length.
  - intros B n tk H. eapply list_inv_bound, H.
  - intros B n t' v' pl _ He. eexists. reflexivity.
Qed.
Lemma off_some port ch A c m s corr rq : serving port ch A c m s ->
  beginRequest port m = Some (corr, [], TkOffOpen rq (plan (oqTopics rq)) None []) -> exists K, answers c s (some_reply corr) K.
Proof.
  intros Hs Hb. eexists. destruct (serving_inv _ _ _ _ _ _ _ _ _ Hs Hb) as (inb & Hk & Hi & Hc).
  eapply (answers_intro port (initApiVersions ch) (A ++ [OFrame c m]) c corr (off_inv (A ++ [OFrame c m]) rq)); eauto using off_handler.
  - cbn [off_inv]. split; [reflexivity|]. exists [], [], None. cbn [default].
    split; [symmetry; apply rest_flat_plan|]. split; [constructor|]. split; [apply grouped_nil|].
    split; [discriminate|]. split; [reflexivity|]. rewrite plan_length. split; [reflexivity|].
    change (entries (@nil (bytes * list Z))) with 0%nat. apply Nat.le_refl.
  - intros B n tk H. exact (off_inv_bound _ _ _ _ _ H).
  - intros B n t' v' pl _ He. eexists. reflexivity.
Qed.
Lemma sync_some port ch A c m s corr : serving port ch A c m s ->
  beginRequest port m = Some (corr, [], TkSync) -> exists K, answers c s (some_reply corr) K.
Proof.
  intros Hs Hb. exists 5%nat. destruct (serving_inv _ _ _ _ _ _ _ _ _ Hs Hb) as (inb & Hk & Hi & Hc).
  eapply (answers_intro port (initApiVersions ch) (A ++ [OFrame c m]) c corr (sync_inv (A ++ [OFrame c m]))); eauto using sync_handler.
  - now left.
  - intros B n tk [[-> _]|[-> _]]; lia.
  - intros B n t' v' pl _ He. eexists. reflexivity.
Qed.

(** ** SyncGroup bodies *)
Lemma fields_good : forall fs bs vs,
  Forall2 (fun f (bv : bytes * val) => tCompact (fst f) = false /\ good (dec (snd f) false) (fst bv) (snd bv) /\ settable (snd f) (snd bv) = true)
    fs (combine bs vs) -> length bs = length vs ->
  good (fun r o => dec_fields dec r fs o) (concat bs) vs.
Proof.
  induction fs as [|[tg t] fs IH]; intros bs vs HF Hl; inversion HF as [|? [b x] ? ? (Hc & Hg & Hset) HF' E1 E2]; subst.
  - destruct bs, vs; try discriminate. cbn. apply good_ret.
  - destruct bs as [|b' bs], vs as [|x' vs]; try discriminate. cbn [combine] in E2. injection E2 as E3 E4 E5. rewrite E5 in HF'. subst b' x'. cbn [fst snd concat] in *. eapply good_ext.
    2:{ apply (good_bind (dec t false) (fun x' r n => if settable t x' then dmap (cons x') (dec_fields dec r fs n) else DPanic) b (concat bs) x (x :: vs)).
        - exact Hg.
        - rewrite Hset. apply (good_map (cons x)). apply IH; [assumption|cbn in Hl; lia]. }
    intros r o. cbn [dec_fields]. rewrite Hc. fold (dec_fields dec r).
    destruct (dec t false r o) as [n y| |]; cbn; [|reflexivity|reflexivity].
    destruct (settable t y); [|reflexivity]. now destruct (dec_fields dec r fs n).
Qed.
Lemma sync_body_good b n : sync_body b n -> exists v, good (dec tSyncReq false) b v /\ sync_req_of v = Some n.
Proof.
  intros (g & gen & me & asg & -> & -> & Hn & Pg & Lg & Pm & Pa).
  destruct (data16_complete _ Pg) as [og Hg]. destruct (data16_complete _ Pm) as [om Hm].
  destruct (sint_complete 4 gen Lg) as [zg Hgen].
  assert (HF : Forall (readable_as tSyncAssign) asg).
  { eapply Forall_impl; [exact Pa|]. intros x Hx. apply complete; [reflexivity|exact Hx]. }
  destruct (items_complete tSyncAssign asg HF) as (vs & L & Hi).
  set (V := [VStr match og with Some s => s | None => [] end; VInt zg; VStr match om with Some s => s | None => [] end; VSlice (Some vs)]).
  exists (VStruct V). split; [|unfold V; cbn [sync_req_of]; unfold zlen; now rewrite L].
  replace (g ++ gen ++ me ++ w_int32 (zlen asg) ++ concat asg) with (concat [g; gen; me; w_int32 (zlen asg) ++ concat asg])
    by (cbn [concat]; now rewrite app_nil_r).
  eapply good_ext; [intros; unfold tSyncReq, fields; cbn [dec]; reflexivity|]. apply (good_map VStruct).
  apply fields_good; [|reflexivity]. cbn [map combine V]. repeat apply List.Forall2_cons; cbn [fst snd].
  - split; [reflexivity|]. split; [|reflexivity]. apply (good_map (fun o => VStr match o with Some s => s | None => [] end)), Hg.
  - split; [reflexivity|]. split; [|reflexivity]. cbn [dec]. apply (good_map VInt), Hgen.
  - split; [reflexivity|]. split; [|reflexivity]. apply (good_map (fun o => VStr match o with Some s => s | None => [] end)), Hm.
  - split; [reflexivity|]. split; [|reflexivity]. eapply good_ext; [intros; cbn [dec]; reflexivity|].
    apply (good_bind (peek_sint 4) (fun len r n => dec_fixed_array (dec tSyncAssign false) (settable tSyncAssign) r n len) _ _ (zlen asg)).
    + apply good_sint; [lia|cbn; pose proof (zlen_nonneg asg); lia|]. rewrite <- enc_i32_w. reflexivity.
    + unfold dec_fixed_array. pose proof (zlen_nonneg asg). replace (zlen asg <? 0) with false by lia.
      apply (good_map (fun xs => VSlice (Some xs))). replace (Z.to_nat (zlen asg)) with (length asg) by (unfold zlen; lia). exact Hi.
  - constructor.
Qed.
Lemma sync_layout_body b sh : layout 14 0 = Some sh -> parses sh b -> exists n, sync_body b n.
Proof.
  cbn [layout]. intros [= <-] H. inversion H as [| | | |fs bs HF]; subst.
  inversion HF as [|? b1 ? ? P1 HF1]; subst. inversion HF1 as [|? b2 ? ? P2 HF2]; subst.
  inversion HF2 as [|? b3 ? ? P3 HF3]; subst. inversion HF3 as [|? b4 ? ? P4 HF4]; subst. inversion HF4; subst.
  inversion P4 as [| | |e bs Hl HA|]; subst. inversion P2; subst.
  exists (zlen bs), b1, b2, b3, bs. cbn [concat]. rewrite !app_nil_r. repeat split; auto.
Qed.

(** ** C11, the converse *)
Theorem well_formed_answered port ch A c m s key ver corr h b : serving port ch A c m s ->
  is_request m key ver corr h b [] -> key <> 1 -> (key = 14 -> sync_body b 0) ->
  exists K, answers c s (some_reply corr) K.
Proof.
  intros Hs (-> & Hh & Lh & sh & Hlay & Hp & Lb) Hk Hy.
  destruct (layout_dispatch _ _ _ Hlay) as [a Ed].
  pose proof (begin_header port h (b ++ []) key ver corr Hh Lh) as Hb. rewrite Ed in Hb.
  pose proof (layout_schema key ver a Ed) as Hsch.
  assert (Ha : match a with ApiFetch => key = 1 | ApiSyncGroup => key = 14 /\ ver = 0 | ApiApiVersions => key = 18 /\ ver = 0 | _ => True end).
  { clear - Ed. rewrite dispatch_supported in Ed. unfold supported in Ed.
    repeat match type of Ed with match ?x with _ => _ end = _ => is_var x; destruct x; try discriminate end;
      injection Ed as <-; auto. }
  assert (Hr : forall t, req_ty a = Some t -> exists v, good (dec t false) b v /\ vshape t v = true).
  { intros t Ht. rewrite Ht in Hsch. destruct Hsch as (Hl & Hsi & _). rewrite Hlay in Hl. injection Hl as ->.
    destruct (complete t Hsi b Hp) as (v & Hg & Hset). exists v. split; [exact Hg|].
    eapply good_vshape; eauto. }
  rewrite app_nil_r in Hs, Hb. rewrite <- (app_nil_r b) in Hb at 2.
  destruct a; cbn [req_ty startApi] in *; try (destruct (Hr _ eq_refl) as (v & Hg & Hv)).
  - destruct (metadata_vshape v Hv) as [rq Hrq]. rewrite (with_req_good _ _ _ b v [] rq Hg Lb Hrq) in Hb.
    eapply const_some; [exact Hs|exact Hb|]. eexists. apply metadata_enc.
  - rewrite (with_req_good _ any_req _ b v [] tt Hg Lb eq_refl) in Hb. eapply const_some; [exact Hs|exact Hb|]. eexists. apply find_enc.
  - destruct (off_vshape v Hv) as [rq Hrq]. rewrite (with_req_good _ _ _ b v [] rq Hg Lb Hrq) in Hb.
    eapply off_some; [exact Hs|exact Hb].
  - rewrite (with_req_good _ any_req _ b v [] tt Hg Lb eq_refl) in Hb. eapply const_some; [exact Hs|exact Hb|]. eexists. vm_compute. reflexivity.
  - destruct (sync_body_good b 0 (Hy (proj1 Ha))) as (w & Hw & Hn). rewrite (with_req_good _ _ _ b w [] 0 Hw Lb Hn) in Hb.
    eapply sync_some; [exact Hs|exact Hb].
  - rewrite (with_req_good _ any_req _ b v [] tt Hg Lb eq_refl) in Hb. eapply const_some; [exact Hs|exact Hb|]. eexists. vm_compute. reflexivity.
  - destruct Ha as [-> ->]. cbn [layout] in Hlay. injection Hlay as <-. inversion Hp as [| | | |fs bs HF]; subst.
    inversion HF; subst. eapply versions_some; [exact Hs|exact Hb].
  - rewrite (with_req_good _ any_req _ b v [] tt Hg Lb eq_refl) in Hb. eapply const_some; [exact Hs|exact Hb|]. eexists. vm_compute. reflexivity.
  - destruct (list_vshape v Hv) as [rq Hrq]. rewrite (with_req_good _ _ _ b v [] rq Hg Lb Hrq) in Hb.
    eapply list_some; [exact Hs|exact Hb].
  - contradiction.
  - destruct (commit_vshape v Hv) as [rq Hrq]. rewrite (with_req_good _ _ _ b v [] rq Hg Lb Hrq) in Hb.
    eapply commit_some; [exact Hs|exact Hb].
Qed.

Theorem sync_assigning_rejected port ch A c m s corr h b n : serving port ch A c m s ->
  is_request m 14 0 corr h b [] -> sync_body b n -> n <> 0 -> rejects c s 0.
Proof.
  intros Hs (-> & Hh & Lh & sh & Hlay & Hp & Lb) Hy Hn. eapply serving_none; [exact Hs|].
  rewrite (begin_header port h (b ++ []) 14 0 corr Hh Lh). change (dispatch 14 0) with (Some ApiSyncGroup). cbn [startApi].
  destruct (sync_body_good b n Hy) as (w & Hw & Hr). rewrite (with_req_good _ _ _ b w [] n Hw Lb Hr).
  now replace (n =? 0) with false by lia.
Qed.
Lemma sync_counted m corr h b : is_request m 14 0 corr h b [] -> exists n, 0 <= n /\ sync_body b n.
Proof.
  intros (_ & _ & _ & sh & Hlay & Hp & _). destruct (sync_layout_body b sh Hlay Hp) as [n Hn]. exists n. split; [|exact Hn].
  destruct Hn as (? & ? & ? & asg & _ & -> & _). apply zlen_nonneg.
Qed.
Theorem sync_assigning_cases port ch A c m s corr h b : serving port ch A c m s -> is_request m 14 0 corr h b [] ->
  exists n, 0 <= n /\ sync_body b n /\ (n <> 0 -> rejects c s 0).
Proof.
  intros Hs Hm. destruct (sync_counted _ _ _ _ Hm) as (n & Hn & Hy). exists n. split; [exact Hn|]. split; [exact Hy|].
  intros Hne. eapply sync_assigning_rejected; eauto.
Qed.
