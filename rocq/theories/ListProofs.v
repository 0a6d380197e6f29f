(** * ListProofs: ListOffsets *)
From Verif Require Export WalkProofs.
From stdpp Require Import gmap list.
From Coq Require Import ZifyBool ZifyNat.
Open Scope Z_scope.
Open Scope list_scope.

(** ** The scan from the end of the log *)
Lemma list_scan_spec T : forall log ts0 suffix,
  (forall r, In r suffix -> T <= rTs r) ->
  (suffix = [] -> ts0 = 0) -> (forall r suf, suffix = r :: suf -> ts0 = rTs r) ->
  let '(o, tm) := list_scan (rev log) (zlen log - 1) ts0 T in by_time (log ++ suffix) T o tm.
Proof.
  intros log. induction log as [|r log IH] using rev_ind; intros ts0 suffix Hs H0 H1.
  - cbn. unfold by_time. split_and!.
    + lia.
    + apply zlen_nonneg.
    + intros k r _ Hk. apply Hs. eapply nth_error_In; eauto.
    + now left.
    + intros _. destruct suffix as [|r suf]; [auto|]. eapply H1; eauto.
  - rewrite rev_app_distr. cbn [rev app list_scan].
    assert (Hz : zlen (log ++ [r]) - 1 = zlen log) by (rewrite zlen_app; unfold zlen; cbn; lia).
    rewrite Hz. destruct (Z.ltb_spec (rTs r) T) as [Hlt|Hge].
    + unfold by_time. split_and!.
      * pose proof (zlen_nonneg log). lia.
      * rewrite !zlen_app. pose proof (zlen_nonneg suffix). unfold zlen in *. cbn. lia.
      * intros k r' Hk Hn. apply Hs. rewrite nth_error_app2 in Hn.
        -- eapply nth_error_In; eauto.
        -- rewrite app_length. unfold zlen in Hk. cbn. lia.
      * right. exists r. split_and!; auto.
        rewrite Z.add_simpl_r. unfold zlen. rewrite Nat2Z.id, <- app_assoc.
        rewrite nth_error_app2 by lia. now rewrite Nat.sub_diag.
      * pose proof (zlen_nonneg log). lia.
    + specialize (IH (rTs r) (r :: suffix)). rewrite <- app_assoc. apply IH.
      * intros r' [<-|Hr]; auto.
      * discriminate.
      * now intros r' suf [= <- _].
Qed.

Lemma listOne_right os t p T tm kp : part_ok os t p kp -> tr_wall os = tm ->
  list_right os t (p, T) (p, fst (fst (listOne (Some kp) T tm)), snd (fst (listOne (Some kp) T tm)),
                             snd (listOne (Some kp) T tm)).
Proof.
  intros Hp Hw. pose proof (po_has _ _ _ _ Hp) as po_has0. pose proof (po_recs _ _ _ _ Hp) as po_recs0.
  unfold list_right. rewrite po_has0. split; [reflexivity|].
  unfold listOne. destruct (T =? -1).
  { cbn. rewrite po_recs0. auto. }
  destruct (T =? -2).
  { cbn. rewrite po_recs0. now destruct (tr_log t p os). }
  pose proof (list_scan_spec T (pRecs kp) 0 []) as H.
  destruct (list_scan (rev (pRecs kp)) (zlen (pRecs kp) - 1) 0 T) as [o tm'] eqn:E.
  cbn [fst snd]. split; [reflexivity|]. rewrite <- po_recs0, <- (app_nil_r (pRecs kp)).
  apply H; auto; try contradiction. discriminate.
Qed.

Definition list_ent (e : Z * (Z * Z * Z)) : Z * Z * Z * Z := let '(i, (er, ts, o)) := e in (i, er, ts, o).

Definition list_ok (A B : list obs) (t : bytes) (p : list_part) (e : Z * (Z * Z * Z)) : Prop :=
  sometime A B (fun os => list_right os t (lpIndex p, lpTime p) (list_ent e)).

Definition list_inv (A : list obs) (ts : list (bytes * list list_part)) (B : list obs) (n : nat) (tk : task) : Prop :=
  match tk with
  | TkList rq ops kt pend acc =>
      exists cur z,
        match pend with
        | None => walk (list_ok A B) ts ops cur acc z /\ (n + 2 * length ops <= 2 * entries ts)%nat
        | Some p => walk (list_ok A B) ts (WPart p :: ops) cur acc z /\ (n + 2 * length ops + 1 <= 2 * entries ts)%nat
        end /\ kt_spec A B kt cur
  | TkRet t v =>
      (n <= 2 * entries ts + 1)%nat /\ t = TPtr tListResp /\
      exists acc, v = VPtr (Some (listReply acc)) /\ entrywise (list_ok A B) ts acc
  | _ => False
  end.

Lemma list_resp_enc acc :
  encodeObject (TPtr tListResp) (VPtr (Some (listReply acc))) =
  Some (w_list_resp (map (fun t => (fst t, map list_ent (snd t))) acc)).
Proof.
  apply encs_object. unfold listReply.
  eapply encs_eq; [encs_tac; apply (topics_encs _ _ (fun e => let '(i, e, tm, o) := list_ent e in
      w_int32 i ++ w_int16 e ++ w_int64 tm ++ w_int64 o))|].
  - discriminate.
  - intros [i [[er tm] o]]. cbn [list_ent]. eapply encs_eq; [encs_tac|]. now rewrite app_nil_r.
  - rewrite app_nil_r. unfold w_list_resp, w_array. rewrite zlen_map. f_equal. f_equal.
    rewrite map_map. apply map_ext. intros [n l]. cbn [fst snd]. f_equal. rewrite zlen_map. f_equal.
    f_equal. rewrite map_map. reflexivity.
Qed.

Lemma list_ok_mono A B o t p e : list_ok A B t p e -> list_ok A (B ++ o) t p e.
Proof. apply sometime_mono. Qed.
Lemma list_missing A B t p w : sometime A B (fun os => tr_has t (lpIndex p) os = false) ->
  list_ok A B t p (lpIndex p, listOne None (lpTime p) w).
Proof.
  intros (B1 & H1 & H2). exists B1. split; [assumption|]. cbn. split; [reflexivity|]. now rewrite H2.
Qed.

Lemma list_handler port vers A c ts : handler_ok port vers A c (list_inv A ts).
Proof.
  split.
  - intros B n tk o _ H. destruct tk; try contradiction; cbn in *.
    + destruct H as (H1 & H2 & acc & H3 & H4). split_and!; auto. exists acc. split; [assumption|].
      eapply entrywise_mono; [|exact H4]. intros. now apply list_ok_mono.
    + destruct H as (cur & z & H1 & H2). exists cur, z. split; [|now apply kt_spec_mono].
      destruct pend; destruct H1 as [Hw Hn]; (split; [|assumption]);
        (eapply walk_mono; [|exact Hw]); intros; now apply list_ok_mono.
  - intros s B n tk ch Hi Ht Hr H. destruct tk; try discriminate; try contradiction.
    destruct H as (cur & z & H1 & H2). cbn [tstep env_of eWall]. cbn [task_ok] in Ht. destruct Ht as [Hkt Hpend].
    destruct pend as [p|].
    + destruct H1 as [Hw Hn]. destruct (Hpend p eq_refl) as (n0 & -> & Hp). cbn [kt_spec] in H2. subst cur.
      eexists _, _, _. split; [reflexivity|]. rewrite app_nil_r.
      apply walk_part in Hw as (m & [= <-] & Hw). cbn [list_inv].
      eexists _, _. split; [split; [apply Hw|lia]|reflexivity].
      apply sometime_now. pose proof (proj2 (i_store _ _ _ _ Hi) n0 (lpIndex p)) as Hpo. unfold hasPart in Hp.
      destruct (lookupPart (sDs s) n0 (lpIndex p)) as [kp|]; [|discriminate].
      pose proof (listOne_right _ _ _ (lpTime p) _ _ Hpo (eq_sym (i_wall _ _ _ _ Hi))) as Hl.
      destruct (listOne (Some kp) (lpTime p) (sWall s)) as [[er tm] o]. exact Hl.
    + destruct H1 as [Hw Hn]. destruct ops as [|[m|p] ops].
      * eexists _, _, _. split; [reflexivity|]. rewrite app_nil_r. cbn. split; [lia|]. split; [reflexivity|].
        exists acc. split; [reflexivity|]. now apply walk_end in Hw as [Hw _].
      * eexists _, _, _. split; [reflexivity|]. rewrite app_nil_r. cbn [list_inv].
        exists (Some m), z. cbn [length] in Hn. split; [split; [|lia]|].
        -- eapply walk_topic; eauto.
        -- eapply kt_spec_get; eauto.
      * cbn [length] in Hn. destruct (walk_part _ _ _ _ _ _ _ Hw) as (m & Hcur & Hw'). subst cur.
        destruct kt as [k|].
        -- cbn [kt_spec] in H2. injection H2 as ->. destruct (hasPart (sDs s) k (lpIndex p)) eqn:Ep.
           ++ eexists _, _, _. split; [reflexivity|]. rewrite app_nil_r. cbn [list_inv].
              exists (Some k), z. split; [split; [assumption|lia]|reflexivity].
           ++ eexists _, _, _. split; [reflexivity|]. rewrite app_nil_r. cbn [list_inv].
              eexists _, _. split; [split; [apply Hw'|lia]|reflexivity].
              apply list_missing, sometime_now. now rewrite <- (inv_hasPart _ _ _ _ _ _ Hi).
        -- eexists _, _, _. split; [reflexivity|]. rewrite app_nil_r. cbn [list_inv].
           eexists _, _. split; [split; [apply Hw'|lia]|exact H2].
           apply list_missing. destruct (H2 m eq_refl) as (B1 & HB & HP). exists B1. auto.
  - intros B n t v (_ & -> & acc & -> & _). eauto using list_resp_enc.
Qed.

Lemma list_inv_bound A ts B n tk : list_inv A ts B n tk -> (n + 4 <= 2 * entries ts + 5)%nat.
Proof.
  destruct tk; cbn [list_inv]; try contradiction.
  - intros (H & _). lia.
  - intros (cur & z & H & _). destruct pend; destruct H; lia.
Qed.

Theorem list_answered port ch A c corr client replica ts s :
  let m := w_request 2 1 corr client (w_list_req replica ts) in
  l_header 2 1 corr client = true -> l_list replica ts = true -> zlen (w_list_req replica ts) <= 4096 ->
  serving port ch A c m s ->
  answers c s (list_reply (A ++ [OFrame c m]) corr ts) (2 * entries ts + 5).
Proof.
  intros m Hh Hl Hz Hs.
  assert (Hb : beginRequest port m = Some (corr, [], TkList (mk_list_req replica ts)
                 (plan (mk_topics mk_list_part ts)) None None [])).
  { unfold m. rewrite begin_request by assumption. change (dispatch 2 1) with (Some ApiListOffsets). cbn [startApi].
    rewrite <- (app_nil_r (w_list_req _ _)).
    rewrite (with_req_good _ _ _ _ _ [] _ (list_good _ _ Hl)) by (try assumption; apply list_req_of_val).
    reflexivity. }
  destruct (serving_inv _ _ _ _ _ _ _ _ _ Hs Hb) as (inb & Hk & Hi & Hc).
  eapply (answers_intro port (initApiVersions ch) (A ++ [OFrame c m]) c corr
    (list_inv (A ++ [OFrame c m]) (mk_topics mk_list_part ts))); eauto using list_handler.
  - cbn [list_inv]. exists None, []. split; [|discriminate]. split; [constructor|]. now rewrite plan_length.
  - intros B n tk H. rewrite <- (entries_mk mk_list_part ts). eapply list_inv_bound, H.
  - intros B n t v payload (_ & -> & acc & -> & He) Hp. rewrite list_resp_enc in Hp. injection Hp as <-.
    eexists. split; [reflexivity|]. apply entrywise_mk in He.
    unfold entrywise in *. apply Forall2_fmap_r. revert He. apply Forall2_mono.
    intros [n1 ps] [n2 es] [H1 H2]. cbn [fst snd] in *. split; [assumption|].
    apply Forall2_fmap_r. revert H2. apply Forall2_mono. intros [i T] e H. exact H.
Qed.
