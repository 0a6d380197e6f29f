(** * CommitProofs: OffsetCommit *)
From Verif Require Export WalkProofs.
From stdpp Require Import gmap list.
From Coq Require Import ZifyBool ZifyNat.
Open Scope Z_scope.
Open Scope list_scope.

Lemma commits_app c a b : commits c (a ++ b) = commits c a ++ commits c b.
Proof. apply flat_map_app. Qed.
Lemma apart_commits c os : Forall (apart c) os -> commits c os = [].
Proof.
  induction 1 as [|o os Ho _ IH]; [reflexivity|]. cbn. fold (commits c os). rewrite IH.
  destruct o; try reflexivity. destruct (Nat.eqb_spec c c0) as [->|]; [|reflexivity]. now contradict Ho.
Qed.

Definition commit_in (p : commit_part) : Z * Z * option bytes := (cpIndex p, cpOffset p, cpMeta p).

Lemma commit_in_mk p : commit_in (mk_commit_part p) = p.
Proof. now destruct p as [[i o] m]. Qed.

Definition commit_ok (A B : list obs) (t : bytes) (p : commit_part) (e : Z * Z) : Prop :=
  commit_right A B t (commit_in p) e.

Definition ackz (g : bytes) (z : list (bytes * commit_part * (Z * Z))) : list (bytes * Z * bytes * Z) :=
  flat_map (fun x : bytes * commit_part * (Z * Z) =>
    let '(t, p, e) := x in if snd e =? 0 then [(t, cpIndex p, g, cpOffset p)] else []) z.

Lemma ackz_app g a b : ackz g (a ++ b) = ackz g a ++ ackz g b.
Proof. apply flat_map_app. Qed.

Lemma ackz_acked g ts ents : ackz g (zipped (mk_topics mk_commit_part ts) ents) = acked g ts ents.
Proof.
  rewrite zipped_mk. unfold ackz, acked, zipped.
  revert ents. induction ts as [|[n ps] ts IH]; intros [|[m es] ents]; try reflexivity.
  cbn [combine flat_map]. rewrite map_app, flat_map_app, IH. f_equal. cbn [fst snd].
  clear. revert es. induction ps as [|[[i o] me] ps IH]; intros [|[j er] es]; try reflexivity.
  cbn [combine map flat_map fst snd mk_commit_part cpIndex cpOffset]. f_equal. apply IH.
Qed.

Definition commit_inv (A : list obs) (c : nat) (rq : commit_req) (B : list obs) (n : nat) (tk : task) : Prop :=
  match tk with
  | TkCommit rq' ops kt pend acc =>
      rq' = rq /\
      exists cur z,
        match pend with
        | None => walk (commit_ok A B) (cqTopics rq) ops cur acc z /\
                  (n + 2 * length ops <= 2 * entries (cqTopics rq))%nat
        | Some p => walk (commit_ok A B) (cqTopics rq) (WPart p :: ops) cur acc z /\
                  (n + 2 * length ops + 1 <= 2 * entries (cqTopics rq))%nat
        end /\ kt_spec A B kt cur /\ commits c B = ackz (cqGroup rq) z
  | TkRet t v =>
      (n <= 2 * entries (cqTopics rq) + 1)%nat /\ t = TPtr tCommitResp /\
      exists acc, v = VPtr (Some (commitReply acc)) /\ entrywise (commit_ok A B) (cqTopics rq) acc /\
        commits c B = ackz (cqGroup rq) (zipped (cqTopics rq) acc)
  | _ => False
  end.

Lemma commit_resp_enc acc :
  encodeObject (TPtr tCommitResp) (VPtr (Some (commitReply acc))) = Some (w_commit_resp acc).
Proof.
  apply encs_object. unfold commitReply.
  eapply encs_eq; [encs_tac; apply (topics_encs _ _ (fun e => w_int32 (fst e) ++ w_int16 (snd e)))|].
  - discriminate.
  - intros [i er]. cbn [fst snd]. eapply encs_eq; [encs_tac|]. now rewrite app_nil_r.
  - now rewrite app_nil_r.
Qed.

Lemma commit_ok_mono A B o t p e : commit_ok A B t p e -> commit_ok A (B ++ o) t p e.
Proof.
  unfold commit_ok, commit_right, commit_in. intros [H1 [[H2 H3]|[H2 H3]]]; (split; [assumption|]); [left|right]; (split; [assumption|]).
  - rewrite app_assoc. now apply tr_has_mono.
  - now apply sometime_mono.
Qed.
Lemma commit_missing A B t p : sometime A B (fun os => tr_has t (cpIndex p) os = false) ->
  commit_ok A B t p (cpIndex p, 3).
Proof. intros H. split; [reflexivity|]. right. auto. Qed.

Lemma commit_handler port vers A c rq : handler_ok port vers A c (commit_inv A c rq).
Proof.
  split.
  - intros B n tk o Ho H. apply beside_apart, apart_commits in Ho. destruct tk; try contradiction; cbn [commit_inv] in *.
    + destruct H as (H1 & H2 & acc & H3 & H4 & H5). split_and!; auto. exists acc. split; [assumption|]. split.
      * eapply entrywise_mono; [|exact H4]. intros. now apply commit_ok_mono.
      * now rewrite commits_app, Ho, app_nil_r.
    + destruct H as (Hrq & cur & z & H1 & H2 & H3). split; [assumption|]. exists cur, z.
      split; [|split; [now apply kt_spec_mono|now rewrite commits_app, Ho, app_nil_r]].
      destruct pend; destruct H1 as [Hw Hn]; (split; [|assumption]);
        (eapply walk_mono; [|exact Hw]); intros; now apply commit_ok_mono.
  - intros s B n tk ch Hi Ht Hr H. destruct tk; try discriminate; try contradiction.
    destruct H as (-> & cur & z & H1 & H2 & H3). cbn [tstep]. cbn [task_ok] in Ht. destruct Ht as [Hkt Hpend].
    destruct pend as [p|].
    + destruct H1 as [Hw Hn]. destruct (Hpend p eq_refl) as (n0 & -> & Hp). cbn [kt_spec] in H2. subst cur.
      eexists _, _, _. split; [reflexivity|].
      apply (walk_mono _ (commit_ok A (B ++ [OCommit c n0 (cpIndex p) (cqGroup rq) (cpOffset p)]))) in Hw;
        [|intros; now apply commit_ok_mono].
      apply walk_part in Hw as (m & [= <-] & Hw). cbn [commit_inv]. split; [reflexivity|].
      eexists _, _. split; [split; [apply Hw|lia]|].
      * split; [reflexivity|]. left. split; [reflexivity|]. cbn [fst snd].
        rewrite app_assoc. apply tr_has_mono. now rewrite <- (inv_hasPart _ _ _ _ _ _ Hi).
      * split; [reflexivity|]. rewrite commits_app, H3, ackz_app. cbn. now rewrite Nat.eqb_refl.
    + destruct H1 as [Hw Hn]. destruct ops as [|[m|p] ops].
      * eexists _, _, _. split; [reflexivity|]. rewrite app_nil_r. cbn. split; [lia|]. split; [reflexivity|].
        exists acc. split; [reflexivity|]. apply walk_end in Hw as [Hw Hz]. split; [assumption|]. now rewrite <- Hz.
      * eexists _, _, _. split; [reflexivity|]. rewrite app_nil_r. cbn [commit_inv]. split; [reflexivity|].
        exists (Some m), z. cbn [length] in Hn. split; [split; [|lia]|].
        -- eapply walk_topic; eauto.
        -- split; [|assumption]. eapply kt_spec_get; eauto.
      * cbn [length] in Hn. destruct (walk_part _ _ _ _ _ _ _ Hw) as (m & Hcur & Hw'). subst cur.
        assert (Hz3 : forall e, snd e = 3 -> commits c B = ackz (cqGroup rq) (z ++ [(m, p, e)])).
        { intros e He. rewrite ackz_app, H3. cbn [ackz flat_map]. rewrite He. cbn. now rewrite app_nil_r. }
        destruct kt as [k|].
        -- cbn [kt_spec] in H2. injection H2 as ->. destruct (hasPart (sDs s) k (cpIndex p)) eqn:Ep.
           ++ eexists _, _, _. split; [reflexivity|]. rewrite app_nil_r. cbn [commit_inv]. split; [reflexivity|].
              exists (Some k), z. split; [split; [assumption|lia]|split; [reflexivity|assumption]].
           ++ eexists _, _, _. split; [reflexivity|]. rewrite app_nil_r. cbn [commit_inv]. split; [reflexivity|].
              eexists _, _. split; [split; [apply Hw'|lia]|split; [reflexivity|now apply Hz3]].
              apply commit_missing, sometime_now. now rewrite <- (inv_hasPart _ _ _ _ _ _ Hi).
        -- eexists _, _, _. split; [reflexivity|]. rewrite app_nil_r. cbn [commit_inv]. split; [reflexivity|].
           eexists _, _. split; [split; [apply Hw'|lia]|split; [exact H2|now apply Hz3]].
           apply commit_missing. destruct (H2 m eq_refl) as (B1 & HB & HP). exists B1. auto.
  - intros B n t v (_ & -> & acc & -> & _). eauto using commit_resp_enc.
Qed.

Lemma commit_inv_bound A c rq B n tk : commit_inv A c rq B n tk -> (n + 4 <= 2 * entries (cqTopics rq) + 5)%nat.
Proof.
  destruct tk; cbn [commit_inv]; try contradiction.
  - intros (H & _). lia.
  - intros (_ & cur & z & H & _). destruct pend; destruct H; lia.
Qed.

Theorem commit_answered port ch A c corr client g gen mem ret ts s :
  let m := w_request 8 2 corr client (w_commit_req g gen mem ret ts) in
  l_header 8 2 corr client = true -> l_commit g gen mem ret ts = true ->
  zlen (w_commit_req g gen mem ret ts) <= 4096 ->
  serving port ch A c m s ->
  answers c s (commit_reply (A ++ [OFrame c m]) c corr g ts) (2 * entries ts + 5).
Proof.
  intros m Hh Hl Hz Hs.
  assert (Hb : beginRequest port m = Some (corr, [], TkCommit (mk_commit_req g gen mem ret ts)
                 (plan (mk_topics mk_commit_part ts)) None None [])).
  { unfold m. rewrite begin_request by assumption. change (dispatch 8 2) with (Some ApiOffsetCommit). cbn [startApi].
    rewrite <- (app_nil_r (w_commit_req _ _ _ _ _)).
    rewrite (with_req_good _ _ _ _ _ [] _ (commit_good _ _ _ _ _ Hl)) by (try assumption; apply commit_req_of_val).
    reflexivity. }
  destruct (serving_inv _ _ _ _ _ _ _ _ _ Hs Hb) as (inb & Hk & Hi & Hc).
  eapply (answers_intro port (initApiVersions ch) (A ++ [OFrame c m]) c corr
    (commit_inv (A ++ [OFrame c m]) c (mk_commit_req g gen mem ret ts))); eauto using commit_handler.
  - cbn [commit_inv]. split; [reflexivity|]. exists None, []. split; [|split; [discriminate|reflexivity]].
    split; [constructor|]. now rewrite plan_length.
  - intros B n tk H. rewrite <- (entries_mk mk_commit_part ts). exact (commit_inv_bound _ _ _ _ _ _ H).
  - intros B n t v payload (_ & -> & acc & -> & He & Hcm) Hp. rewrite commit_resp_enc in Hp. injection Hp as <-.
    eexists. split; [reflexivity|]. split.
    + apply entrywise_mk in He. eapply entrywise_mono; [|exact He]. intros t p e. unfold commit_ok.
      now rewrite commit_in_mk.
    + rewrite Hcm. apply ackz_acked.
Qed.
