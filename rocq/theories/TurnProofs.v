(** * TurnProofs: the entries of a request are looked at one after the other *)
From Verif Require Export TurnSpec ListProofs CommitProofs OffProofs Demo.
From stdpp Require Import gmap list.
From Coq Require Import ZifyBool ZifyNat Sorted.
Open Scope Z_scope.
Open Scope list_scope.

Lemma sorted_snoc ns m : StronglySorted le ns -> Forall (fun n => (n <= m)%nat) ns -> StronglySorted le (ns ++ [m]).
Proof.
  induction 1 as [|n ns _ IH Hn]; intros F; [repeat constructor|]. inversion F; subst. cbn. constructor; [now apply IH|].
  apply Forall_app. split; [assumption|]. now repeat constructor.
Qed.
Lemma firstn_le {A} (B o : list A) n : (n <= length B)%nat -> firstn n (B ++ o) = firstn n B.
Proof. intros H. rewrite firstn_app. replace (n - length B)%nat with 0%nat by lia. cbn. apply app_nil_r. Qed.

Section turn.
Context {P E : Type} (right : list obs -> bytes -> P -> E -> Prop) (A : list obs).
(** So far; the last look was at moment [m], when [dead] held. *)
Definition turn (B : list obs) (dead : list obs -> Prop) (es : list (bytes * P * E)) : Prop :=
  exists ns m, StronglySorted le ns /\ Forall (fun n => (n <= m)%nat) ns /\ (m <= length B)%nat /\ dead (A ++ firstn m B) /\
    Forall2 (fun n (x : bytes * P * E) => let '(t, p, e) := x in (n <= length B)%nat /\ right (A ++ firstn n B) t p e) ns es.

Lemma turn_start B (dead : list obs -> Prop) : dead A -> turn B dead [].
Proof. intros H. exists [], 0%nat. cbn. rewrite app_nil_r. repeat split; [constructor|constructor|lia|exact H|constructor]. Qed.
Lemma turn_mono B o dead es : turn B dead es -> turn (B ++ o) dead es.
Proof.
  intros (ns & m & S & F & M & D & R). exists ns, m. split; [exact S|]. split; [exact F|]. split; [rewrite app_length; lia|].
  split; [now rewrite firstn_le|]. clear - R. induction R as [|n [[t p] e] ns es [L H] _ IH]; constructor; [|exact IH].
  split; [rewrite app_length; lia|now rewrite firstn_le].
Qed.
Lemma turn_now B dead (dead' : list obs -> Prop) es : turn B dead es -> dead' (A ++ B) -> turn B dead' es.
Proof.
  intros (ns & m & S & F & M & D & R) D'. exists ns, (length B). split; [exact S|].
  split; [eapply Forall_impl; [exact F|]; cbn; intros; lia|]. split; [lia|]. split; [now rewrite firstn_all|exact R].
Qed.
Lemma turn_add B dead es t p e : turn B dead es -> right (A ++ B) t p e -> turn B (fun _ => True) (es ++ [(t, p, e)]).
Proof.
  intros (ns & m & S & F & M & D & R) H.
  assert (F' : Forall (fun n => (n <= length B)%nat) ns) by (eapply Forall_impl; [exact F|]; cbn; intros; lia).
  exists (ns ++ [length B]), (length B). split; [now apply sorted_snoc|]. split; [apply Forall_app; split; [exact F'|now repeat constructor]|].
  split; [lia|]. split; [exact I|]. apply Forall2_app; [exact R|]. constructor; [|constructor]. split; [lia|now rewrite firstn_all].
Qed.
Lemma turn_add_then B (dead : list obs -> Prop) es t p e : turn B dead es -> (forall os, dead os -> right os t p e) -> turn B dead (es ++ [(t, p, e)]).
Proof.
  intros (ns & m & S & F & M & D & R) H. exists (ns ++ [m]), m. split; [now apply sorted_snoc|].
  split; [apply Forall_app; split; [exact F|now repeat constructor]|]. split; [lia|]. split; [exact D|].
  apply Forall2_app; [exact R|]. constructor; [|constructor]. split; [lia|]. now apply H.
Qed.
Lemma turn_in B dead es : turn B dead es -> in_turn A B right es.
Proof. intros (ns & m & S & F & M & D & R). exists ns. auto. Qed.
End turn.

Lemma in_turn_map {P P' E E'} (right : list obs -> bytes -> P -> E -> Prop) (right' : list obs -> bytes -> P' -> E' -> Prop) A B f g es :
  (forall os t p e, right os t p e -> right' os t (f p) (g e)) -> in_turn A B right es ->
  in_turn A B right' (map (fun x => (fst (fst x), f (snd (fst x)), g (snd x))) es).
Proof.
  intros H (ns & S & R). exists ns. split; [exact S|]. clear S. induction R as [|n [[t p] e] ns es [L X] _ IH]; constructor; [|exact IH].
  cbn. auto.
Qed.
Lemma pairs_zipped {P E} (r : bytes -> P -> E -> Prop) ts acc : entrywise r ts acc -> pairs ts acc = zipped ts acc.
Proof.
  unfold pairs, zipped, flat. induction 1 as [|[n ps] [m es] ts acc [_ H] _ IH]; [reflexivity|]. cbn [map concat combine flat_map fst snd].
  rewrite combine_app by (rewrite map_length; exact (Forall2_length _ _ _ H)). rewrite IH. f_equal. rewrite combine_map_l.
  apply map_ext. now intros [? ?].
Qed.

(** [cur] is the topic being dealt with, [kt] what was found. *)
Definition gone (kt cur : option bytes) (os : list obs) : Prop :=
  match kt with Some n => cur = Some n | None => forall n, cur = Some n -> forall p, tr_has n p os = false end.
Lemma gone_get port vers A B s n : inv port vers (A ++ B) s -> gone (if getTopic (sDs s) n then Some n else None) (Some n) (A ++ B).
Proof.
  intros H. destruct (getTopic (sDs s) n) eqn:E; cbn; [reflexivity|]. intros n' [= <-] p. eapply inv_no_topic; eauto.
Qed.
Definition anyway {P E} (_ : bytes) (_ : P) (_ : E) : Prop := True.

(** ** ListOffsets *)
Definition list_look (os : list obs) (t : bytes) (p : list_part) (e : Z * (Z * Z * Z)) : Prop :=
  list_right os t (lpIndex p, lpTime p) (list_ent e).
Definition list_tinv (A : list obs) (ts : list (bytes * list list_part)) (B : list obs) (n : nat) (tk : task) : Prop :=
  match tk with
  | TkList rq ops kt pend acc =>
      exists cur z,
        match pend with
        | None => walk anyway ts ops cur acc z /\ (n + 2 * length ops <= 2 * entries ts)%nat
        | Some p => walk anyway ts (WPart p :: ops) cur acc z /\ (n + 2 * length ops + 1 <= 2 * entries ts)%nat
        end /\ turn list_look A B (gone kt cur) z
  | TkRet t v =>
      (n <= 2 * entries ts + 1)%nat /\ t = TPtr tListResp /\
      exists acc, v = VPtr (Some (listReply acc)) /\ entrywise anyway ts acc /\ in_turn A B list_look (zipped ts acc)
  | _ => False
  end.
Lemma in_turn_mono {P E} (right : list obs -> bytes -> P -> E -> Prop) A B o es : in_turn A B right es -> in_turn A (B ++ o) right es.
Proof.
  intros (ns & S & R). exists ns. split; [exact S|]. clear S. induction R as [|n [[t p] e] ns es [L H] _ IH]; constructor; [|exact IH].
  split; [rewrite app_length; lia|now rewrite firstn_le].
Qed.
Lemma list_look_none os t p w : tr_has t (lpIndex p) os = false -> list_look os t p (lpIndex p, listOne None (lpTime p) w).
Proof. intros H. cbn. split; [reflexivity|]. now rewrite H. Qed.

Lemma list_thandler port vers A c ts : handler_ok port vers A c (list_tinv A ts).
Proof.
  split.
  - intros B n tk o _ H. destruct tk; try contradiction; cbn in *.
    + destruct H as (H1 & H2 & acc & H3 & H4 & H5). split_and!; auto. exists acc. split; [assumption|].
      split; [assumption|]. now apply in_turn_mono.
    + destruct H as (cur & z & H1 & H2). exists cur, z. split; [|now apply turn_mono]. exact H1.
  - intros s B n tk ch Hi Ht Hr H. destruct tk; try discriminate; try contradiction.
    destruct H as (cur & z & H1 & H2). cbn [tstep env_of eWall]. cbn [task_ok] in Ht. destruct Ht as [Hkt Hpend].
    assert (G : forall k, kt = Some k -> cur = Some k) by (intros k ->; destruct H2 as (? & ? & _ & _ & _ & X & _); exact X).
    destruct pend as [p|].
    + destruct H1 as [Hw Hn]. destruct (Hpend p eq_refl) as (n0 & -> & Hp). pose proof (G n0 eq_refl) as ->.
      eexists _, _, _. split; [reflexivity|]. rewrite app_nil_r.
      apply walk_part in Hw as (m & [= <-] & Hw). cbn [list_tinv].
      eexists _, _. split; [split; [apply Hw; exact I|lia]|].
      eapply turn_now; [|reflexivity]. eapply turn_add; [exact H2|].
      pose proof (proj2 (i_store _ _ _ _ Hi) n0 (lpIndex p)) as Hpo. unfold hasPart in Hp.
      destruct (lookupPart (sDs s) n0 (lpIndex p)) as [kp|]; [|discriminate].
      pose proof (listOne_right _ _ _ (lpTime p) _ _ Hpo (eq_sym (i_wall _ _ _ _ Hi))) as Hl.
      unfold list_look. destruct (listOne (Some kp) (lpTime p) (sWall s)) as [[er tm] o]. exact Hl.
    + destruct H1 as [Hw Hn]. destruct ops as [|[m|p] ops].
      * eexists _, _, _. split; [reflexivity|]. rewrite app_nil_r. cbn. split; [lia|]. split; [reflexivity|].
        exists acc. split; [reflexivity|]. apply walk_end in Hw as [Hw ->]. split; [exact Hw|]. eapply turn_in, H2.
      * eexists _, _, _. split; [reflexivity|]. rewrite app_nil_r. cbn [list_tinv].
        exists (Some m), z. cbn [length] in Hn. split; [split; [|lia]|].
        -- eapply walk_topic; eauto.
        -- eapply turn_now; [exact H2|]. eapply gone_get; eauto.
      * cbn [length] in Hn. destruct (walk_part _ _ _ _ _ _ _ Hw) as (m & Hcur & Hw'). subst cur.
        destruct kt as [k|].
        -- specialize (G k eq_refl). injection G as ->. destruct (hasPart (sDs s) k (lpIndex p)) eqn:Ep.
           ++ eexists _, _, _. split; [reflexivity|]. rewrite app_nil_r. cbn [list_tinv].
              exists (Some k), z. split; [split; [assumption|lia]|exact H2].
           ++ eexists _, _, _. split; [reflexivity|]. rewrite app_nil_r. cbn [list_tinv].
              eexists _, _. split; [split; [apply Hw'; exact I|lia]|]. eapply turn_now; [|reflexivity].
              eapply turn_add; [exact H2|]. apply list_look_none. now rewrite <- (inv_hasPart _ _ _ _ _ _ Hi).
        -- eexists _, _, _. split; [reflexivity|]. rewrite app_nil_r. cbn [list_tinv].
           eexists _, _. split; [split; [apply Hw'; exact I|lia]|].
           apply turn_add_then; [exact H2|]. intros os Hg. apply list_look_none. now apply Hg.
  - intros B n t v (_ & -> & acc & -> & _). eauto using list_resp_enc.
Qed.
Lemma list_tinv_bound A ts B n tk : list_tinv A ts B n tk -> (n + 4 <= 2 * entries ts + 5)%nat.
Proof.
  destruct tk; cbn [list_tinv]; try contradiction.
  - intros (H & _). lia.
  - intros (cur & z & H & _). destruct pend; destruct H; lia.
Qed.
Lemma combine_map_r {A B B'} (f : B -> B') (a : list A) (b : list B) :
  combine a (map f b) = map (fun x => (fst x, f (snd x))) (combine a b).
Proof. revert b. induction a as [|x a IH]; intros [|y b]; cbn; try reflexivity. now rewrite IH. Qed.

Theorem list_turns port ch A c corr client replica ts s :
  let m := w_request 2 1 corr client (w_list_req replica ts) in
  l_header 2 1 corr client = true -> l_list replica ts = true -> zlen (w_list_req replica ts) <= 4096 ->
  serving port ch A c m s ->
  answers c s (list_in_turn (A ++ [OFrame c m]) corr ts) (2 * entries ts + 5).
Proof.
  intros m Hh Hl Hz Hs.
  assert (Hb : beginRequest port m = Some (corr, [], TkList (mk_list_req replica ts)
                 (plan (mk_topics mk_list_part ts)) None None [])).
  { unfold m. rewrite begin_request by assumption. change (dispatch 2 1) with (Some ApiListOffsets). cbn [startApi].
    rewrite <- (app_nil_r (w_list_req _ _)).
    rewrite (with_req_good _ _ _ _ _ [] _ (list_good _ _ Hl)) by (try assumption; apply list_req_of_val).
    reflexivity. }
  destruct (serving_inv _ _ _ _ _ _ _ _ _ Hs Hb) as (inb & Hk & Hi & Hc).
  eapply (answers_intro port (initApiVersions ch) (A ++ [OFrame c m]) c corr
    (list_tinv (A ++ [OFrame c m]) (mk_topics mk_list_part ts))); eauto using list_thandler.
  - cbn [list_tinv]. exists None, []. split; [|apply turn_start; discriminate]. split; [constructor|]. now rewrite plan_length.
  - intros B n tk H. rewrite <- (entries_mk mk_list_part ts). eapply list_tinv_bound, H.
  - intros B n t v payload (_ & -> & acc & -> & He & Hin) Hp. rewrite list_resp_enc in Hp. injection Hp as <-.
    apply entrywise_mk in He.
    assert (Hsh : same_shape ts (map (fun t => (fst t, map list_ent (snd t))) acc)).
    { unfold same_shape, entrywise in *. apply Forall2_fmap_r. revert He. apply Forall2_mono.
      intros [n1 ps] [n2 es] [H1 H2]. cbn [fst snd] in *. split; [assumption|].
      apply Forall2_fmap_r. revert H2. apply Forall2_mono. auto. }
    eexists. split; [reflexivity|]. split; [exact Hsh|].
    rewrite zipped_mk, <- (pairs_zipped _ _ _ He) in Hin.
    apply (in_turn_map _ list_right _ _ (fun p => (lpIndex p, lpTime p)) list_ent) in Hin; [|auto].
    rewrite map_map in Hin. cbn [fst snd] in Hin. unfold pairs in *. rewrite map_map. cbn [snd].
    replace (concat (map (fun x => map list_ent (snd x)) acc)) with (map list_ent (concat (map snd acc)))
      by (rewrite concat_map, map_map; reflexivity).
    rewrite combine_map_r. erewrite map_ext; [exact Hin|]. intros [[t [i T]] e]. reflexivity.
Qed.

(** ** OffsetCommit *)
Definition commit_look (c : nat) (g : bytes) (os : list obs) (t : bytes) (p : commit_part) (e : Z * Z) : Prop :=
  commit_now c g os t (commit_in p) e.
Definition commit_tinv (A : list obs) (c : nat) (rq : commit_req) (B : list obs) (n : nat) (tk : task) : Prop :=
  match tk with
  | TkCommit rq' ops kt pend acc =>
      rq' = rq /\
      exists cur z,
        match pend with
        | None => walk anyway (cqTopics rq) ops cur acc z /\
                  (n + 2 * length ops <= 2 * entries (cqTopics rq))%nat
        | Some p => walk anyway (cqTopics rq) (WPart p :: ops) cur acc z /\
                  (n + 2 * length ops + 1 <= 2 * entries (cqTopics rq))%nat
        end /\ turn (commit_look c (cqGroup rq)) A B (gone kt cur) z /\ commits c B = ackz (cqGroup rq) z
  | TkRet t v =>
      (n <= 2 * entries (cqTopics rq) + 1)%nat /\ t = TPtr tCommitResp /\
      exists acc, v = VPtr (Some (commitReply acc)) /\ entrywise anyway (cqTopics rq) acc /\
        in_turn A B (commit_look c (cqGroup rq)) (zipped (cqTopics rq) acc) /\
        commits c B = ackz (cqGroup rq) (zipped (cqTopics rq) acc)
  | _ => False
  end.
Lemma commit_look_none c g os t p : tr_has t (cpIndex p) os = false -> commit_look c g os t p (cpIndex p, 3).
Proof. intros H. split; [reflexivity|]. right. auto. Qed.

Lemma commit_thandler port vers A c rq : handler_ok port vers A c (commit_tinv A c rq).
Proof.
  split.
  - intros B n tk o Ho H. apply beside_apart, apart_commits in Ho. destruct tk; try contradiction; cbn [commit_tinv] in *.
    + destruct H as (H1 & H2 & acc & H3 & H4 & H5 & H6). split_and!; auto. exists acc. split; [assumption|]. split; [assumption|].
      split; [now apply in_turn_mono|]. now rewrite commits_app, Ho, app_nil_r.
    + destruct H as (Hrq & cur & z & H1 & H2 & H3). split; [assumption|]. exists cur, z.
      split; [exact H1|split; [now apply turn_mono|now rewrite commits_app, Ho, app_nil_r]].
  - intros s B n tk ch Hi Ht Hr H. destruct tk; try discriminate; try contradiction.
    destruct H as (-> & cur & z & H1 & H2 & H3). cbn [tstep]. cbn [task_ok] in Ht. destruct Ht as [Hkt Hpend].
    assert (G : forall k, kt = Some k -> cur = Some k) by (intros k ->; destruct H2 as (? & ? & _ & _ & _ & X & _); exact X).
    destruct pend as [p|].
    + destruct H1 as [Hw Hn]. destruct (Hpend p eq_refl) as (n0 & -> & Hp). pose proof (G n0 eq_refl) as ->.
      eexists _, _, _. split; [reflexivity|].
      apply walk_part in Hw as (m & [= <-] & Hw). cbn [commit_tinv]. split; [reflexivity|].
      eexists _, _. split; [split; [apply Hw; exact I|lia]|]. split.
      * eapply turn_now; [|reflexivity]. eapply turn_add; [apply turn_mono; exact H2|].
        split; [reflexivity|]. left. split; [reflexivity|]. exists (A ++ B). split; [apply app_assoc|]. now rewrite <- (inv_hasPart _ _ _ _ _ _ Hi).
      * rewrite commits_app, H3, ackz_app. cbn. now rewrite Nat.eqb_refl.
    + destruct H1 as [Hw Hn]. destruct ops as [|[m|p] ops].
      * eexists _, _, _. split; [reflexivity|]. rewrite app_nil_r. cbn. split; [lia|]. split; [reflexivity|].
        exists acc. split; [reflexivity|]. apply walk_end in Hw as [Hw Hz]. rewrite <- Hz. split; [exact Hw|]. split; [eapply turn_in, H2|exact H3].
      * eexists _, _, _. split; [reflexivity|]. rewrite app_nil_r. cbn [commit_tinv]. split; [reflexivity|].
        exists (Some m), z. cbn [length] in Hn. split; [split; [|lia]|].
        -- eapply walk_topic; eauto.
        -- split; [|assumption]. eapply turn_now; [exact H2|]. eapply gone_get; eauto.
      * cbn [length] in Hn. destruct (walk_part _ _ _ _ _ _ _ Hw) as (m & Hcur & Hw'). subst cur.
        assert (Hz3 : forall e, snd e = 3 -> commits c B = ackz (cqGroup rq) (z ++ [(m, p, e)])).
        { intros e He. rewrite ackz_app, H3. cbn [ackz flat_map]. rewrite He. cbn. now rewrite app_nil_r. }
        destruct kt as [k|].
        -- specialize (G k eq_refl). injection G as ->. destruct (hasPart (sDs s) k (cpIndex p)) eqn:Ep.
           ++ eexists _, _, _. split; [reflexivity|]. rewrite app_nil_r. cbn [commit_tinv]. split; [reflexivity|].
              exists (Some k), z. split; [split; [assumption|lia]|split; [exact H2|assumption]].
           ++ eexists _, _, _. split; [reflexivity|]. rewrite app_nil_r. cbn [commit_tinv]. split; [reflexivity|].
              eexists _, _. split; [split; [apply Hw'; exact I|lia]|split; [|now apply Hz3]]. eapply turn_now; [|reflexivity].
              eapply turn_add; [exact H2|]. apply commit_look_none. now rewrite <- (inv_hasPart _ _ _ _ _ _ Hi).
        -- eexists _, _, _. split; [reflexivity|]. rewrite app_nil_r. cbn [commit_tinv]. split; [reflexivity|].
           eexists _, _. split; [split; [apply Hw'; exact I|lia]|split; [|now apply Hz3]].
           apply turn_add_then; [exact H2|]. intros os Hg. apply commit_look_none. now apply Hg.
  - intros B n t v (_ & -> & acc & -> & _). eauto using commit_resp_enc.
Qed.
Lemma commit_tinv_bound A c rq B n tk : commit_tinv A c rq B n tk -> (n + 4 <= 2 * entries (cqTopics rq) + 5)%nat.
Proof.
  destruct tk; cbn [commit_tinv]; try contradiction.
  - intros (H & _). lia.
  - intros (_ & cur & z & H & _). destruct pend; destruct H; lia.
Qed.

Theorem commit_turns port ch A c corr client g gen mem ret ts s :
  let m := w_request 8 2 corr client (w_commit_req g gen mem ret ts) in
  l_header 8 2 corr client = true -> l_commit g gen mem ret ts = true ->
  zlen (w_commit_req g gen mem ret ts) <= 4096 ->
  serving port ch A c m s ->
  answers c s (commit_in_turn (A ++ [OFrame c m]) c corr g ts) (2 * entries ts + 5).
Proof.
  intros m Hh Hl Hz Hs.
  assert (Hb : beginRequest port m = Some (corr, [], TkCommit (mk_commit_req g gen mem ret ts)
                 (plan (mk_topics mk_commit_part ts)) None None [])).
  { unfold m. rewrite begin_request by assumption. change (dispatch 8 2) with (Some ApiOffsetCommit). cbn [startApi].
    rewrite <- (app_nil_r (w_commit_req _ _ _ _ _)).
    rewrite (with_req_good _ _ _ _ _ [] _ (commit_good _ _ _ _ _ Hl)) by (try assumption; apply commit_req_of_val).
    reflexivity. }
  destruct (serving_inv _ _ _ _ _ _ _ _ _ Hs Hb) as (inb & Hk & Hi & Hc).
  eapply (answers_intro port (initApiVersions ch) (A ++ [OFrame c m]) c corr
    (commit_tinv (A ++ [OFrame c m]) c (mk_commit_req g gen mem ret ts))); eauto using commit_thandler.
  - cbn [commit_tinv]. split; [reflexivity|]. exists None, []. split; [|split; [apply turn_start; discriminate|reflexivity]].
    split; [constructor|]. now rewrite plan_length.
  - intros B n tk H. rewrite <- (entries_mk mk_commit_part ts). exact (commit_tinv_bound _ _ _ _ _ _ H).
  - intros B n t v payload (_ & -> & acc & -> & He & Hin & Hcm) Hp. rewrite commit_resp_enc in Hp. injection Hp as <-.
    apply entrywise_mk in He. eexists. split; [reflexivity|]. split; [exact He|]. split; [rewrite Hcm; apply ackz_acked|].
    cbn [cqTopics mk_commit_req] in Hin. rewrite zipped_mk, <- (pairs_zipped _ _ _ He) in Hin.
    apply (in_turn_map _ (commit_now c g) _ _ commit_in id) in Hin; [|auto].
    rewrite map_map in Hin. cbn [fst snd] in Hin. erewrite <- (map_id (pairs ts acc)), map_ext; [exact Hin|].
    intros [[t p] e]. cbn [fst snd]. now rewrite commit_in_mk.
Qed.

(** ** OffsetFetch *)
Lemma handler_and port vers A c (I J : list obs -> nat -> task -> Prop) : handler_ok port vers A c I ->
  (forall B n tk o, Forall (beside c) o -> J B n tk -> J (B ++ o) n tk) ->
  (forall s B n tk ch ds tk' o, inv port vers (A ++ B) s -> I B n tk -> J B n tk -> is_ret tk = false ->
     tstep c (env_of s) ch (sDs s) tk = TCont ds tk' o -> J (B ++ o) (S n) tk') ->
  handler_ok port vers A c (fun B n tk => I B n tk /\ J B n tk).
Proof.
  intros [H1 H2 H3] K1 K2. split.
  - intros B n tk o Ho [Hi Hj]. auto.
  - intros s B n tk ch Hi Ht Hr [HI HJ]. destruct (H2 s B n tk ch Hi Ht Hr HI) as (ds & tk' & o & E & HI').
    exists ds, tk', o. split; [exact E|]. split; [exact HI'|]. eapply K2; eassumption.
  - intros B n t v [HI _]. eapply H3, HI.
Qed.
Definition off_look (g : bytes) (os : list obs) (t : bytes) (i o : Z) : Prop := o = tr_off t i g os.
Definition off_turn (A : list obs) (g : bytes) (B : list obs) (n : nat) (tk : task) : Prop :=
  match tk with
  | TkOffOpen _ _ _ _ => True
  | TkOffRead rq ops kt acc => oqGroup rq = g /\ turn (off_look g) A B (fun _ => True) (offsets_in acc) /\
      match kt with Some k => exists acc' l, acc = acc' ++ [(k, l)] | None => True end
  | TkRet t v => exists acc, v = VPtr (Some (offReply acc)) /\ in_turn A B (off_look g) (offsets_in acc)
  | _ => False
  end.
Lemma offsets_in_snoc acc k l : offsets_in (acc ++ [(k, l)]) =
  offsets_in acc ++ map (fun e : Z * Z * option bytes * Z => let '(i, o, m, er) := e in (k, i, o)) l.
Proof.
  unfold offsets_in, flat. rewrite map_app, concat_app, map_app. f_equal. cbn. rewrite app_nil_r, map_map. apply map_ext.
  now intros [[[i o] m] er].
Qed.
Lemma off_thandler port vers A c rq :
  handler_ok port vers A c (fun B n tk => off_inv A rq B n tk /\ off_turn A (oqGroup rq) B n tk).
Proof.
  apply handler_and; [apply off_handler| |].
  - intros B n tk o _ H. destruct tk; try contradiction; cbn [off_turn] in *.
    + destruct H as (acc & H1 & H2). exists acc. split; [exact H1|]. now apply in_turn_mono.
    + exact I.
    + destruct H as (H1 & H2 & H3). split; [exact H1|]. split; [now apply turn_mono|exact H3].
  - intros s B n tk ch ds tk' o Hi HI HJ Hr E. destruct tk; try contradiction; try discriminate; cbn [tstep] in E.
    + destruct HI as (-> & _). destruct ops as [|[m|p] ops].
      * injection E as _ <- <-. cbn [off_turn]. split; [reflexivity|]. split; [|exact I]. now apply turn_start.
      * injection E as _ <- <-. exact I.
      * destruct kt; [destruct (hasPart _ _ _)|]; injection E as _ <- <-; exact I.
    + destruct HJ as (Hg & HT & HK). destruct ops as [|[m|p] ops].
      * injection E as _ <- <-. rewrite app_nil_r. exists acc. split; [reflexivity|]. eapply turn_in, HT.
      * injection E as _ <- <-. rewrite app_nil_r. cbn [off_turn]. split; [exact Hg|]. split; [|exists acc, []; reflexivity].
        rewrite offsets_in_snoc, app_nil_r. exact HT.
      * destruct kt as [k|]; [|discriminate]. destruct (lookupPart (sDs s) k p) as [kp|] eqn:Ep; [|discriminate].
        injection E as _ <- <-. rewrite app_nil_r. cbn [off_turn]. split; [exact Hg|]. destruct HK as (acc' & l & ->).
        pose proof (proj2 (i_store _ _ _ _ Hi) k p) as Hpo. rewrite Ep in Hpo. rewrite add_last_snoc. split; [|eauto].
        rewrite offsets_in_snoc, map_app, app_assoc, <- offsets_in_snoc. eapply turn_add; [exact HT|].
        unfold off_look. rewrite (po_index _ _ _ _ Hpo), Hg. exact (po_off _ _ _ _ Hpo (oqGroup rq)).
Qed.
Theorem off_turns port ch A c corr client g ts s :
  let m := w_request 9 1 corr client (w_off_req g ts) in
  l_header 9 1 corr client = true -> l_off g ts = true -> zlen (w_off_req g ts) <= 4096 ->
  serving port ch A c m s ->
  answers c s (off_in_turn (A ++ [OFrame c m]) corr g ts) (3 * entries ts + 6).
Proof.
  intros m Hh Hl Hz Hs.
  assert (Hb : beginRequest port m = Some (corr, [], TkOffOpen (OffReq g ts) (plan ts) None [])).
  { unfold m. rewrite begin_request by assumption. change (dispatch 9 1) with (Some ApiOffsetFetch). cbn [startApi].
    rewrite <- (app_nil_r (w_off_req _ _)).
    rewrite (with_req_good _ _ _ _ _ [] _ (off_good _ _ Hl)) by (try assumption; apply off_req_of_val).
    reflexivity. }
  destruct (serving_inv _ _ _ _ _ _ _ _ _ Hs Hb) as (inb & Hk & Hi & Hc).
  eapply (answers_intro port (initApiVersions ch) (A ++ [OFrame c m]) c corr
    (fun B n tk => off_inv (A ++ [OFrame c m]) (OffReq g ts) B n tk /\ off_turn (A ++ [OFrame c m]) g B n tk)); eauto.
  - exact (off_thandler port _ _ c (OffReq g ts)).
  - split; [|exact I]. cbn [off_inv oqTopics]. split; [reflexivity|]. exists [], [], None. cbn [default].
    split; [symmetry; apply rest_flat_plan|]. split; [constructor|]. split; [apply grouped_nil|].
    split; [discriminate|]. split; [reflexivity|]. rewrite plan_length. split; [reflexivity|].
    change (entries (@nil (bytes * list Z))) with 0%nat. apply Nat.le_refl.
  - intros B n tk [H _]. exact (off_inv_bound _ _ _ _ _ H).
  - intros B n t v payload [(_ & -> & _) (acc & -> & Hin)] Hp.
    rewrite off_resp_enc in Hp. injection Hp as <-. exists acc. split; [reflexivity|exact Hin].
Qed.

(** ** What follows for one partition asked twice *)
Lemma tr_log_grows t p A B n n' : (n <= n')%nat -> zlen (tr_log t p (A ++ firstn n B)) <= zlen (tr_log t p (A ++ firstn n' B)).
Proof.
  intros H. assert (E : firstn n' B = firstn n B ++ skipn n (firstn n' B)).
  { rewrite <- (firstn_skipn n (firstn n' B)) at 1. f_equal. rewrite firstn_firstn. f_equal. lia. }
  rewrite E, app_assoc. unfold tr_log. rewrite (flat_map_app _ (A ++ firstn n B)). rewrite zlen_app. pose proof (zlen_nonneg (flat_map (fun o => match o with
                     | OPosted _ t' p' r => if same t p t' p' then [r] else []
                     | _ => [] end) (skipn n (firstn n' B)))). lia.
Qed.
Theorem later_is_more A B es t p i j e1 e2 : in_turn A B list_right es -> (i <= j)%nat ->
  nth_error es i = Some (t, (p, -1), e1) -> nth_error es j = Some (t, (p, -1), e2) ->
  snd e1 <= snd e2.
Proof.
  intros (ns & S & R) Hij H1 H2.
  assert (G : forall k t p e, nth_error es k = Some (t, (p, -1), e) -> exists n, nth_error ns k = Some n /\ list_right (A ++ firstn n B) t (p, -1) e).
  { clear - R. induction R as [|n [[t p] e] ns es [L H] _ IH]; intros k t' p' e' Hk; [now destruct k|].
    destruct k as [|k]; [|exact (IH k t' p' e' Hk)]. injection Hk as -> -> ->. exists n. auto. }
  destruct (G _ _ _ _ H1) as (n1 & N1 & L1). destruct (G _ _ _ _ H2) as (n2 & N2 & L2).
  assert (Hn : (n1 <= n2)%nat).
  { clear - S N1 N2 Hij. revert i j Hij N1 N2. induction S as [|n ns _ IH F]; intros i j Hij N1 N2; [now destruct i|].
    destruct i as [|i], j as [|j]; cbn in N1, N2; try (injection N1 as <-); try (injection N2 as <-); try lia.
    - eapply Forall_forall in F; [exact F|]. apply elem_of_list_In. eapply nth_error_In, N2.
    - eapply (IH i j); [lia|exact N1|exact N2]. }
  destruct e1 as [[[i1 er1] tm1] o1], e2 as [[[i2 er2] tm2] o2]. unfold list_right in L1, L2. cbn in L1, L2. cbn.
  destruct L1 as [_ L1], L2 as [_ L2]. pose proof (tr_log_grows t p A B n1 n2 Hn) as T.
  destruct (tr_has t p (A ++ firstn n1 B)) eqn:Q1.
  - assert (Q2 : tr_has t p (A ++ firstn n2 B) = true).
    { assert (E : firstn n2 B = firstn n1 B ++ skipn n1 (firstn n2 B)).
      { rewrite <- (firstn_skipn n1 (firstn n2 B)) at 1. f_equal. rewrite firstn_firstn. f_equal. lia. }
      rewrite E, app_assoc. now apply tr_has_mono. }
    rewrite Q2 in L2. destruct L1 as (_ & -> & _), L2 as (_ & -> & _). exact T.
  - destruct L1 as (_ & _ & ->). destruct (tr_has t p (A ++ firstn n2 B)); [destruct L2 as (_ & -> & _); apply zlen_nonneg|destruct L2 as (_ & _ & ->); lia].
Qed.

(** ** No snapshot *)
Definition snap_setup : list event :=
  [EvCall (CallCreate [topicA] 0); EvApi 0; EvApi 0; EvApi 0; EvCall (CallCreate [topicA] 1); EvApi 1; EvApi 1; EvApi 1; EvAccept; EvConn 0 ch0].
Definition snap_m : bytes := w_request 2 1 9 clientA (w_list_req (-1) [(topicA, [(0, -1); (1, -1)])]).
Definition snap_before : list event := snap_setup ++ [EvRecv 0 (w_frame snap_m)].
Definition snap_A : list obs := snd (run (init 9092 []) snap_before).
Definition snap_s : sys := fst (step (fst (run (init 9092 []) snap_before)) (EvConn 0 ch0)).
Definition snap_evs : list event := repeat (EvConn 0 ch0) 3 ++
  [EvCall (CallPost topicA 0 None None [] (Some 5)); EvApi 2; EvApi 2; EvApi 2; EvApi 2;
   EvCall (CallPost topicA 1 None None [] (Some 5)); EvApi 3; EvApi 3; EvApi 3; EvApi 3] ++ repeat (EvConn 0 ch0) 7.
Definition snap_B : list obs := snd (run snap_s snap_evs).
Definition snap_ents : list (bytes * list (Z * Z * Z * Z)) := [(topicA, [(0, 0, 0, 0); (1, 0, 0, 1)])].
Lemma snap_serving : serving 9092 [] snap_A 0 snap_m snap_s.
Proof. apply (serving_run 9092 [] snap_before (EvConn 0 ch0) 0 snap_m). vm_compute. reflexivity. Qed.
Lemma snap_check ta os : (zlen (tr_log ta 0 os) =? 0) && (zlen (tr_log ta 1 os) =? 1) = false ->
  tr_has ta 0 os = true -> tr_has ta 1 os = true ->
  ~ Forall (fun x : bytes * (Z * Z) * (Z * Z * Z * Z) => let '(t, p, e) := x in list_right os t p e)
      [(ta, (0, -1), (0, 0, 0, 0)); (ta, (1, -1), (1, 0, 0, 1))].
Proof.
  intros H H0 H1 F. inversion F as [|x l X0 F1 E1]; subst. inversion F1 as [|x l X1 F2 E2]; subst. unfold list_right in X0, X1.
  rewrite H0 in X0. rewrite H1 in X1. cbn in X0, X1. destruct X0 as (_ & _ & X0 & _), X1 as (_ & _ & X1 & _). rewrite <- X0, <- X1 in H. discriminate.
Qed.
Definition snap_bad (ta : bytes) (os : list obs) : bool :=
  negb ((zlen (tr_log ta 0 os) =? 0) && (zlen (tr_log ta 1 os) =? 1)) && tr_has ta 0 os && tr_has ta 1 os.
Lemma snap_all ta A (B : list obs) : forallb (fun n => snap_bad ta (A ++ firstn n B)) (seq 0 (S (length B))) = true ->
  forall n, ~ Forall (fun x : bytes * (Z * Z) * (Z * Z * Z * Z) => let '(t, p, e) := x in list_right (A ++ firstn n B) t p e)
      [(ta, (0, -1), (0, 0, 0, 0)); (ta, (1, -1), (1, 0, 0, 1))].
Proof.
  intros T n. assert (E : firstn n B = firstn (Nat.min n (length B)) B).
  { destruct (Nat.le_gt_cases n (length B)); [now rewrite Nat.min_l by assumption|].
    rewrite Nat.min_r by lia. rewrite !firstn_all2; [reflexivity|lia|lia]. }
  rewrite forallb_forall in T. assert (I : In (Nat.min n (length B)) (seq 0 (S (length B)))) by (apply in_seq; lia).
  specialize (T _ I). rewrite E. unfold snap_bad in T.
  apply andb_true_iff in T as [T T3]. apply andb_true_iff in T as [T1 T2]. apply negb_true_iff in T1. now apply snap_check.
Qed.
Lemma snap_none : forallb (fun n => snap_bad topicA ((snap_A ++ [OFrame 0 snap_m]) ++ firstn n snap_B)) (seq 0 (S (length snap_B))) = true.
Proof. vm_compute. reflexivity. Qed.
Lemma snap_run : run snap_s snap_evs = (fst (run snap_s snap_evs), snap_B).
Proof. exact (surjective_pairing (run snap_s snap_evs)). Qed.
Lemma snap_sends : sends_ok 0 snap_evs.
Proof.
  intros gn H. unfold snap_evs in H. apply in_app_or in H as [H|H]; [apply repeat_spec in H; discriminate|].
  apply in_app_or in H as [H|H]; [|apply repeat_spec in H; discriminate].
  repeat (destruct H as [H|H]; [discriminate|]). destruct H.
Qed.
Lemma snap_writes : writes 0 snap_B = w_reply 9 (w_list_resp snap_ents).
Proof. vm_compute. reflexivity. Qed.
Definition snap_ts : list (bytes * list (Z * Z)) := [(topicA, [(0, -1); (1, -1)])].
Lemma shape_2 ta (p1 p2 : Z * Z) (e1 e2 : Z * Z * Z * Z) : same_shape [(ta, [p1; p2])] [(ta, [e1; e2])].
Proof. constructor; [|constructor]. split; [reflexivity|]. constructor; [exact I|]. constructor; [exact I|constructor]. Qed.
Lemma snapshot_intro A s m ts ents evs s' B c corr client :
  m = w_request 2 1 corr client (w_list_req (-1) ts) ->
  serving 9092 [] A c m s -> run s evs = (s', B) -> sends_ok c evs -> writes c B = w_reply corr (w_list_resp ents) -> same_shape ts ents ->
  (forall n, ~ Forall (fun x => let '(t, p, e) := x in list_right ((A ++ [OFrame c m]) ++ firstn n B) t p e) (pairs ts ents)) ->
  exists port ch A c s corr client ts ents evs s' B,
  let m := w_request 2 1 corr client (w_list_req (-1) ts) in
  serving port ch A c m s /\ run s evs = (s', B) /\ sends_ok c evs /\ writes c B = w_reply corr (w_list_resp ents) /\ same_shape ts ents /\
  forall n, ~ Forall (fun x => let '(t, p, e) := x in list_right ((A ++ [OFrame c m]) ++ firstn n B) t p e) (pairs ts ents).
Proof.
  intros -> H1 H2 H3 H4 H5 H6. exists 9092, [], A, c, s, corr, client, ts, ents, evs, s', B. cbv zeta. auto 10.
Qed.
Lemma no_snapshot : exists port ch A c s corr client ts ents evs s' B,
  let m := w_request 2 1 corr client (w_list_req (-1) ts) in
  serving port ch A c m s /\ run s evs = (s', B) /\ sends_ok c evs /\ writes c B = w_reply corr (w_list_resp ents) /\ same_shape ts ents /\
  forall n, ~ Forall (fun x => let '(t, p, e) := x in list_right ((A ++ [OFrame c m]) ++ firstn n B) t p e) (pairs ts ents).
Proof.
  exact (snapshot_intro snap_A snap_s snap_m snap_ts snap_ents snap_evs _ snap_B 0 9 clientA eq_refl snap_serving snap_run snap_sends snap_writes
    (shape_2 topicA (0, -1) (1, -1) (0, 0, 0, 0) (1, 0, 0, 1)) (snap_all topicA (snap_A ++ [OFrame 0 snap_m]) snap_B snap_none)).
Qed.
Definition turn_check (A B : list obs) (ta : bytes) : bool :=
  tr_has ta 0 A && (zlen (tr_log ta 0 A) =? 0) && (tr_wall A =? 0) &&
  tr_has ta 1 (A ++ B) && (zlen (tr_log ta 1 (A ++ B)) =? 1) && (tr_wall (A ++ B) =? 0).
Lemma turn_demo A B ta r : r = w_reply 9 (w_list_resp [(ta, [(0, 0, 0, 0); (1, 0, 0, 1)])]) -> turn_check A B ta = true ->
  list_in_turn A 9 [(ta, [(0, -1); (1, -1)])] B r.
Proof.
  intros -> H. unfold turn_check in H. repeat (apply andb_true_iff in H as [H ?]). exists [(ta, [(0, 0, 0, 0); (1, 0, 0, 1)])].
  split; [reflexivity|]. split; [apply shape_2|]. exists [0%nat; length B]. split.
  - repeat constructor. lia.
  - constructor; [|constructor; [|constructor]].
    + split; [lia|]. cbn [firstn]. rewrite app_nil_r. unfold list_right. cbn. rewrite H. repeat split; lia.
    + split; [lia|]. rewrite firstn_all. unfold list_right. cbn. rewrite H2. repeat split; lia.
Qed.
Lemma snap_turn : list_in_turn (snap_A ++ [OFrame 0 snap_m]) 9 snap_ts snap_B (writes 0 snap_B).
Proof. apply turn_demo; vm_compute; reflexivity. Qed.
