(** * SyncProofs: SyncGroup *)
From Verif Require Export WalkProofs.
From stdpp Require Import gmap list.
From Coq Require Import ZifyBool ZifyNat Permutation.
Open Scope Z_scope.
Open Scope list_scope.

Lemma all_bytes_app a b : all_bytes (a ++ b) = all_bytes a && all_bytes b.
Proof. apply forallb_app. Qed.
Lemma all_bytes_concat l : Forall (fun b => all_bytes b = true) l -> all_bytes (concat l) = true.
Proof. induction 1 as [|b l H _ IH]; [reflexivity|]. cbn. now rewrite all_bytes_app, H, IH. Qed.
Lemma all_bytes_array {A} (f : A -> bytes) l : (forall x, In x l -> all_bytes (f x) = true) ->
  all_bytes (w_array f l) = true.
Proof.
  intros H. unfold w_array, w_int32. rewrite all_bytes_app, w_be_bytes. apply all_bytes_concat.
  rewrite Forall_forall. intros b Hb. apply elem_of_list_In, in_map_iff in Hb as (x & <- & Hx). auto.
Qed.
Lemma all_bytes_string s : all_bytes s = true -> all_bytes (w_string s) = true.
Proof. intros H. unfold w_string, w_int16. now rewrite all_bytes_app, w_be_bytes. Qed.
Lemma all_bytes_assignment v asg : (forall t, In t (map fst asg) -> all_bytes t = true) ->
  all_bytes (w_assignment v asg None) = true.
Proof.
  intros H. unfold w_assignment, w_int16. cbn [w_bytes]. unfold w_int32.
  rewrite !all_bytes_app, !w_be_bytes, andb_true_r. cbn [andb]. apply all_bytes_array.
  intros [t ps] Ht. cbn [fst snd]. rewrite all_bytes_app, all_bytes_string.
  - apply all_bytes_array. intros. apply w_be_bytes.
  - apply H. apply in_map_iff. now exists (t, ps).
Qed.

(** The assignment made from a store. *)
Fixpoint asg_of (l : list (bytes * ktopic)) (chs : list (list nat)) : list (bytes * list Z) :=
  match l with
  | [] => []
  | (name, kt) :: l' =>
      (name, map (fun q : Z * kpart => pIndex (snd q)) (shuffle (hd [] chs) (map_to_list kt))) :: asg_of l' (tl chs)
  end.
Lemma assign_topics_asg l chs : assign_topics l chs = map (topicv VInt) (asg_of l chs).
Proof.
  revert chs. induction l as [|[n kt] l IH]; intros chs; [reflexivity|]. cbn [assign_topics asg_of map].
  rewrite IH. unfold topicv at 2. cbn [fst snd]. now rewrite map_map.
Qed.
Lemma asg_of_names l chs : map fst (asg_of l chs) = map fst l.
Proof. revert chs. induction l as [|[n kt] l IH]; intros chs; cbn; [reflexivity|]. now rewrite IH. Qed.
Lemma asg_of_in l chs t ps : In (t, ps) (asg_of l chs) ->
  exists kt ch, In (t, kt) l /\ ps = map (fun q : Z * kpart => pIndex (snd q)) (shuffle ch (map_to_list kt)).
Proof.
  revert chs. induction l as [|[n kt] l IH]; intros chs; cbn; [contradiction|]. intros [[= <- <-]|H].
  - exists kt, (hd [] chs). auto.
  - destruct (IH _ H) as (kt' & ch & ? & ?). eauto.
Qed.

Lemma assignment_enc asg :
  encs tMemberAssignment (VStruct [VInt 1; vslice (map (topicv VInt) asg); VSlice None]) (w_assignment 1 asg None).
Proof.
  eapply encs_eq; [autounfold with wire; apply encs_cons; [apply encs_i16|apply encs_cons; [|apply encs_cons; [|apply encs_nil]]]|].
  - apply (topics_encs _ _ w_int32); [discriminate|]. intros; apply encs_i32.
  - apply (encs_vbytes None). reflexivity.
  - unfold w_assignment. now rewrite app_nil_r.
Qed.
Lemma sync_resp_enc b : all_bytes b = true ->
  encodeObject (TPtr tSyncResp) (VPtr (Some (VStruct [VInt 0; vbytes (Some b)]))) = Some (w_sync_resp 0 b).
Proof.
  intros Hb. apply encs_object, encs_ptr.
  eapply encs_eq; [autounfold with wire; apply encs_cons; [apply encs_i16|apply encs_cons; [|apply encs_nil]]|].
  - apply encs_vbytes. exact Hb.
  - unfold w_sync_resp. now rewrite app_nil_r.
Qed.

Definition asg_right (asg : list (bytes * list Z)) (os : list obs) : Prop :=
  (forall t, In t (map fst asg) <-> tr_topic t os = true) /\
  (forall t ps, In (t, ps) asg -> NoDup ps /\ forall p, In p ps <-> tr_has t p os = true).

Lemma topic_bytes t os : Forall obs_bytes os -> tr_topic t os = true -> all_bytes t = true.
Proof.
  intros H Ht. unfold tr_topic in Ht. apply existsb_exists in Ht as (o & Hin & Ho).
  rewrite Forall_forall in H. apply elem_of_list_In in Hin. specialize (H o Hin).
  destruct o; try discriminate. apply bool_decide_eq_true in Ho. now subst.
Qed.

Lemma asg_spec port vers os s ch chs : inv port vers os s ->
  let asg := asg_of (shuffle ch (map_to_list (sDs s))) chs in
  NoDup (map fst asg) /\ asg_right asg os /\ all_bytes (w_assignment 1 asg None) = true.
Proof.
  intros Hi asg. pose proof (shuffle_perm ch (map_to_list (sDs s))) as P.
  assert (Hn : forall t, In t (map fst asg) <-> tr_topic t os = true).
  { intros t. unfold asg. rewrite asg_of_names, <- (inv_getTopic _ _ _ _ _ Hi). rewrite getTopic_lookup. split.
    - intros H. apply in_map_iff in H as ([n kt] & <- & H). exists kt. apply elem_of_map_to_list, elem_of_list_In.
      eapply Permutation_in; [symmetry; exact P|exact H].
    - intros [kt H]. apply in_map_iff. exists (t, kt). split; [reflexivity|].
      eapply Permutation_in; [exact P|]. now apply elem_of_list_In, elem_of_map_to_list. }
  split_and!.
  - unfold asg. rewrite asg_of_names. rewrite <- (Permutation_map fst P). apply (NoDup_fst_map_to_list (sDs s)).
  - split; [exact Hn|]. intros t ps Hin. apply asg_of_in in Hin as (kt & c' & Hin & ->).
    assert (Hkt : sDs s !! t = Some kt).
    { apply elem_of_map_to_list, elem_of_list_In. eapply Permutation_in; [symmetry; exact P|exact Hin]. }
    pose proof (shuffle_perm c' (map_to_list kt)) as P'.
    assert (Hkeys : map (fun q : Z * kpart => pIndex (snd q)) (shuffle c' (map_to_list kt)) = map fst (shuffle c' (map_to_list kt))).
    { apply map_ext_in. intros [p kp] Hp. cbn [fst snd].
      assert (Hl : kt !! p = Some kp).
      { apply elem_of_map_to_list, elem_of_list_In. eapply Permutation_in; [symmetry; exact P'|exact Hp]. }
      pose proof (proj2 (i_store _ _ _ _ Hi) t p) as Hpo. unfold lookupPart in Hpo. rewrite Hkt, Hl in Hpo.
      exact (po_index _ _ _ _ Hpo). }
    rewrite Hkeys. split.
    + rewrite <- (Permutation_map fst P'). apply NoDup_fst_map_to_list.
    + intros p. rewrite <- (inv_hasPart _ _ _ _ _ _ Hi). unfold hasPart, lookupPart. rewrite Hkt. split.
      * intros H. apply in_map_iff in H as ([q kp] & <- & H). cbn [fst].
        assert (Hl : kt !! q = Some kp).
        { apply elem_of_map_to_list, elem_of_list_In. eapply Permutation_in; [symmetry; exact P'|exact H]. }
        now rewrite Hl.
      * destruct (kt !! p) as [kp|] eqn:E; [|discriminate]. intros _. apply in_map_iff. exists (p, kp).
        split; [reflexivity|]. eapply Permutation_in; [exact P'|]. now apply elem_of_list_In, elem_of_map_to_list.
  - apply all_bytes_assignment. intros t Ht. apply Hn in Ht. eapply topic_bytes; [|exact Ht]. exact (i_obytes _ _ _ _ Hi).
Qed.

Definition sync_inv (A B : list obs) (n : nat) (tk : task) : Prop :=
  (n = 0%nat /\ tk = TkSync) \/
  (n = 1%nat /\ exists asg, NoDup (map fst asg) /\ sometime A B (asg_right asg) /\
     all_bytes (w_assignment 1 asg None) = true /\
     tk = ptr tSyncResp (VStruct [VInt 0; vbytes (Some (w_assignment 1 asg None))])).

Lemma sync_handler port vers A c : handler_ok port vers A c (sync_inv A).
Proof.
  split.
  - intros B n tk o _ [H|(H & asg & H1 & H2 & H3)]; [now left|]. right. split; [assumption|].
    exists asg. split; [assumption|]. split; [now apply sometime_mono|assumption].
  - intros s B n tk ch Hi Ht Hr [[-> ->]|(_ & asg & _ & _ & _ & ->)]; [|discriminate]. cbn [tstep].
    unfold syncReply, makeMemberAssignment, memberAssignmentVal.
    rewrite assign_topics_asg. rewrite (encs_object _ _ _ (assignment_enc _)). cbn [option_map].
    destruct (asg_spec _ _ _ _ (chTop ch) (chIn ch) Hi) as (H1 & H2 & H3).
    eexists _, _, _. split; [reflexivity|]. rewrite app_nil_r. right. split; [reflexivity|].
    eexists. split; [exact H1|]. split; [apply sometime_now; exact H2|]. split; [exact H3|reflexivity].
  - intros B n t v [[_ H]|(_ & asg & _ & _ & H & E)]; [discriminate|].
    unfold ptr in E. injection E as -> ->. eauto using sync_resp_enc.
Qed.

Theorem sync_answered port ch A c corr client g gen mem s :
  let m := w_request 14 0 corr client (w_sync_req g gen mem []) in
  l_header 14 0 corr client = true -> l_sync g gen mem [] = true -> zlen (w_sync_req g gen mem []) <= 4096 ->
  serving port ch A c m s ->
  answers c s (sync_reply (A ++ [OFrame c m]) corr) 5.
Proof.
  intros m Hh Hl Hz Hs.
  assert (Hb : beginRequest port m = Some (corr, [], TkSync)).
  { unfold m. rewrite begin_request by assumption. change (dispatch 14 0) with (Some ApiSyncGroup). cbn [startApi].
    rewrite <- (app_nil_r (w_sync_req _ _ _ _)).
    rewrite (with_req_good _ _ _ _ _ [] _ (sync_good _ _ _ _ Hl)) by (try assumption; apply sync_of).
    reflexivity. }
  destruct (serving_inv _ _ _ _ _ _ _ _ _ Hs Hb) as (inb & Hk & Hi & Hc).
  eapply (answers_intro port (initApiVersions ch) (A ++ [OFrame c m]) c corr
    (sync_inv (A ++ [OFrame c m]))); eauto using sync_handler.
  - now left.
  - intros B n tk [[-> _]|[-> _]]; lia.
  - intros B n t v payload [[_ H]|(_ & asg & H1 & H2 & H3 & E)] Hp; [discriminate|].
    unfold ptr in E. injection E as -> ->. rewrite (sync_resp_enc _ H3) in Hp. injection Hp as <-.
    exists asg. split; [reflexivity|]. split; assumption.
Qed.

(** With assignments the process ends. *)
Theorem sync_rejected port ch A c corr client g gen mem ps s :
  let m := w_request 14 0 corr client (w_sync_req g gen mem ps) in
  l_header 14 0 corr client = true -> l_sync g gen mem ps = true -> ps <> [] ->
  serving port ch A c m s -> rejects c s 0.
Proof.
  intros m Hh Hl Hne Hs. eapply serving_none; [exact Hs|]. unfold m. rewrite begin_request by assumption.
  change (dispatch 14 0) with (Some ApiSyncGroup). cbn [startApi].
  rewrite <- (app_nil_r (w_sync_req _ _ _ _)).
  destruct (Z.leb_spec (zlen (w_sync_req g gen mem ps)) 4096) as [Hz|Hz].
  - rewrite (with_req_good _ _ _ _ _ [] _ (sync_good _ _ _ _ Hl)) by (try assumption; apply sync_of).
    destruct (Z.eqb_spec (zlen ps) 0) as [E|E]; [|reflexivity]. destruct ps; [congruence|]. discriminate.
  - now rewrite (with_req_long _ _ _ _ _ [] (sync_good _ _ _ _ Hl)).
Qed.
