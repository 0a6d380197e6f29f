(** * OffProofs: OffsetFetch *)
From Verif Require Export WalkProofs.
From stdpp Require Import gmap list.
From Coq Require Import ZifyBool ZifyNat Permutation.
Open Scope Z_scope.
Open Scope list_scope.

(** ** The partitions found *)
Lemma found_mono A B o req inc : found A B req inc -> found A (B ++ o) req inc.
Proof.
  induction 1 as [|t p req inc H _ IH|t p req inc H _ IH]; constructor; auto.
  - rewrite app_assoc. now apply tr_has_mono.
  - now apply sometime_mono.
Qed.
Lemma found_snoc_yes A B req inc t p : found A B req inc -> tr_has t p (A ++ B) = true ->
  found A B (req ++ [(t, p)]) (inc ++ [(t, p)]).
Proof. intros H Hp. induction H; cbn; repeat constructor; auto. Qed.
Lemma found_snoc_no A B req inc t p : found A B req inc -> sometime A B (fun os => tr_has t p os = false) ->
  found A B (req ++ [(t, p)]) inc.
Proof. intros H Hp. induction H; cbn; [apply found_no; [assumption|constructor]| |]; constructor; auto. Qed.

(** ** Grouping by topic *)
Definition of_topic (t : bytes) (inc : list (bytes * Z)) : list Z :=
  map snd (List.filter (fun q => bool_decide (fst q = t)) inc).
Definition grouped (inc : list (bytes * Z)) (data : list (bytes * list Z)) : Prop :=
  NoDup (map fst data) /\ (forall t, In t (map fst data) <-> In t (map fst inc)) /\
  (forall t l, In (t, l) data -> l = of_topic t inc).

Lemma of_topic_snoc t inc n p : of_topic t (inc ++ [(n, p)]) = of_topic t inc ++ (if bool_decide (n = t) then [p] else []).
Proof.
  unfold of_topic. rewrite List.filter_app, map_app. cbn. now destruct (bool_decide (n = t)).
Qed.
Lemma add_data_names n p data t : In t (map fst (add_data n p data)) <-> In t (map fst data) \/ t = n.
Proof.
  induction data as [|[m l] data IH]; cbn.
  - intuition.
  - unfold beqb. destruct (bool_decide_reflect (m = n)) as [->|Hm]; cbn; [intuition|]. rewrite IH. intuition.
Qed.
Lemma add_data_nodup n p data : NoDup (map fst data) -> NoDup (map fst (add_data n p data)).
Proof.
  induction data as [|[m l] data IH]; cbn; intros H.
  - repeat constructor. apply not_elem_of_nil.
  - apply NoDup_cons in H as [H1 H2]. unfold beqb. destruct (bool_decide_reflect (m = n)) as [->|Hm]; cbn.
    + now constructor.
    + constructor; [|auto]. rewrite elem_of_list_In, add_data_names. intros [H|H]; [|auto].
      apply H1. now apply elem_of_list_In.
Qed.
Lemma add_data_entry n p data t l : NoDup (map fst data) -> In (t, l) (add_data n p data) ->
  (t <> n /\ In (t, l) data) \/
  (t = n /\ ((exists l', In (n, l') data /\ l = l' ++ [p]) \/ (~ In n (map fst data) /\ l = [p]))).
Proof.
  induction data as [|[m k] data IH]; cbn; intros Hn H.
  - destruct H as [[= <- <-]|[]]. right. auto.
  - apply NoDup_cons in Hn as [H1 H2]. unfold beqb in H. destruct (bool_decide_reflect (m = n)) as [->|Hm]; cbn in H.
    + destruct H as [[= <- <-]|H].
      * right. split; [reflexivity|]. left. exists k. auto.
      * left. split; [|now right]. intros ->. apply H1. apply elem_of_list_In, in_map_iff. now exists (n, l).
    + destruct H as [[= <- <-]|H].
      * left. auto.
      * destruct (IH H2 H) as [[? ?]|[-> [(l' & ? & ->)|[? ->]]]].
        -- auto.
        -- right. split; [reflexivity|]. left. exists l'. auto.
        -- right. split; [reflexivity|]. right. split; [|reflexivity]. intros [?|?]; auto.
Qed.
Lemma grouped_nil : grouped [] [].
Proof. split_and!; [constructor| |contradiction]. reflexivity. Qed.
Lemma of_topic_none t inc : ~ In t (map fst inc) -> of_topic t inc = [].
Proof.
  intros H. unfold of_topic. induction inc as [|[n p] inc IH]; [reflexivity|]. cbn in *.
  destruct (bool_decide_reflect (n = t)) as [->|]; [tauto|]. apply IH. tauto.
Qed.
Lemma grouped_add inc data n p : grouped inc data -> grouped (inc ++ [(n, p)]) (add_data n p data).
Proof.
  intros (H1 & H2 & H3). split_and!.
  - now apply add_data_nodup.
  - intros t. rewrite add_data_names, H2, map_app, in_app_iff. cbn. intuition.
  - intros t l Hl. rewrite of_topic_snoc.
    destruct (add_data_entry _ _ _ _ _ H1 Hl) as [[Ht Hin]|[-> [(l' & Hin & ->)|[Hno ->]]]].
    + rewrite bool_decide_eq_false_2 by congruence. rewrite app_nil_r. auto.
    + rewrite bool_decide_eq_true_2 by reflexivity. f_equal. auto.
    + rewrite bool_decide_eq_true_2 by reflexivity. rewrite of_topic_none; [reflexivity|]. now rewrite <- H2.
Qed.
Lemma grouped_perm inc data data' : Permutation data data' -> grouped inc data -> grouped inc data'.
Proof.
  intros P (H1 & H2 & H3). pose proof (Permutation_map fst P) as Pf. split_and!.
  - now rewrite <- Pf.
  - intros t. rewrite <- H2. split; apply Permutation_in; [now symmetry|assumption].
  - intros t l Hl. apply H3. eapply Permutation_in; [symmetry; exact P|assumption].
Qed.
Lemma entries_cons {P} n (l : list P) ts : entries ((n, l) :: ts) = (1 + length l + entries ts)%nat.
Proof. unfold entries. cbn. rewrite app_length. lia. Qed.
Lemma entries_perm {P} (a b : list (bytes * list P)) : Permutation a b -> entries a = entries b.
Proof.
  induction 1 as [|[n l] a b _ IH|[n l] [m k] a|a b d _ IH1 _ IH2]; [reflexivity| | |congruence];
    rewrite !entries_cons; lia.
Qed.
Lemma entries_add n p data : (entries (add_data n p data) <= entries data + 2)%nat.
Proof.
  induction data as [|[m l] data IH]; cbn [add_data]; [cbn; lia|].
  destruct (beqb m n); rewrite !entries_cons; rewrite ?app_length; cbn; lia.
Qed.

(** ** The handler *)
Definition off_ent_ok (A B : list obs) (g t : bytes) (p : Z) (e : Z * Z * option bytes * Z) : Prop :=
  fst (fst (fst e)) = p /\ off_right A B g t e.
Lemma off_ent_mono A B o g t p e : off_ent_ok A B g t p e -> off_ent_ok A (B ++ o) g t p e.
Proof.
  destruct e as [[[i x] m] er]. intros (H1 & H2 & H3 & H4). split; [assumption|].
  split; [assumption|]. split; [assumption|]. now apply sometime_mono.
Qed.

Definition off_inv (A : list obs) (rq : off_req) (B : list obs) (n : nat) (tk : task) : Prop :=
  let ts := oqTopics rq in
  match tk with
  | TkOffOpen rq' ops kt data =>
      rq' = rq /\
      exists done inc cur,
        flat ts = done ++ rest_flat (default [] cur) ops /\ found A B done inc /\ grouped inc data /\
        kt_spec A B kt cur /\ (cur = None -> ops = plan ts) /\
        (n + length ops <= entries ts)%nat /\ (entries data + 2 * length ops <= 2 * entries ts)%nat
  | TkOffRead rq' ops kt acc =>
      rq' = rq /\
      exists inc data z, found A B (flat ts) inc /\ grouped inc data /\
        walk (off_ent_ok A B (oqGroup rq)) data ops kt acc z /\
        (n + length ops <= 3 * entries ts + 1)%nat
  | TkRet t v =>
      (n <= 3 * entries ts + 2)%nat /\ t = TPtr tOffResp /\
      exists inc data acc, v = VPtr (Some (offReply acc)) /\ found A B (flat ts) inc /\ grouped inc data /\
        entrywise (off_ent_ok A B (oqGroup rq)) data acc
  | _ => False
  end.

Lemma off_resp_enc acc :
  encodeObject (TPtr tOffResp) (VPtr (Some (offReply acc))) = Some (w_off_resp acc).
Proof.
  apply encs_object. unfold offReply.
  eapply encs_eq; [encs_tac; apply (topics_encs _ _ (fun p : Z * Z * option bytes * Z => let '(i, o, m, e) := p in
      w_int32 i ++ w_int64 o ++ w_nstring m ++ w_int16 e))|].
  - discriminate.
  - intros [[[i o] m] er]. eapply encs_eq; [encs_tac|]. now rewrite app_nil_r.
  - now rewrite app_nil_r.
Qed.

Lemma off_handler port vers A c rq : handler_ok port vers A c (off_inv A rq).
Proof.
  split.
  - intros B n tk o _ H. destruct tk; try contradiction; cbn [off_inv] in *.
    + destruct H as (H1 & H2 & inc & data & acc & H3 & H4 & H5 & H6). split_and!; auto.
      exists inc, data, acc. split_and!; auto using found_mono; try apply H5.
      eapply entrywise_mono; [|exact H6]. intros. now apply off_ent_mono.
    + destruct H as (-> & dn & inc & cur & H1 & H2 & H3 & H4 & H5 & H6 & H7). split; [reflexivity|].
      exists dn, inc, cur. split; [assumption|]. split; [now apply found_mono|]. split; [assumption|].
      split; [now apply kt_spec_mono|]. auto.
    + destruct H as (-> & inc & data & z & H2 & H3 & H4 & H5). split; [reflexivity|].
      exists inc, data, z. split; [now apply found_mono|]. split; [assumption|]. split; [|assumption].
      eapply walk_mono; [|exact H4]. intros. now apply off_ent_mono.
  - intros s B n tk ch Hi Ht Hr H. destruct tk; try discriminate; try contradiction; cbn [tstep].
    + destruct H as (-> & dn & inc & cur & H1 & H2 & H3 & H4 & H5 & H6 & H7).
      destruct ops as [|[m|p] ops].
      * eexists _, _, _. split; [reflexivity|]. rewrite app_nil_r. cbn [off_inv]. split; [reflexivity|].
        cbn [rest_flat] in H1. rewrite app_nil_r in H1. rewrite H1.
        exists inc, (shuffle (chTop ch) data), []. split; [assumption|].
        pose proof (shuffle_perm (chTop ch) data) as Hs.
        split; [apply (grouped_perm _ data); assumption|]. split; [constructor|]. rewrite plan_length, <- (entries_perm _ _ Hs).
        cbn [length] in *. lia.
      * eexists _, _, _. split; [reflexivity|]. rewrite app_nil_r. cbn [off_inv]. split; [reflexivity|].
        cbn [rest_flat length] in *. exists dn, inc, (Some m). cbn [default].
        split; [assumption|]. split; [assumption|]. split; [assumption|].
        split; [eapply kt_spec_get; eauto|]. split; [discriminate|]. lia.
      * cbn [rest_flat length] in *.
        assert (Hcur : exists m, cur = Some m).
        { destruct cur as [m|]; [eauto|]. specialize (H5 eq_refl). destruct (oqTopics rq) as [|[? ?] ?]; discriminate. }
        destruct Hcur as [m ->]. cbn [default] in *. clear H5.
        assert (Hno : sometime A B (fun os => tr_has m p os = false) ->
          off_inv A rq B (S n) (TkOffOpen rq ops kt data)).
        { intros Hm. cbn [off_inv]. split; [reflexivity|]. exists (dn ++ [(m, p)]), inc, (Some m). cbn [default].
          split; [now rewrite <- app_assoc|]. split; [now apply found_snoc_no|]. split; [assumption|].
          split; [assumption|]. split; [discriminate|]. lia. }
        destruct kt as [k|].
        -- cbn [kt_spec] in H4. injection H4 as ->. destruct (hasPart (sDs s) k p) eqn:Ep.
           ++ eexists _, _, _. split; [reflexivity|]. rewrite app_nil_r. cbn [off_inv]. split; [reflexivity|].
              exists (dn ++ [(k, p)]), (inc ++ [(k, p)]), (Some k). cbn [default].
              split; [now rewrite <- app_assoc|]. split.
              { apply found_snoc_yes; [assumption|]. now rewrite <- (inv_hasPart _ _ _ _ _ _ Hi). }
              split; [now apply grouped_add|]. split; [reflexivity|]. split; [discriminate|].
              pose proof (entries_add k p data). lia.
           ++ eexists _, _, _. split; [reflexivity|]. rewrite app_nil_r. apply Hno, sometime_now.
              now rewrite <- (inv_hasPart _ _ _ _ _ _ Hi).
        -- eexists _, _, _. split; [reflexivity|]. rewrite app_nil_r. apply Hno.
           destruct (H4 m eq_refl) as (B1 & HB & HP). exists B1. auto.
    + destruct H as (-> & inc & data & z & H2 & H3 & H4 & H5). cbn [task_ok] in Ht.
      destruct ops as [|[m|p] ops].
      * eexists _, _, _. split; [reflexivity|]. rewrite app_nil_r. cbn [off_inv]. cbn [length] in H5. split; [lia|].
        split; [reflexivity|]. exists inc, data, acc. split_and!; auto; try apply H3. now apply walk_end in H4 as [H4 _].
      * eexists _, _, _. split; [reflexivity|]. rewrite app_nil_r. cbn [off_inv]. split; [reflexivity|].
        exists inc, data, z. split; [assumption|]. split; [assumption|]. split; [eapply walk_topic; eauto|].
        cbn [length] in H5. lia.
      * cbn [ops_ok] in Ht. destruct Ht as [(k & -> & Hp) _].
        pose proof (proj2 (i_store _ _ _ _ Hi) k p) as Hpo. unfold hasPart in Hp.
        destruct (lookupPart (sDs s) k p) as [kp|]; [|discriminate].
        eexists _, _, _. split; [reflexivity|]. rewrite app_nil_r. cbn [off_inv]. split; [reflexivity|].
        apply walk_part in H4 as (m & [= <-] & Hw). exists inc, data. eexists. split; [assumption|]. split; [assumption|].
        split; [apply Hw|cbn [length] in H5; lia].
        split; [exact (po_index _ _ _ _ Hpo)|]. cbn [off_right]. rewrite (po_index _ _ _ _ Hpo).
        split; [exact (po_meta _ _ _ _ Hpo)|]. split; [exact (po_error _ _ _ _ Hpo)|].
        apply sometime_now. exact (po_off _ _ _ _ Hpo (oqGroup rq)).
  - intros B n t v (_ & -> & inc & data & acc & -> & _). eauto using off_resp_enc.
Qed.

Lemma off_inv_bound A rq B n tk : off_inv A rq B n tk -> (n + 4 <= 3 * entries (oqTopics rq) + 6)%nat.
Proof.
  destruct tk; cbn [off_inv]; try contradiction.
  - intros (H & _). lia.
  - intros (_ & dn & inc & cur & _ & _ & _ & _ & _ & H & _). lia.
  - intros (_ & inc & data & z & _ & _ & _ & H). lia.
Qed.

Lemma entrywise_names {P E} (r : bytes -> P -> E -> Prop) ts acc : entrywise r ts acc -> map fst acc = map fst ts.
Proof. induction 1 as [|t e ts acc [H _] _ IH]; cbn; congruence. Qed.
Lemma entrywise_in {P E} (r : bytes -> P -> E -> Prop) ts acc t l : entrywise r ts acc -> In (t, l) acc ->
  exists ps, In (t, ps) ts /\ Forall2 (r t) ps l.
Proof.
  induction 1 as [|[n ps] [m es] ts acc [H1 H2] _ IH]; cbn in *; [contradiction|].
  intros [[= <- <-]|Hin].
  - subst m. eauto.
  - destruct (IH Hin) as (ps' & ? & ?). eauto.
Qed.

Theorem off_answered port ch A c corr client g ts s :
  let m := w_request 9 1 corr client (w_off_req g ts) in
  l_header 9 1 corr client = true -> l_off g ts = true -> zlen (w_off_req g ts) <= 4096 ->
  serving port ch A c m s ->
  answers c s (off_reply (A ++ [OFrame c m]) corr g ts) (3 * entries ts + 6).
Proof.
  intros m Hh Hl Hz Hs.
  assert (Hb : beginRequest port m = Some (corr, [], TkOffOpen (OffReq g ts) (plan ts) None [])).
  { unfold m. rewrite begin_request by assumption. change (dispatch 9 1) with (Some ApiOffsetFetch). cbn [startApi].
    rewrite <- (app_nil_r (w_off_req _ _)).
    rewrite (with_req_good _ _ _ _ _ [] _ (off_good _ _ Hl)) by (try assumption; apply off_req_of_val).
    reflexivity. }
  destruct (serving_inv _ _ _ _ _ _ _ _ _ Hs Hb) as (inb & Hk & Hi & Hc).
  eapply (answers_intro port (initApiVersions ch) (A ++ [OFrame c m]) c corr
    (off_inv (A ++ [OFrame c m]) (OffReq g ts))); eauto using off_handler.
  - cbn [off_inv oqTopics]. split; [reflexivity|]. exists [], [], None. cbn [default].
    split; [symmetry; apply rest_flat_plan|]. split; [constructor|]. split; [apply grouped_nil|].
    split; [discriminate|]. split; [reflexivity|]. rewrite plan_length. split; [reflexivity|].
    change (entries (@nil (bytes * list Z))) with 0%nat. apply Nat.le_refl.
  - intros B n tk H. exact (off_inv_bound _ _ _ _ _ H).
  - intros B n t v payload (_ & -> & inc & data & acc & -> & Hf & (G1 & G2 & G3) & He) Hp.
    rewrite off_resp_enc in Hp. injection Hp as <-.
    exists acc, inc. split; [reflexivity|]. split; [assumption|]. pose proof (entrywise_names _ _ _ He) as Hn.
    rewrite Hn. split; [assumption|]. split; [assumption|]. intros t l Hin.
    destruct (entrywise_in _ _ _ _ _ He Hin) as (ps & Hps & Hl2).
    fold (of_topic t inc). rewrite <- (G3 _ _ Hps). clear - Hl2. split.
    + induction Hl2 as [|p [[[i o] me] er] ps l [H _] _ IH]; [reflexivity|]. cbn in *. congruence.
    + induction Hl2 as [|p e ps l [_ H] _ IH]; constructor; auto.
Qed.
