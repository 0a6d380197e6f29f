(** * DispatchProofs: dispatch keys and the version table *)
From Verif Require Export RequestProofs.
From stdpp Require Import gmap list.
From Coq Require Import Permutation Sorted ZifyBool ZifyNat.
Open Scope Z_scope.
Open Scope list_scope.

(** ** Decimal text *)
Definition is_digit (c : Z) : Prop := 48 <= c <= 57.

Lemma atoi_digits_cons c s a : fold_left (fun a c => a * 10 + (c - 48)) (c :: s) a =
  fold_left (fun a c => a * 10 + (c - 48)) s (a * 10 + (c - 48)).
Proof. reflexivity. Qed.

Lemma fold_digits_shift s a : fold_left (fun a c => a * 10 + (c - 48)) s a =
  a * 10 ^ zlen s + atoi_digits s.
Proof.
  unfold atoi_digits. revert a. induction s as [|c s IH]; intros a.
  { cbn [fold_left]. rewrite zlen_nil. change (10 ^ 0) with 1. lia. }
  cbn [fold_left]. rewrite IH, (IH (0 * 10 + (c - 48))). rewrite zlen_cons.
  rewrite Z.pow_add_r by (pose proof (zlen_nonneg s); lia). lia.
Qed.

Lemma dec_digits_spec fuel : forall n acc, 0 <= n < 10 ^ Z.of_nat fuel -> (0 < fuel)%nat ->
  Forall is_digit acc ->
  Forall is_digit (dec_digits fuel n acc) /\ dec_digits fuel n acc <> [] /\
  atoi_digits (dec_digits fuel n acc) = n * 10 ^ zlen acc + atoi_digits acc.
Proof.
  induction fuel as [|f IH]; intros n acc Hn Hf Ha; [lia|].
  cbn [dec_digits]. destruct (n <? 10) eqn:E.
  - split; [constructor; [unfold is_digit; lia|assumption]|]. split; [discriminate|].
    unfold atoi_digits at 1. rewrite atoi_digits_cons, fold_digits_shift. f_equal. f_equal. lia.
  - assert (Hf' : (0 < f)%nat).
    { destruct f; [|lia]. change (10 ^ Z.of_nat 1) with 10 in Hn. lia. }
    rewrite Nat2Z.inj_succ, Z.pow_succ_r in Hn by lia.
    assert (Hm : 0 <= n mod 10 < 10) by (apply Z.mod_pos_bound; lia).
    assert (Hd : 0 <= n / 10 < 10 ^ Z.of_nat f).
    { split; [apply Z.div_pos; lia|]. apply Z.div_lt_upper_bound; lia. }
    destruct (IH (n / 10) ((48 + n mod 10) :: acc) Hd Hf') as (H1 & H2 & H3).
    { constructor; [unfold is_digit; lia|assumption]. }
    split; [assumption|]. split; [assumption|]. rewrite H3, zlen_cons.
    unfold atoi_digits at 1. rewrite atoi_digits_cons, fold_digits_shift.
    rewrite Z.pow_add_r by (pose proof (zlen_nonneg acc); lia).
    pose proof (Z.div_mod n 10). nia.
Qed.

Lemma decimal_pos n : 0 <= n ->
  let d := dec_digits (S (Z.to_nat (Z.log2 n))) n [] in
  Forall is_digit d /\ d <> [] /\ atoi_digits d = n.
Proof.
  intros Hn d. subst d.
  destruct (dec_digits_spec (S (Z.to_nat (Z.log2 n))) n []) as (H1 & H2 & H3).
  - split; [assumption|]. rewrite Nat2Z.inj_succ, Z2Nat.id by apply Z.log2_nonneg.
    destruct (Z.eq_dec n 0) as [->|H0]; [reflexivity|].
    pose proof (Z.log2_spec n ltac:(lia)) as [_ Hl]. eapply Z.lt_le_trans; [exact Hl|].
    apply Z.pow_le_mono_l. lia.
  - lia.
  - constructor.
  - split; [assumption|]. split; [assumption|]. rewrite H3, zlen_nil. change (atoi_digits []) with 0.
    change (10 ^ 0) with 1. lia.
Qed.

Lemma decimal_no_dot n : ~ In 46 (decimal n).
Proof.
  unfold decimal. destruct (decimal_pos (Z.abs n) (Z.abs_nonneg n)) as (H1 & _ & _).
  rewrite Forall_forall in H1.
  assert (H : ~ In 46 (dec_digits (S (Z.to_nat (Z.log2 (Z.abs n)))) (Z.abs n) [])).
  { intros Hi. apply elem_of_list_In in Hi. apply H1 in Hi. unfold is_digit in Hi. lia. }
  destruct (n <? 0); [|assumption]. intros [H0|H0]; [lia|auto].
Qed.

Lemma atoi_decimal n : atoi (decimal n) = n.
Proof.
  unfold decimal. destruct (decimal_pos (Z.abs n) (Z.abs_nonneg n)) as (H1 & H2 & H3).
  destruct (Z.ltb_spec n 0).
  - match goal with |- atoi (45 :: ?d) = _ => change (atoi (45 :: d)) with (- atoi_digits d) end.
    rewrite H3. lia.
  - destruct (dec_digits _ _ _) as [|c d] eqn:E; [congruence|]. unfold atoi.
    pose proof (Forall_inv H1) as Hc. unfold is_digit in Hc.
    destruct (Z.eqb_spec c 45) as [->|]; [lia|]. rewrite H3. lia.
Qed.

Lemma split_dot_app a b : ~ In 46 a -> split_dot (a ++ 46 :: b) = (a, b).
Proof.
  induction a as [|c a IH]; intros H; [reflexivity|]. cbn [app split_dot].
  destruct (Z.eqb_spec c 46) as [->|]; [exfalso; apply H; now left|].
  rewrite IH; [reflexivity|]. intros Hi. apply H. now right.
Qed.

Theorem parse_key key ver :
  let '(a, b) := split_dot (makeApiKey key ver) in atoi a = key /\ atoi b = ver.
Proof.
  unfold makeApiKey. change ([46] ++ decimal ver) with (46 :: decimal ver).
  rewrite split_dot_app by apply decimal_no_dot. split; apply atoi_decimal.
Qed.

Theorem makeApiKey_inj k1 v1 k2 v2 : makeApiKey k1 v1 = makeApiKey k2 v2 -> k1 = k2 /\ v1 = v2.
Proof.
  intros H. pose proof (parse_key k1 v1) as H1. pose proof (parse_key k2 v2) as H2. rewrite <- H in H2.
  destruct (split_dot (makeApiKey k1 v1)). destruct H1, H2. subst. auto.
Qed.

(** ** What is dispatched *)
Lemma beqb_key k v k' v' : beqb (makeApiKey k v) (makeApiKey k' v') = (k =? k') && (v =? v').
Proof.
  unfold beqb. destruct (Z.eqb_spec k k') as [->|Hk]; destruct (Z.eqb_spec v v') as [->|Hv]; cbn [andb].
  - now apply bool_decide_true.
  - apply bool_decide_false. intros E. apply makeApiKey_inj in E. tauto.
  - apply bool_decide_false. intros E. apply makeApiKey_inj in E. tauto.
  - apply bool_decide_false. intros E. apply makeApiKey_inj in E. tauto.
Qed.

Definition supported (key ver : Z) : option api :=
  match key, ver with
  | 1, 2 => Some ApiFetch
  | 2, 1 => Some ApiListOffsets
  | 3, 1 => Some ApiMetadata
  | 8, 2 => Some ApiOffsetCommit
  | 9, 1 => Some ApiOffsetFetch
  | 10, 0 => Some ApiFindCoordinator
  | 11, 1 => Some ApiJoinGroup
  | 12, 0 => Some ApiHeartbeat
  | 13, 0 => Some ApiLeaveGroup
  | 14, 0 => Some ApiSyncGroup
  | 18, 0 => Some ApiApiVersions
  | _, _ => None
  end.

Lemma dispatch_supported key ver : dispatch key ver = supported key ver.
Proof.
  unfold dispatch, apiTable. cbn [lookupApi]. rewrite !beqb_key.
  repeat match goal with
  | |- context [if (key =? ?a) && (ver =? ?b) then _ else _] =>
      destruct (Z.eqb_spec key a) as [->|]; cbn [andb];
      [destruct (Z.eqb_spec ver b) as [->|]; cbn [andb]; [reflexivity|]|]
  end.
  all: unfold supported.
  all: repeat match goal with
  | |- context [match ?x with _ => _ end] => is_var x; destruct x; try reflexivity; try congruence
  end.
Qed.

(** ** The version table *)
Definition adv : list (Z * Z * Z) :=
  [(1, 2, 2); (2, 1, 1); (3, 1, 1); (8, 2, 2); (9, 1, 1); (10, 0, 0); (11, 1, 1);
   (12, 0, 0); (13, 0, 0); (14, 0, 0); (18, 0, 0)].
Definition adv_map : gmap Z vrange := list_to_map (map (fun '(k, a, b) => (k, (a, b))) adv).

Definition ventry (keyVer : bytes) : Z * vrange :=
  let '(a, b) := split_dot keyVer in (atoi a, (swrap 16 (atoi b), swrap 16 (atoi b))).

Lemma fold_addVersion l : forall m,
  NoDup (map fst (map ventry l)) -> (forall k, In k (map fst (map ventry l)) -> m !! k = None) ->
  fold_left addVersion l m = list_to_map (map ventry l) ∪ m.
Proof.
  induction l as [|x l IH]; intros m Hn Hm.
  { cbn. now rewrite (left_id_L ∅ (∪)). }
  cbn [fold_left map list_to_map foldr]. cbn [map] in Hn. inversion Hn as [|? ? Hx Hn']; subst.
  assert (Ha : addVersion m x = <[fst (ventry x) := snd (ventry x)]> m).
  { assert (Hf : m !! fst (ventry x) = None) by (apply Hm; now left).
    unfold addVersion, ventry in *. destruct (split_dot x) as [a b]. cbn [fst snd] in *.
    now rewrite Hf. }
  assert (Hx0 : ~ In (fst (ventry x)) (map fst (map ventry l))).
  { intros Hi. apply Hx. now apply elem_of_list_In. }
  rewrite Ha, IH; [|assumption|].
  - cbn. rewrite <- insert_union_r by (apply not_elem_of_list_to_map_1; rewrite elem_of_list_In; exact Hx0).
    now rewrite <- insert_union_l.
  - intros k Hk. rewrite lookup_insert_ne; [apply Hm; now right|]. intros <-. contradiction.
Qed.

Lemma initApiVersions_eq ch : initApiVersions ch = adv_map.
Proof.
  unfold initApiVersions. pose proof (shuffle_perm ch (map fst apiTable)) as Hp.
  assert (Hn : NoDup (map fst (map ventry (map fst apiTable)))).
  { apply NoDup_ListNoDup. vm_compute. repeat (constructor; [cbn; intuition discriminate|]). constructor. }
  assert (Hp1 : Permutation (map ventry (map fst apiTable)) (map ventry (shuffle ch (map fst apiTable))))
    by now apply Permutation_map.
  assert (Hn' : NoDup (map fst (map ventry (shuffle ch (map fst apiTable))))).
  { apply NoDup_ListNoDup. eapply Permutation_NoDup; [apply Permutation_map; exact Hp1|].
    now apply NoDup_ListNoDup. }
  rewrite fold_addVersion; [|assumption|intros k _; apply lookup_empty].
  rewrite (right_id_L ∅ (∪)).
  rewrite <- (list_to_map_proper (map ventry (map fst apiTable)) _ Hn Hp1).
  apply (bool_decide_unpack _). vm_compute. exact I.
Qed.

(** Sorting does not depend on the order. *)
Lemma ins_int_perm x l : Permutation (x :: l) (ins_int x l).
Proof.
  induction l as [|y l IH]; [reflexivity|]. cbn. destruct (x <=? y); [reflexivity|].
  rewrite perm_swap. now constructor.
Qed.
Lemma sort_ints_perm l : Permutation l (sort_ints l).
Proof.
  induction l as [|x l IH]; [reflexivity|]. cbn. fold (sort_ints l).
  etransitivity; [|apply ins_int_perm]. now constructor.
Qed.
Lemma ins_int_sorted x l : StronglySorted Z.le l -> StronglySorted Z.le (ins_int x l).
Proof.
  induction 1 as [|y l Hl IH Hy]; cbn; [repeat constructor|].
  destruct (Z.leb_spec x y).
  - constructor; [now constructor|]. constructor; [assumption|].
    eapply Forall_mono; [|exact Hy]. intros; lia.
  - constructor; [assumption|]. rewrite <- ins_int_perm. constructor; [lia|assumption].
Qed.
Lemma sort_ints_sorted l : StronglySorted Z.le (sort_ints l).
Proof. induction l; cbn; [constructor|]. now apply ins_int_sorted. Qed.
Lemma sorted_unique l1 : forall l2, StronglySorted Z.le l1 -> StronglySorted Z.le l2 ->
  Permutation l1 l2 -> l1 = l2.
Proof.
  induction l1 as [|x l1 IH]; intros l2 H1 H2 Hp.
  { symmetry. apply Permutation_nil. now symmetry. }
  destruct l2 as [|y l2]; [now apply Permutation_sym, Permutation_nil in Hp|].
  inversion H1 as [|? ? S1 F1]; inversion H2 as [|? ? S2 F2]; subst.
  assert (x = y).
  { assert (Hx : In x (y :: l2)) by (eapply Permutation_in; [exact Hp|now left]).
    assert (Hy : In y (x :: l1)) by (eapply Permutation_in; [symmetry; exact Hp|now left]).
    rewrite List.Forall_forall in F1, F2.
    destruct Hx as [|Hx]; [auto|]. destruct Hy as [|Hy]; [auto|].
    specialize (F1 _ Hy). specialize (F2 _ Hx). lia. }
  subst. f_equal. apply IH; auto. now apply Permutation_cons_inv in Hp.
Qed.
Lemma sort_ints_order l1 l2 : Permutation l1 l2 -> sort_ints l1 = sort_ints l2.
Proof.
  intros H. apply sorted_unique; try apply sort_ints_sorted.
  now rewrite <- !sort_ints_perm.
Qed.

Lemma filter_perm {A} (f : A -> bool) l1 l2 : Permutation l1 l2 ->
  Permutation (List.filter f l1) (List.filter f l2).
Proof.
  induction 1 as [|x l l' _ IH|x y l|l l' l'' _ IH1 _ IH2]; cbn.
  - constructor.
  - destruct (f x); [now constructor|assumption].
  - destruct (f x), (f y); try reflexivity. constructor.
  - etransitivity; eauto.
Qed.

Lemma versions_val ch : apiVersionsReply adv_map ch =
  VStruct [VInt 0; vslice (map (fun e : Z * Z * Z => let '(k, a, b) := e in VStruct [VInt k; VInt a; VInt b]) adv)].
Proof.
  unfold apiVersionsReply. unfold vslice. do 4 f_equal.
  rewrite (sort_ints_order _ (map fst (List.filter (fun e => -2 <? fst (snd e)) (map_to_list adv_map)))).
  - vm_compute. reflexivity.
  - apply Permutation_map, filter_perm. symmetry. apply shuffle_perm.
Qed.

Lemma versions_enc ch : encodeObject tApiVersionsResp (apiVersionsReply adv_map ch) = Some (w_versions_resp 0 adv).
Proof. rewrite versions_val. vm_compute. reflexivity. Qed.

Theorem versions_answered port ch A c corr client s :
  l_header 18 0 corr client = true ->
  serving port ch A c (w_request 18 0 corr client []) s ->
  answers c s (fun _ r => r = w_reply corr (w_versions_resp 0 adv)) 5.
Proof.
  intros Hh Hs.
  assert (Hb : beginRequest port (w_request 18 0 corr client []) = Some (corr, [], TkVersions)).
  { rewrite begin_request by assumption. reflexivity. }
  destruct (serving_inv _ _ _ _ _ _ _ _ _ Hs Hb) as (inb & Hk & Hi & Hc).
  rewrite initApiVersions_eq in Hi.
  eapply (answers_intro port adv_map (A ++ [OFrame c (w_request 18 0 corr client [])]) c corr
    (fun _ n tk => (n = 0%nat /\ tk = TkVersions) \/
      (n = 1%nat /\ exists cc, tk = TkRet tApiVersionsResp (apiVersionsReply adv_map cc)))); eauto.
  - split.
    + intros B n tk o _ H. exact H.
    + intros s1 B n tk ch1 Hi1 _ Hret [[-> ->]|(-> & cc & ->)]; [|discriminate].
      eexists _, _, _. cbn [tstep env_of eVers]. rewrite (i_vers _ _ _ _ Hi1). eauto 10.
    + intros B n t' v' [[-> ?]|(-> & cc & [= -> ->])]; [discriminate|]. eauto using versions_enc.
  - intros B n tk [[-> _]|(-> & _)]; lia.
  - intros B n t' v' pl [[-> ?]|(-> & cc & [= -> ->])] He; [discriminate|].
    rewrite versions_enc in He. now injection He as <-.
Qed.

(** Dispatch and advertisement agree. *)
Theorem dispatch_adv key ver :
  (exists a, dispatch key ver = Some a) <-> (exists lo hi, In (key, lo, hi) adv /\ lo <= ver <= hi).
Proof.
  rewrite dispatch_supported. split.
  - intros [a H]. unfold supported in H.
    repeat match type of H with
    | match ?x with _ => _ end = _ => is_var x; destruct x; try discriminate
    end.
    all: cbn; eauto 30 with lia.
  - intros (lo & hi & H & Hr). cbn in H.
    repeat destruct H as [H|H]; try contradiction; injection H as <- <- <-;
      match goal with |- exists a, supported ?k ver = _ =>
        match type of Hr with ?lo <= _ <= _ => assert (ver = lo) as -> by lia end end;
      cbn; eauto.
Qed.
