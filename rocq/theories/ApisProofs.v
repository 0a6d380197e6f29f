(** * ApisProofs: proofs about the tables several mocks share *)
From Verif Require Export Apis DispatchProofs.
From stdpp Require Import gmap list.
From Coq Require Import Sorted.
Open Scope Z_scope.
Open Scope list_scope.

Local Opaque apiTable shuffle.
Definition building (p : npc) : bool := match p with NTable | NVers | NFill _ => true | _ => false end.
Definition inside (p : npc) : bool := match p with NLock | NServe => false | _ => true end.

(** The shape of every reachable state. *)
Record ninv (s : nsys) : Prop := {
  v_lock : forall i p, nPcs s !! i = Some p -> inside p = true -> nLock s = Some i;
  v_held : forall i, nLock s = Some i -> exists p, nPcs s !! i = Some p /\ inside p = true /\
    match p with
    | NTable => nTable s = None
    | NVers => nTable s = Some apiTable /\ nVers s = None
    | NFill todo => nTable s = Some apiTable /\ exists ch done, shuffle ch (map fst apiTable) = done ++ todo /\ nVers s = Some (versions_of done)
    | NUnlock => nTable s = Some apiTable /\ exists ch, nVers s = Some (initApiVersions ch)
    | _ => nTable s = None \/ nTable s = Some apiTable /\ exists ch, nVers s = Some (initApiVersions ch)
    end;
  v_free : nLock s = None -> nTable s = None \/ nTable s = Some apiTable /\ exists ch, nVers s = Some (initApiVersions ch);
  v_serve : forall i, has_mock s i -> nTable s = Some apiTable /\ exists ch, nVers s = Some (initApiVersions ch);
  v_build : forall i j p, has_mock s i -> nPcs s !! j = Some p -> building p = false;
  v_none : nTable s = None -> nVers s = None
}.
Lemma ninit_inv : ninv ninit.
Proof. split; cbn; try discriminate; auto; intros; try discriminate. Qed.

Lemma lookup_insert_cases {A} (l : list A) i j x y z : l !! i = Some z -> <[i := x]> l !! j = Some y -> (i = j /\ x = y) \/ (i <> j /\ l !! j = Some y).
Proof.
  intros Hi H. destruct (decide (i = j)) as [<-|Hn].
  - left. rewrite list_lookup_insert in H by (eapply lookup_lt_Some; exact Hi). now injection H.
  - right. rewrite list_lookup_insert_ne in H by assumption. auto.
Qed.
Definition held_ok (s : nsys) (p : npc) : Prop :=
  match p with
  | NTable => nTable s = None
  | NVers => nTable s = Some apiTable /\ nVers s = None
  | NFill todo => nTable s = Some apiTable /\ exists ch done, shuffle ch (map fst apiTable) = done ++ todo /\ nVers s = Some (versions_of done)
  | NUnlock => nTable s = Some apiTable /\ exists ch, nVers s = Some (initApiVersions ch)
  | _ => nTable s = None \/ nTable s = Some apiTable /\ exists ch, nVers s = Some (initApiVersions ch)
  end.
(** Goroutine i, inside, goes on to another place inside. *)
Lemma go_inside s i pc q tab vers : ninv s -> nPcs s !! i = Some pc -> inside pc = true -> inside q = true ->
  let s' := NSys (nLock s) tab vers (<[i := q]> (nPcs s)) in
  held_ok s' q -> (tab = None -> vers = None) ->
  (forall j, has_mock s j -> tab = nTable s /\ vers = nVers s /\ building q = false) -> ninv s'.
Proof.
  intros [HL HH HF HS HB HN] E Hi Hq s' Hok Hn Hm. pose proof (HL i pc E Hi) as El.
  assert (Hlen : (i < length (nPcs s))%nat) by (eapply lookup_lt_Some; exact E).
  assert (M : forall j, has_mock s' j -> has_mock s j).
  { intros j H. unfold has_mock, s' in *. cbn in H. destruct (lookup_insert_cases _ _ _ _ _ _ E H) as [[_ ->]|[_ H']]; [discriminate|exact H']. }
  split; unfold s'; cbn [nLock nTable nVers nPcs].
  - intros j p H Hj. destruct (lookup_insert_cases _ _ _ _ _ _ E H) as [[<- _]|[_ H']]; [exact El|exact (HL j p H' Hj)].
  - intros j Hj. assert (j = i) as -> by congruence. exists q. split; [now apply list_lookup_insert|]. split; [exact Hq|exact Hok].
  - congruence.
  - intros j H. apply M in H. destruct (Hm j H) as (-> & -> & _). exact (HS j H).
  - intros j j' p H H'. apply M in H. destruct (lookup_insert_cases _ _ _ _ _ _ E H') as [[_ <-]|[_ H'']]; [apply (Hm j H)|eauto].
  - exact Hn.
Qed.
Lemma nstep_inv s e : ninv s -> ninv (nstep s e).
Proof.
  intros I. pose proof I as [HL HH HF HS HB HN]. destruct e as [|i ch]; cbn [nstep].
  - assert (M : forall j p, (nPcs s ++ [NLock]) !! j = Some p -> nPcs s !! j = Some p \/ p = NLock).
    { intros j p H. apply lookup_app_Some in H as [H|[_ H]]; [auto|]. apply list_lookup_singleton_Some in H as [_ <-]. auto. }
    split; cbn [nLock nTable nVers nPcs]; try assumption.
    + intros i p H Hi. destruct (M i p H) as [H'| ->]; [eauto|discriminate].
    + intros i Hi. destruct (HH i Hi) as (p & Hp & R). exists p. split; [now apply lookup_app_l_Some|exact R].
    + intros i H. destruct (M _ _ H) as [H'|H']; [now apply (HS i)|discriminate].
    + intros i j p H H'. destruct (M _ _ H) as [H1|H1]; [|discriminate]. destruct (M _ _ H') as [H2| ->]; [eauto|reflexivity].
  - destruct (nPcs s !! i) as [pc|] eqn:E; [|exact I].
    assert (Hin : inside pc = true -> held_ok s pc).
    { intros Hi. destruct (HH i (HL i pc E Hi)) as (p & Hp & _ & R). rewrite E in Hp. injection Hp as <-. exact R. }
    assert (Hlen : (i < length (nPcs s))%nat) by (eapply lookup_lt_Some; exact E).
    destruct pc as [| | | |todo| |].
    + destruct (nLock s) as [h|] eqn:El; [exact I|]. specialize (HF eq_refl).
      assert (M : forall j, <[i := NCheck]> (nPcs s) !! j = Some NServe -> has_mock s j).
      { intros j H. destruct (lookup_insert_cases _ _ _ _ _ _ E H) as [[_ H']|[_ H']]; [discriminate|exact H']. }
      split; cbn [nLock nTable nVers nPcs]; try assumption; try discriminate.
      * intros j p H Hi. destruct (lookup_insert_cases _ _ _ _ _ _ E H) as [[<- _]|[Hn H']]; [reflexivity|]. discriminate (HL j p H' Hi).
      * intros j [= <-]. exists NCheck. split; [now apply list_lookup_insert|]. split; [reflexivity|exact HF].
      * intros j H. apply (HS j), M, H.
      * intros j j' p H H'. apply M in H. destruct (lookup_insert_cases _ _ _ _ _ _ E H') as [[_ <-]|[_ H'']]; [reflexivity|eauto].
    + specialize (Hin eq_refl). cbn in Hin. apply (go_inside s i NCheck); auto.
      * destruct (nTable s); reflexivity.
      * destruct Hin as [R|[R1 R2]]; [rewrite R|rewrite R1]; cbn; auto.
      * intros j Hj. destruct (HS j Hj) as [-> _]. auto.
    + specialize (Hin eq_refl). cbn in Hin. refine (go_inside s i NTable NVers _ _ I E eq_refl eq_refl _ _ _); [split; [reflexivity|exact (HN Hin)]|discriminate|].
      intros j Hj. destruct (HS j Hj) as [H _]. congruence.
    + destruct (Hin eq_refl) as [R1 R2]. refine (go_inside s i NVers (NFill _) _ _ I E eq_refl eq_refl _ _ _); [|congruence|].
      * split; [exact R1|]. exists ch, []. rewrite R1. split; reflexivity.
      * intros j Hj. discriminate (HB j i _ Hj E).
    + destruct (Hin eq_refl) as (R1 & c & done & R2 & R3). destruct todo as [|k ks].
      * refine (go_inside s i (NFill []) NUnlock _ _ I E eq_refl eq_refl _ HN _); [|intros j Hj; discriminate (HB j i _ Hj E)]. split; [exact R1|]. exists c. cbn [nVers]. rewrite R3. unfold initApiVersions. rewrite R2, app_nil_r. reflexivity.
      * refine (go_inside s i (NFill (k :: ks)) (NFill ks) _ _ I E eq_refl eq_refl _ _ _); [|congruence|intros j Hj; discriminate (HB j i _ Hj E)].
        split; [exact R1|]. exists c, (done ++ [k]). cbn [nVers]. rewrite R3, R2. cbn [option_map]. unfold versions_of. rewrite fold_left_app, <- app_assoc. split; reflexivity.
    + destruct (Hin eq_refl) as [R1 R2]. pose proof (HL i _ E eq_refl) as El.
      assert (Ho : forall j p, <[i := NServe]> (nPcs s) !! j = Some p -> inside p = false).
      { intros j p H. destruct (lookup_insert_cases _ _ _ _ _ _ E H) as [[_ <-]|[Hn H']]; [reflexivity|].
        destruct (inside p) eqn:Ei; [|reflexivity]. pose proof (HL j p H' Ei). congruence. }
      split; cbn [nLock nTable nVers nPcs]; try assumption; try discriminate; auto.
      * intros j p H Hj. rewrite (Ho j p H) in Hj. discriminate.
      * intros j j' p _ H. pose proof (Ho j' p H). now destruct p.
    + exact I.
Qed.
Lemma nrun_inv es : ninv (nrun ninit es).
Proof.
  unfold nrun. assert (G : forall s, ninv s -> ninv (fold_left nstep es s)); [|apply G, ninit_inv].
  induction es as [|e es IH]; intros s H; [exact H|]. apply IH, nstep_inv, H.
Qed.

Theorem no_nrace es : ~ nrace (nrun ninit es).
Proof.
  intros (i & j & p & q & v & w & w' & Hn & Hp & Hq & Hv & Hv' & Hw). pose proof (nrun_inv es) as [HL _ _ _ HB _].
  assert (X : inside p = true -> inside q = true -> False).
  { intros H H'. pose proof (HL _ _ Hp H). pose proof (HL _ _ Hq H'). congruence. }
  assert (Y : p = NServe -> building q = false) by (intros ->; exact (HB i j q Hp Hq)).
  assert (Z0 : q = NServe -> building p = false) by (intros ->; exact (HB j i p Hq Hp)).
  destruct p, q; cbn in *; try contradiction; try (now apply X); try (discriminate (Y eq_refl)); try (discriminate (Z0 eq_refl));
    repeat match goal with H : _ \/ _ |- _ => destruct H end; try contradiction;
    repeat match goal with H : (_, _) = (_, _) |- _ => inversion H; clear H end; subst; discriminate.
Qed.
Theorem mock_tables es i : has_mock (nrun ninit es) i ->
  nTable (nrun ninit es) = Some apiTable /\ exists ch, nVers (nrun ninit es) = Some (initApiVersions ch).
Proof. apply (v_serve _ (nrun_inv es)). Qed.

(** Once someone has a mock, nothing is written again. *)
Lemma nstep_keep s e i : ninv s -> has_mock s i -> has_mock (nstep s e) i /\ nTable (nstep s e) = nTable s /\ nVers (nstep s e) = nVers s.
Proof.
  intros [HL HH HF HS HB HN] Hm. destruct e as [|j ch]; cbn [nstep].
  - split; [|auto]. unfold has_mock in *. cbn. now apply lookup_app_l_Some.
  - destruct (nPcs s !! j) as [pc|] eqn:E; [|auto].
    pose proof (HB i j pc Hm E) as Hb.
    assert (K : forall q, pc <> NServe -> <[j := q]> (nPcs s) !! i = Some NServe).
    { intros q Hq. rewrite list_lookup_insert_ne; [exact Hm|]. intros ->. unfold has_mock in Hm. congruence. }
    destruct pc; try discriminate Hb; unfold has_mock; cbn; auto.
    destruct (nLock s); cbn; [auto|]. split; [apply K; discriminate|auto].
Qed.
Lemma nrun_app s a b : nrun s (a ++ b) = nrun (nrun s a) b.
Proof. apply fold_left_app. Qed.
Lemma nrun_keep es : forall s i, ninv s -> has_mock s i ->
  has_mock (nrun s es) i /\ nTable (nrun s es) = nTable s /\ nVers (nrun s es) = nVers s.
Proof.
  induction es as [|e es IH]; intros s i I H; [auto|]. change (nrun s (e :: es)) with (nrun (nstep s e) es).
  destruct (nstep_keep s e i I H) as (H1 & H2 & H3). destruct (IH _ _ (nstep_inv s e I) H1) as (H4 & H5 & H6). split; [exact H4|]. split; congruence.
Qed.
Theorem mock_keep es es' i : has_mock (nrun ninit es) i ->
  has_mock (nrun ninit (es ++ es')) i /\ nTable (nrun ninit (es ++ es')) = nTable (nrun ninit es) /\ nVers (nrun ninit (es ++ es')) = nVers (nrun ninit es).
Proof. rewrite nrun_app. apply nrun_keep, nrun_inv. Qed.

(** The reply is the same for every mock, whoever built the tables and in
    whatever order, and whatever the order of the map when it is asked. *)
Theorem mock_versions es i ch : has_mock (nrun ninit es) i ->
  option_map (fun m => encodeObject tApiVersionsResp (apiVersionsReply m ch)) (nVers (nrun ninit es)) = Some (Some (w_versions_resp 0 adv)).
Proof. intros H. destruct (mock_tables es i H) as [_ [c ->]]. cbn [option_map]. now rewrite initApiVersions_eq, versions_enc. Qed.

(** Everyone gets a mock. *)
Definition solo (i : nat) (n : nat) : list nev := repeat (NStep i []) n.
Lemma pcs_len s e : (length (nPcs s) <= length (nPcs (nstep s e)))%nat.
Proof.
  destruct e as [|i ch]; cbn [nstep]; [cbn; rewrite app_length; lia|]. destruct (nPcs s !! i) as [[]|]; cbn; rewrite ?insert_length; try lia.
  - destruct (nLock s); cbn; rewrite ?insert_length; lia.
  - destruct todo; cbn; rewrite ?insert_length; lia.
Qed.
(** A goroutine inside comes out with its own steps. *)
Definition rank (s : nsys) (p : npc) : nat :=
  match p with
  | NLock => 20 + length apiTable | NCheck => 10 + length apiTable | NTable => 9 + length apiTable | NVers => 8 + length apiTable
  | NFill l => 3 + length l | NUnlock => 1 | NServe => 0 end.
Lemma come_out n : forall s i p, ninv s -> nPcs s !! i = Some p -> inside p = true -> (rank s p <= n)%nat ->
  exists k, has_mock (nrun s (solo i k)) i /\ nLock (nrun s (solo i k)) = None.
Proof.
  induction n as [|n IH]; intros s i p I E Hi Hr; [destruct p; cbn in Hr; try discriminate; lia|].
  assert (Hlen : (i < length (nPcs s))%nat) by (eapply lookup_lt_Some; exact E).
  destruct p as [| | | |todo| |]; try discriminate.
  5: { exists 1%nat. unfold solo, nrun. cbn [repeat fold_left nstep]. rewrite E. split; [|reflexivity]. unfold has_mock. cbn. now apply list_lookup_insert. }
  all: match goal with |- _ => idtac end.
  all: assert (X : exists q, nPcs (nstep s (NStep i [])) !! i = Some q /\ inside q = true /\ (rank s q <= n)%nat).
  1: { cbn [nstep]. rewrite E. cbn [nPcs]. eexists. split; [now apply list_lookup_insert|]. destruct (nTable s); cbn in *; split; try reflexivity; lia. }
  2: { cbn [nstep]. rewrite E. cbn [nPcs]. eexists. split; [now apply list_lookup_insert|]. cbn in *; split; try reflexivity; lia. }
  3: { cbn [nstep]. rewrite E. cbn [nPcs]. eexists. split; [now apply list_lookup_insert|]. split; [reflexivity|].
       pose proof (v_held _ I i (v_lock _ I i _ E eq_refl)) as (q & Hq & _ & R). rewrite E in Hq. injection Hq as <-. destruct R as [-> _].
       cbn [rank default] in *. pose proof (Permutation_length (shuffle_perm [] (map fst apiTable))) as Hl. rewrite map_length in Hl. cbn [rank]. unfold id. lia. }
  4: { cbn [nstep]. rewrite E. destruct todo as [|k ks]; cbn [nPcs]; eexists; (split; [now apply list_lookup_insert|]); cbn in *; split; try reflexivity; lia. }
  all: destruct X as (q & X1 & X2 & X3); destruct (IH _ i q (nstep_inv s _ I) X1 X2 X3) as (k & K1 & K2); exists (S k); split; assumption.
Qed.
Theorem mock_made es i : (i < length (nPcs (nrun ninit es)))%nat -> exists es', has_mock (nrun ninit (es ++ es')) i.
Proof.
  intros Hlen. pose proof (nrun_inv es) as I. destruct (nPcs (nrun ninit es) !! i) as [p|] eqn:E; [|apply lookup_ge_None in E; lia].
  destruct (inside p) eqn:Ei.
  - destruct (come_out _ _ i p I E Ei (le_n _)) as (k & H & _). exists (solo i k). rewrite nrun_app. exact H.
  - destruct p; try discriminate; [|exists []; rewrite app_nil_r; exact E].
    assert (F : exists es1, nLock (nrun ninit (es ++ es1)) = None /\ nPcs (nrun ninit (es ++ es1)) !! i = Some NLock \/ has_mock (nrun ninit (es ++ es1)) i).
    { destruct (nLock (nrun ninit es)) as [h|] eqn:El; [|exists []; rewrite app_nil_r; auto].
      destruct (v_held _ I h El) as (q & Hq & Hi & _). destruct (come_out _ _ h q I Hq Hi (le_n _)) as (k & _ & H). exists (solo h k). left.
      rewrite nrun_app. split; [exact H|]. assert (Hne : h <> i) by (intros ->; congruence). clear - E Hne. revert E. generalize (nrun ninit es) as s.
      unfold nrun, solo. induction k as [|k IHk]; intros s E; [exact E|]. cbn [repeat fold_left]. apply IHk. cbn [nstep].
      destruct (nPcs s !! h) as [[]|]; cbn; rewrite ?list_lookup_insert_ne; auto; [destruct (nLock s)|destruct todo]; cbn; rewrite ?list_lookup_insert_ne; auto. }
    destruct F as (es1 & [[F1 F2]|F]); [|eauto]. set (s := nrun ninit (es ++ es1)) in *.
    pose proof (nstep_inv s (NStep i []) (nrun_inv _)) as I2. assert (E2 : nPcs (nstep s (NStep i [])) !! i = Some NCheck).
    { cbn [nstep]. rewrite F2, F1. cbn. apply list_lookup_insert. eapply lookup_lt_Some; exact F2. }
    destruct (come_out _ _ i _ I2 E2 eq_refl (le_n _)) as (k & H & _). exists (es1 ++ NStep i [] :: solo i k).
    rewrite app_assoc, nrun_app. exact H.
Qed.

(** ** Tables with several versions of a key *)
Lemma addVersion_key m k v : addVersion m (makeApiKey k v) = match m !! k with None => <[k := (swrap 16 v, swrap 16 v)]> m | Some _ => m end.
Proof. unfold addVersion. pose proof (parse_key k v) as H. destruct (split_dot (makeApiKey k v)) as [a b]. destruct H as [-> ->]. reflexivity. Qed.
Lemma versions_first l : forall m k, fold_left addVersion (map row l) m !! k =
  match m !! k with Some r => Some r | None => match List.find (fun e => fst e =? k) l with Some e => Some (swrap 16 (snd e), swrap 16 (snd e)) | None => None end end.
Proof.
  induction l as [|[k0 v0] l IH]; intros m k; cbn [map fold_left List.find fst snd].
  - now destruct (m !! k).
  - change (row (k0, v0)) with (makeApiKey k0 v0). rewrite addVersion_key. rewrite IH. destruct (m !! k0) as [r|] eqn:E.
    + destruct (Z.eqb_spec k0 k) as [Hk|]; [|reflexivity]. subst k0. destruct (m !! k); [reflexivity|discriminate E].
    + destruct (Z.eqb_spec k0 k) as [Hk|Hn]; [subst k0; rewrite lookup_insert; destruct (m !! k); [discriminate E|reflexivity]|]. now rewrite lookup_insert_ne by congruence.
Qed.
Lemma find_key (l : list (Z * Z)) k v : In (k, v) l -> exists w, List.find (fun e => fst e =? k) l = Some (k, w) /\ In (k, w) l.
Proof.
  intros H. destruct (List.find (fun e => fst e =? k) l) as [[k' w]|] eqn:E.
  - apply find_some in E as [E1 E2]. cbn in E2. apply Z.eqb_eq in E2 as ->. eauto.
  - apply (find_none _ _ E) in H. cbn in H. rewrite Z.eqb_refl in H. discriminate.
Qed.
Lemma swrap16 v : -32768 <= v <= 32767 -> swrap 16 v = v.
Proof. intros H. unfold swrap, uwrap. change (2 ^ 16) with 65536. change (2 ^ (16 - 1)) with 32768.
  destruct (Z.ltb_spec (v mod 65536) 32768); destruct (Z.le_gt_cases 0 v).
  - rewrite Z.mod_small; lia.
  - assert (v mod 65536 = v + 65536) by (rewrite <- (Z.mod_add v 1) by lia; rewrite Z.mod_small; lia). lia.
  - rewrite Z.mod_small in * by lia. lia.
  - assert (v mod 65536 = v + 65536) by (rewrite <- (Z.mod_add v 1) by lia; rewrite Z.mod_small; lia). lia.
Qed.
Theorem one_version tab o k v : Permutation tab o -> (forall e, In e tab -> -32768 <= snd e <= 32767) -> In (k, v) tab ->
  exists w, In (k, w) tab /\ versions_of (map row o) !! k = Some (w, w).
Proof.
  intros Hp Hb Hi. destruct (find_key o k v (Permutation_in _ Hp Hi)) as (w & Hf & Hw). apply (Permutation_in _ (Permutation_sym Hp)) in Hw.
  exists w. split; [exact Hw|]. unfold versions_of. rewrite versions_first, lookup_empty, Hf. cbn [snd]. now rewrite (swrap16 w (Hb _ Hw)).
Qed.
Theorem covered_iff tab o : Permutation tab o -> List.NoDup tab -> (forall e, In e tab -> -32768 <= snd e <= 32767) ->
  ((forall k v, In (k, v) tab -> exists lo hi, versions_of (map row o) !! k = Some (lo, hi) /\ lo <= v <= hi) <-> List.NoDup (map fst tab)).
Proof.
  intros Hp Hn Hb. split.
  - intros H. assert (U : forall k v w, In (k, v) tab -> In (k, w) tab -> v = w).
    { intros k v w Hv Hw. destruct (one_version tab o k v Hp Hb Hv) as (x & _ & Hx).
      destruct (H k v Hv) as (lo & hi & E & L). destruct (H k w Hw) as (lo' & hi' & E' & L'). rewrite Hx in E, E'.
      injection E as <- <-. injection E' as <- <-. lia. }
    clear - Hn U. induction Hn as [|[k v] l Hx Hn IH]; cbn [map fst]; constructor.
    + intros Hi. apply in_map_iff in Hi as ([k' w] & Hk & Hi). cbn in Hk. subst k'. assert (v = w) as -> by (eapply U; [now left|right; exact Hi]). contradiction.
    + apply IH. intros k' v' w' H1 H2. eapply U; right; eassumption.
  - intros Hd k v Hi. destruct (one_version tab o k v Hp Hb Hi) as (w & Hw & E). exists w, w. split; [exact E|].
    assert (v = w); [|lia]. clear - Hd Hi Hw. induction tab as [|[k0 v0] l IH]; [contradiction|]. cbn [map fst] in Hd. inversion Hd as [|? ? Hx Hd']; subst.
    assert (X : forall x, In (k0, x) l -> False) by (intros x Hx'; apply Hx; apply in_map_iff; exists (k0, x); auto).
    destruct Hi as [Hi|Hi], Hw as [Hw|Hw]; try congruence; auto.
    + injection Hi as -> ->. now apply X in Hw.
    + injection Hw as -> ->. now apply X in Hi.
Qed.
Lemma two_versions : versions_of (map row [(1, 2); (1, 3)]) !! 1 = Some (2, 2) /\ versions_of (map row [(1, 3); (1, 2)]) !! 1 = Some (3, 3).
Proof. split; vm_compute; reflexivity. Qed.

(** ** A run: two mocks made at the same time *)
Definition two_mocks : list nev := [NNew; NNew; NStep 0 []; NStep 1 []; NStep 0 []; NStep 0 []; NStep 0 []] ++ repeat (NStep 0 [3; 1]%nat) 13 ++
  [NStep 1 []; NStep 1 []; NStep 1 []].
Lemma two_mocks_ok : has_mock (nrun ninit two_mocks) 0 /\ has_mock (nrun ninit two_mocks) 1.
Proof. split; vm_compute; reflexivity. Qed.
Lemma two_orders : exists tab o o' k r r', Permutation tab o /\ Permutation tab o' /\
  versions_of (map row o) !! k = Some r /\ versions_of (map row o') !! k = Some r' /\ r <> r'.
Proof.
  exists [(1, 2); (1, 3)], [(1, 2); (1, 3)], [(1, 3); (1, 2)], 1, (2, 2), (3, 3).
  split; [reflexivity|]. split; [constructor|]. split; [apply two_versions|]. split; [apply two_versions|discriminate].
Qed.

(** ** Accesses *)
Theorem nstep_writes s i ch p v : nPcs s !! i = Some p -> ~ same_in v s (nstep s (NStep i ch)) -> In (v, true) (ntouch p).
Proof.
  intros Hp H. unfold nstep in H. rewrite Hp in H. destruct p as [| | | |[|k ks]| |], v; cbn in *; try (destruct (nLock s); cbn in H); try (exfalso; apply H; reflexivity); auto.
Qed.
Theorem nstep_reads s s' i ch p v : nPcs s !! i = Some p -> (forall w, ~ In (v, w) (ntouch p)) -> but_for v s s' ->
  but_for v (nstep s (NStep i ch)) (nstep s' (NStep i ch)) /\ same_in v s' (nstep s' (NStep i ch)) /\ served s i = served s' i.
Proof.
  intros Hp H (HL & HP & HV). destruct s as [l t r ps], s' as [l' t' r' ps']. cbn [nLock nPcs nTable nVers] in *. subst l' ps'.
  unfold served, nstep. cbn [nLock nPcs nTable nVers]. rewrite !Hp.
  destruct p as [| | | |[|k ks]| |], v; cbn [ntouch nTable nVers nLock nPcs] in *; subst; try (destruct l); cbn; try (exfalso; eapply H; cbn; eauto; fail); repeat split.
Qed.
