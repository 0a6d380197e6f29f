(** * WaitProofs: the machine of WaitGroups.v behaves like that of Lifecycle.v *)
From Verif Require Export WaitSpec LifeCrash.
From stdpp Require Import gmap list.
From Coq Require Import ZifyBool.
Open Scope Z_scope.
Open Scope list_scope.

(** ** Waking under [apart] *)
Lemma apart_pre A B : apart (A ++ B) -> apart A.
Proof. intros H B1 i ci C j cj E. apply (H B1 i ci (C ++ B) j cj). rewrite E, <- app_assoc. reflexivity. Qed.
Lemma in_begin_split (A : list lobs) j cj : In (LBegin j cj) A -> exists B C, A = B ++ LBegin j cj :: C.
Proof. apply in_split. Qed.
Lemma ended_code s A i cl code : lreach s A -> lT s !! i = Some (Gor (KCall cl) code) -> call_ended A i -> ended code = true.
Proof.
  intros R Hi [H|[p H]].
  - destruct (ret_thread _ _ R _ H) as [c E]. rewrite Hi in E. injection E as _ ->. reflexivity.
  - destruct (panic_thread _ _ R _ _ H) as (c & code' & E & He). rewrite Hi in E. injection E as _ ->. assumption.
Qed.
Lemma call_ended_app A B i : call_ended A i -> call_ended (A ++ B) i.
Proof. intros [H|[p H]]; [left|right; exists p]; apply in_or_app; auto. Qed.
Lemma begin_inj s A i c c' : lreach s A -> In (LBegin i c) A -> In (LBegin i c') A -> c = c'.
Proof. intros R H1 H2. destruct (begin_thread _ _ R _ _ H1) as [x E1]. destruct (begin_thread _ _ R _ _ H2) as [y E2]. congruence. Qed.
Lemma apart_calm s A i cl code : lreach s A -> apart A -> lT s !! i = Some (Gor (KCall cl) code) -> waiting_call cl -> ended code = false -> ~ exists j, start_overlaps A i j.
Proof.
  intros R Ha Hi Hw He (j & Hne & Hb & Hn).
  assert (Hj : exists cj, starting_call cj /\ In (LBegin j cj) A) by (destruct Hb; eexists; (split; [|eassumption]); [left|right]; reflexivity).
  destruct Hj as (cj & Hs & Hj). pose proof (thread_begin _ _ R _ _ _ Hi) as Hbi.
  apply in_split in Hj as (B & C & E). rewrite E in Hbi. apply in_app_or in Hbi as [Hbi|[E2|Hbi]].
  - assert (He2 : call_ended B i) by (eapply Ha; [exact E|exact Hbi|auto]).
    enough (ended code = true) by congruence. eapply ended_code; [exact R|exact Hi|]. rewrite E. now apply call_ended_app.
  - congruence.
  - apply in_split in Hbi as (C1 & C2 & E2). assert (He2 : call_ended (B ++ LBegin j cj :: C1) j).
    { eapply (Ha _ j cj C2 i cl); [rewrite E, E2, <- app_assoc; reflexivity|apply in_elt|auto]. }
    destruct (Hn cl) as [H1 H2]. destruct He2 as [He2|[p He2]].
    + apply H1. apply in_split in He2 as (D1 & D2 & E3). exists D1, (D2 ++ LBegin i cl :: C2). split; [|apply in_elt].
      rewrite E, E2. change (LReturn j :: D2 ++ LBegin i cl :: C2) with ((LReturn j :: D2) ++ LBegin i cl :: C2). rewrite app_assoc, <- E3, <- app_assoc. reflexivity.
    + apply (H2 p). apply in_split in He2 as (D1 & D2 & E3). exists D1, (D2 ++ LBegin i cl :: C2). split; [|apply in_elt].
      rewrite E, E2. change (LPanic j p :: D2 ++ LBegin i cl :: C2) with ((LPanic j p :: D2) ++ LBegin i cl :: C2). rewrite app_assoc, <- E3, <- app_assoc. reflexivity.
Qed.
Lemma woken_zero s A i k w c : lreach s A -> apart A -> lT s !! i = Some (Gor k (Woken w :: c)) -> count w (lG s) = 0.
Proof.
  intros R Ha Hi. pose proof (v_codes s (lreach_inv _ _ R) _ _ Hi) as Hc. cbn [gKind gCode] in Hc. destruct k as [cl|g|g n].
  - destruct (calm_or _ _ R _ _ Hi) as [[H _]|Ho]; [exact H|]. exfalso. eapply apart_calm; try eassumption; [|reflexivity].
    destruct cl; cbn in Hc; repeat destruct Hc as [Hc|Hc]; try discriminate Hc; try contradiction; unfold waiting_call; auto.
  - assert (w = WAct) as -> by (cbn in Hc; repeat destruct Hc as [Hc|Hc]; try discriminate Hc; try contradiction; congruence). exact (act_woken _ _ R _ _ _ Hi).
  - cbn in Hc; repeat destruct Hc as [Hc|Hc]; try discriminate Hc; contradiction.
Qed.
Lemma add_woken s A i j k kj w c cj : lreach s A -> apart A -> lCrash s = false ->
  lT s !! i = Some (Gor k (AddW w :: c)) -> lT s !! j = Some (Gor kj (Woken w :: cj)) -> False.
Proof.
  intros R Ha Hc Hi Hj. pose proof (woken_zero _ _ _ _ _ _ R Ha Hj) as Hz.
  assert (H : lstep s (LRun i XGo) = (LSys (set_count w (count w (lG s) + 1) (lG s)) (<[i := Gor k c]> (lT s)) false, [])).
  { unfold lstep. rewrite Hc, Hi. cbn [exec wake app]. now rewrite app_nil_r. }
  pose proof (lreach_step _ _ _ _ _ R H) as R'. rewrite app_nil_r in R'.
  assert (Hne : i <> j) by (intros ->; congruence).
  assert (Hj' : lT (LSys (set_count w (count w (lG s) + 1) (lG s)) (<[i := Gor k c]> (lT s)) false) !! j = Some (Gor kj (Woken w :: cj))) by (cbn [lT]; now rewrite list_lookup_insert_ne).
  pose proof (woken_zero _ _ _ _ _ _ R' Ha Hj') as Hz'. cbn [lG] in Hz'. destruct (lG s), w; cbn in *; lia.
Qed.

(** ** Counting sleepers *)
Definition sleeps (w : wgroup) (t : gor) : bool := match gCode t with Sleep w' :: _ => bool_decide (w' = w) | _ => false end.
Definition woke (w : wgroup) (t : gor) : bool := match gCode t with Woken w' :: _ => bool_decide (w' = w) | _ => false end.
Definition b2n (b : bool) : nat := if b then 1 else 0.
Fixpoint nsl (w : wgroup) (ts : list gor) : nat := match ts with [] => 0%nat | t :: ts' => (b2n (sleeps w t) + nsl w ts')%nat end.
Lemma nsl_app w a b : nsl w (a ++ b) = (nsl w a + nsl w b)%nat.
Proof. induction a as [|t a IH]; cbn; [reflexivity|rewrite IH; lia]. Qed.
Lemma nsl_insert w ts : forall i t t', ts !! i = Some t -> (nsl w (<[i := t']> ts) + b2n (sleeps w t) = nsl w ts + b2n (sleeps w t'))%nat.
Proof.
  induction ts as [|u ts IH]; intros [|i] t t' H; try discriminate H; cbn in H.
  - injection H as ->. change (<[0%nat := t']> (t :: ts)) with (t' :: ts). cbn [nsl]. lia.
  - specialize (IH _ _ t' H). change (<[S i := t']> (u :: ts)) with (u :: <[i := t']> ts). cbn [nsl]. lia.
Qed.
Lemma nsl_pos w ts i t : ts !! i = Some t -> sleeps w t = true -> (0 < nsl w ts)%nat.
Proof.
  revert i. induction ts as [|u ts IH]; intros [|i] H Hs; try discriminate H; cbn in H.
  - injection H as ->. cbn [nsl]. rewrite Hs. cbn [b2n]. lia.
  - specialize (IH _ H Hs). cbn [nsl]. lia.
Qed.
Lemma nsl_ex w ts : (0 < nsl w ts)%nat -> exists i k c, ts !! i = Some (Gor k (Sleep w :: c)).
Proof.
  induction ts as [|[k c] ts IH]; intros H; cbn [nsl] in H; [lia|]. destruct (sleeps w (Gor k c)) eqn:E.
  - exists 0%nat. unfold sleeps in E. cbn in E. destruct c as [|[] c]; try discriminate E. apply bool_decide_eq_true in E as ->. exists k, c. reflexivity.
  - cbn [b2n] in H. destruct (IH H) as (i & k' & c' & Hi). exists (S i), k', c'. exact Hi.
Qed.

(** ** Abstraction *)
Definition abs1 (h : glob) (t : gor) : gor :=
  match gCode t with
  | Sleep w :: c => if count w h =? 0 then Gor (gKind t) (Woken w :: c) else t
  | _ => t
  end.
Definition abs (f : fsys) : lsys := LSys (lG (fS f)) (map (abs1 (lG (fS f))) (lT (fS f))) (lCrash (fS f)).
Lemma abs_lookup f i t : lT (fS f) !! i = Some t -> lT (abs f) !! i = Some (abs1 (lG (fS f)) t).
Proof. intros H. unfold abs. cbn [lT]. rewrite list_lookup_fmap, H. reflexivity. Qed.
Lemma abs1_kind h t : gKind (abs1 h t) = gKind t.
Proof. destruct t as [k [|[] c]]; try reflexivity. unfold abs1. cbn. destruct (count _ _ =? 0); reflexivity. Qed.
Definition awake (c : list op) : Prop := match c with Sleep _ :: _ => False | Woken _ :: _ => False | _ => True end.
Definition up_ (c : list op) : Prop := match c with Sleep _ :: _ => False | _ => True end.
Lemma abs1_id h k c : up_ c -> abs1 h (Gor k c) = Gor k c.
Proof. destruct c as [|[] c]; try reflexivity. intros []. Qed.
Lemma sleeps_up w k c : up_ c -> sleeps w (Gor k c) = false.
Proof. destruct c as [|[] c]; try reflexivity. intros []. Qed.
Lemma woke_awake w k c : awake c -> woke w (Gor k c) = false.
Proof. destruct c as [|[] c]; try reflexivity. intros []. Qed.
Lemma awake_up c : awake c -> up_ c.
Proof. destruct c as [|[] c]; cbn; auto. Qed.

(** ** The invariant *)
Definition nopend (f : fsys) (w : wgroup) : Prop := forall j p, fD f !! j = Some p -> pgroup p <> w.
Definition onepend (f : fsys) (w : wgroup) (i : nat) : Prop := forall j p, fD f !! j = Some p -> pgroup p = w -> j = i.
Definition nowoke (ts : list gor) (w : wgroup) : Prop := forall j t, ts !! j = Some t -> woke w t = false.
Definition acct (f : fsys) (w : wgroup) : Prop :=
  let n := nsl w (lT (fS f)) in
  (0 < count w (lG (fS f)) /\ fP f w = 0%nat /\ fW f w = n /\ nopend f w) \/
  (count w (lG (fS f)) = 0 /\ fW f w = 0%nat /\ n = fP f w /\ nopend f w) \/
  (count w (lG (fS f)) = 0 /\ exists i m, onepend f w i /\ (0 < m)%nat /\
    (((fD f !! i = Some (PCheck w m) \/ fD f !! i = Some (PStore w m)) /\ fW f w = m /\ n = m /\ fP f w = 0%nat /\ nowoke (lT (fS f)) w) \/
     (fD f !! i = Some (PRel w m) /\ fW f w = 0%nat /\ n = (fP f w + m)%nat))).
Definition finv (f : fsys) : Prop := forall w, acct f w.

(** An accounting depends on these things only. *)
Lemma acct_ext f f' w : acct f w -> count w (lG (fS f')) = count w (lG (fS f)) -> fW f' w = fW f w -> fP f' w = fP f w -> fD f' = fD f ->
  nsl w (lT (fS f')) = nsl w (lT (fS f)) -> (nowoke (lT (fS f)) w -> nowoke (lT (fS f')) w) -> acct f' w.
Proof.
  intros H E1 E2 E3 E4 E5 E6. unfold acct, nopend, onepend in *. rewrite E1, E2, E3, E4, E5.
  destruct H as [H|[H|(H & i & m & H1 & H2 & [(H3 & H4 & H5 & H6 & H7)|H3])]]; [left; exact H|right; left; exact H|right; right..].
  - split; [exact H|]. exists i, m. split; [exact H1|]. split; [exact H2|]. left. auto 10.
  - split; [exact H|]. exists i, m. auto.
Qed.
Lemma set_count_same w n h : count w (set_count w n h) = n.
Proof. destruct h, w; reflexivity. Qed.
Lemma set_count_other w w' n h : w' <> w -> count w' (set_count w n h) = count w' h.
Proof. destruct h, w, w'; intros; try reflexivity; congruence. Qed.
Lemma upd_same f w n : upd f w n w = n.
Proof. unfold upd. now rewrite decide_True. Qed.
Lemma upd_other f w w' n : w' <> w -> upd f w n w' = f w'.
Proof. intros. unfold upd. now rewrite decide_False. Qed.
Lemma nowoke_insert ts i t t' w : ts !! i = Some t -> woke w t' = false -> nowoke ts w -> nowoke (<[i := t']> ts) w.
Proof. intros Hi Hf H j u Hu. apply (insert_cases _ _ _ _ _ _ Hi) in Hu as [[_ Hu]|[_ ->]]; eauto. Qed.
Lemma abs_map_ext h h' ts : (forall i k w c, ts !! i = Some (Gor k (Sleep w :: c)) -> (count w h' =? 0) = (count w h =? 0)) -> map (abs1 h') ts = map (abs1 h) ts.
Proof.
  induction ts as [|t ts IH]; intros H; [reflexivity|]. cbn [map]. rewrite IH; [|intros i; exact (H (S i))]. f_equal.
  destruct t as [k [|[] c]]; try reflexivity. unfold abs1. cbn [gCode gKind]. now rewrite (H 0%nat k w c eq_refl).
Qed.
Lemma next_awake h i k o x h' pre sp wk os c : In (o :: c) (codes k) -> exec h i k o x = Next h' pre sp wk os -> (forall w, o = Wait w -> count w h = 0) -> awake (pre ++ c).
Proof.
  intros Hc Hx Hw.
  assert (Ha : awake c) by (codes_check (fun c => match c with _ :: Sleep _ :: _ | _ :: Woken _ :: _ => false | _ => true end) Hc; destruct c as [|[] c]; cbn; auto; discriminate Hc).
  destruct o; cbn in Hx; exec_cases Hx k; injection Hx as <- <- <- <- <-; try exact Ha; try exact Logic.I.
  specialize (Hw _ eq_refl). lia.
Qed.

(** ** Steps that are the same *)
Lemma flift_run f A i x k o c f' ob : lreach (abs f) A -> finv f -> lCrash (fS f) = false ->
  lT (fS f) !! i = Some (Gor k (o :: c)) -> (forall w, o <> AddW w) -> (forall w, o = DoneW w -> count w (lG (fS f)) <= 0) -> (forall w, o <> Sleep w) ->
  (forall w, o = Wait w -> count w (lG (fS f)) = 0) ->
  flift f (LRun i x) = (f', ob) -> exists os, ob = map FL os /\ finv f' /\ lstep (abs f) (LRun i x) = (abs f', os).
Proof.
  intros R I Hc Hi H1 H2 H3 H4 H.
  assert (Hu : up_ (o :: c)) by (destruct o; cbn; auto; eapply H3; reflexivity).
  pose proof (abs_lookup _ _ _ Hi) as Ha. rewrite abs1_id in Ha by exact Hu.
  pose proof (v_codes _ (lreach_inv _ _ R) _ _ Ha) as Hco. cbn [gKind gCode] in Hco.
  unfold flift, lstep in H. rewrite Hc, Hi in H. unfold lstep. rewrite Ha. change (lCrash (abs f)) with (lCrash (fS f)). change (lG (abs f)) with (lG (fS f)). rewrite Hc.
  destruct (exec (lG (fS f)) i k o x) as [|h pre sp wk os|pre p|p] eqn:Hx; injection H as <- <-.
  - exists []. split; [reflexivity|]. split; [|destruct f; reflexivity]. destruct f; exact I.
  - exists os. split; [reflexivity|].
    assert (wk = None) as ->. { destruct wk as [w|]; [|reflexivity]. destruct (exec_wk _ _ _ _ _ _ _ _ _ _ w Hx eq_refl) as [-> E]. specialize (H2 w eq_refl). lia. }
    pose proof (next_awake _ _ _ _ _ _ _ _ _ _ _ Hco Hx H4) as Hn.
    assert (Hcnt : forall w, count w h = count w (lG (fS f))).
    { intros w. eapply exec_same; [exact Hx|apply H1|]. intros ->. specialize (H2 w eq_refl). cbn in Hx. rewrite (proj2 (Z.leb_le _ _) H2) in Hx. unfold kpanic in Hx. destruct (is_call k); discriminate Hx. }
    assert (Hsp : forall n t, sp !! n = Some t -> awake (gCode t)).
    { intros n t Ht. apply (exec_spawn _ _ _ _ _ _ _ _ _ _ _ _ Hx) in Ht as [_ [(g' & _ & _ & ->)|(g' & _ & ->)]]; exact Logic.I. }
    cbn [wake]. split.
    + intros w. eapply acct_ext; [apply (I w)|cbn [fS lG]; apply Hcnt|reflexivity..| |]; cbn [fS lT].
      * rewrite nsl_app. pose proof (nsl_insert w _ _ _ (Gor k (pre ++ c)) Hi) as E. rewrite (sleeps_up w k (o :: c) Hu), (sleeps_up w k (pre ++ c) (awake_up _ Hn)) in E.
        assert (E2 : nsl w sp = 0%nat). { destruct (nsl w sp) eqn:E2; [reflexivity|]. destruct (nsl_ex w sp) as (n' & k' & c' & Hs); [lia|]. destruct (Hsp _ _ Hs). }
        rewrite E2. cbn [b2n] in E. lia.
      * intros Hw j t Hj. apply lookup_app_Some in Hj as [Hj|[_ Hj]].
        -- eapply (nowoke_insert _ _ _ _ _ Hi); [|exact Hw|exact Hj]. now apply woke_awake.
        -- specialize (Hsp _ _ Hj). destruct t as [k' c']. now apply woke_awake.
    + unfold abs. cbn [fS lG lT lCrash]. f_equal. f_equal. rewrite map_app. f_equal.
      * rewrite (list_fmap_insert (abs1 h)). rewrite abs1_id by now apply awake_up. f_equal. symmetry. apply abs_map_ext. intros. now rewrite Hcnt.
      * clear - Hsp. induction sp as [|t sp IH]; [reflexivity|]. cbn [map]. rewrite <- IH by (intros n; exact (Hsp (S n))). f_equal.
        destruct t as [k' c']. rewrite abs1_id; [reflexivity|]. apply awake_up. exact (Hsp 0%nat _ eq_refl).
  - exists [LPanic i p]. split; [reflexivity|].
    assert (Hn : awake pre) by (destruct o; cbn in Hx; exec_cases Hx k; injection Hx as <- <-; exact Logic.I). split.
    + intros w. eapply acct_ext; [apply (I w)|reflexivity..| |]; cbn [fS lT].
      * pose proof (nsl_insert w _ _ _ (Gor k pre) Hi) as E. rewrite (sleeps_up w k (o :: c) Hu), (sleeps_up w k pre (awake_up _ Hn)) in E. cbn [b2n] in E. lia.
      * apply (nowoke_insert _ _ _ _ _ Hi). now apply woke_awake.
    + unfold abs. cbn [fS lG lT lCrash]. f_equal. f_equal. rewrite (list_fmap_insert (abs1 _)). now rewrite abs1_id by now apply awake_up.
  - exists [LDie p]. split; [reflexivity|]. split; [|reflexivity]. exact I.
Qed.
Lemma seen_FL os : seen (map FL os) = os.
Proof. induction os as [|x os IH]; [reflexivity|]. change (seen (map FL (x :: os))) with (x :: seen (map FL os)). now rewrite IH. Qed.
Lemma misuse_FL os : no_misuse (map FL os).
Proof. intros y Hy. apply in_map_iff in Hy as (x & <- & _). eauto. Qed.
Lemma misuse_nil : no_misuse [].
Proof. intros y []. Qed.

(** A step inside Done. *)
Lemma fdone_sim f i k p f' ob : finv f -> lCrash (fS f) = false -> fD f !! i = Some p -> fdone f i k p = (f', ob) -> ob = [] /\ finv f' /\ abs f' = abs f.
Proof.
  intros I Hc Hp H. destruct p as [w n|w n|w n]; cbn [fdone] in H.
  - destruct (I w) as [(_ & _ & _ & Hn)|[(_ & _ & _ & Hn)|(Hz & i' & m & Ho & Hm & Hk)]]; [destruct (Hn _ _ Hp eq_refl)..|].
    pose proof (Ho _ _ Hp eq_refl) as <-. destruct Hk as [([E|E] & Hw & Hs & HP & Hwk)|(E & _)]; rewrite Hp in E; try discriminate E. injection E as <-.
    rewrite Hz, Hw, Nat.eqb_refl in H. cbn [Z.eqb andb] in H. injection H as <- <-. split; [reflexivity|]. split; [|reflexivity].
    intros w'. destruct (decide (w' = w)) as [->|Hne].
    + right. right. split; [exact Hz|]. exists i, n. split.
      { intros j p Hj Hg. cbn [fD] in Hj. apply lookup_insert_Some in Hj as [[<- _]|[_ Hj]]; [reflexivity|eauto]. }
      split; [exact Hm|]. left. cbn [fD fW fP fS]. rewrite lookup_insert. auto 10.
    + assert (Hx : forall j p, <[i := PStore w n]> (fD f) !! j = Some p -> pgroup p = w' -> fD f !! j = Some p).
      { intros j p Hj Hg. apply lookup_insert_Some in Hj as [[<- <-]|[_ Hj]]; [cbn in Hg; congruence|exact Hj]. }
      destruct (I w') as [(A1 & A2 & A3 & A4)|[(A1 & A2 & A3 & A4)|(A1 & i' & m & A2 & A3 & A4)]]; cbn [fS fW fP fD] in *; unfold acct, nopend, onepend in *; cbn [fS fW fP fD] in *.
      * left. do 3 (split; [assumption|]). intros j p Hj Hg. exact (A4 j p (Hx _ _ Hj Hg) Hg).
      * right. left. do 3 (split; [assumption|]). intros j p Hj Hg. exact (A4 j p (Hx _ _ Hj Hg) Hg).
      * right. right. split; [exact A1|]. exists i', m. split; [intros j p Hj Hg; eapply A2; eauto|]. split; [exact A3|].
        assert (i <> i') by (intros <-; destruct A4 as [([E|E] & _)|[E _]]; rewrite Hp in E; injection E; congruence).
        rewrite lookup_insert_ne by assumption. exact A4.
  - destruct (I w) as [(_ & _ & _ & Hn)|[(_ & _ & _ & Hn)|(Hz & i' & m & Ho & Hm & Hk)]]; [destruct (Hn _ _ Hp eq_refl)..|].
    pose proof (Ho _ _ Hp eq_refl) as <-. destruct Hk as [([E|E] & Hw & Hs & HP & Hwk)|(E & _)]; rewrite Hp in E; try discriminate E. injection E as <-.
    injection H as <- <-. split; [reflexivity|].
    assert (Hh : set_count w 0 (lG (fS f)) = lG (fS f)) by (rewrite <- Hz; destruct (lG (fS f)), w; reflexivity). rewrite Hh. split; [|destruct f as [[]]; cbn in *; subst; reflexivity].
    intros w'. destruct (decide (w' = w)) as [->|Hne].
    + right. right. split; [exact Hz|]. exists i, n. split.
      { intros j p Hj Hg. cbn [fD] in Hj. apply lookup_insert_Some in Hj as [[<- _]|[_ Hj]]; [reflexivity|eauto]. }
      split; [exact Hm|]. right. cbn [fD fW fP fS lT]. rewrite lookup_insert, upd_same, HP. auto.
    + assert (Hx : forall j p, <[i := PRel w n]> (fD f) !! j = Some p -> pgroup p = w' -> fD f !! j = Some p).
      { intros j p Hj Hg. apply lookup_insert_Some in Hj as [[<- <-]|[_ Hj]]; [cbn in Hg; congruence|exact Hj]. }
      destruct (I w') as [(A1 & A2 & A3 & A4)|[(A1 & A2 & A3 & A4)|(A1 & i' & m & A2 & A3 & A4)]]; unfold acct, nopend, onepend in *; cbn [fS fW fP fD lG lT] in *; rewrite (upd_other _ _ _ _ Hne).
      * left. do 3 (split; [assumption|]). intros j p Hj Hg. exact (A4 j p (Hx _ _ Hj Hg) Hg).
      * right. left. do 3 (split; [assumption|]). intros j p Hj Hg. exact (A4 j p (Hx _ _ Hj Hg) Hg).
      * right. right. split; [exact A1|]. exists i', m. split; [intros j p Hj Hg; eapply A2; eauto|]. split; [exact A3|].
        assert (i <> i') by (intros <-; destruct A4 as [([E|E] & _)|[E _]]; rewrite Hp in E; injection E; congruence).
        rewrite lookup_insert_ne by assumption. exact A4.
  - destruct (I w) as [(_ & _ & _ & Hn)|[(_ & _ & _ & Hn)|(Hz & i' & m & Ho & Hm & Hk)]]; [destruct (Hn _ _ Hp eq_refl)..|].
    pose proof (Ho _ _ Hp eq_refl) as <-. destruct Hk as [([E|E] & _)|(E & Hw & Hs)]; rewrite Hp in E; try discriminate E. injection E as <-.
    injection H as <- <-. split; [reflexivity|]. split; [|reflexivity].
    intros w'. destruct (decide (w' = w)) as [->|Hne].
    + destruct n as [|[|n]]; [lia| |].
      * right. left. unfold nopend. cbn [fS fW fP fD]. rewrite upd_same. split; [exact Hz|]. split; [exact Hw|]. split; [lia|].
        intros j p Hj Hg. apply lookup_delete_Some in Hj as [Hj1 Hj]. apply Hj1. symmetry. eauto.
      * right. right. split; [exact Hz|]. exists i, (S n). unfold onepend. cbn [fS fW fP fD]. rewrite lookup_insert, upd_same. split.
        { intros j p Hj Hg. apply lookup_insert_Some in Hj as [[<- _]|[_ Hj]]; [reflexivity|eauto]. }
        split; [lia|]. right. split; [reflexivity|]. split; [exact Hw|lia].
    + set (D := match n with S (S m) => <[i := PRel w (S m)]> (fD f) | _ => delete i (fD f) end).
      assert (Hx : forall j p, D !! j = Some p -> pgroup p = w' -> fD f !! j = Some p).
      { intros j p Hj Hg. subst D. destruct n as [|[|n]]; [apply lookup_delete_Some in Hj as [_ Hj]; exact Hj..|].
        apply lookup_insert_Some in Hj as [[<- <-]|[_ Hj]]; [cbn in Hg; congruence|exact Hj]. }
      assert (Hy : forall j, i <> j -> D !! j = fD f !! j).
      { intros j Hj. subst D. destruct n as [|[|n]]; [now rewrite lookup_delete_ne..|now rewrite lookup_insert_ne]. }
      destruct (I w') as [(A1 & A2 & A3 & A4)|[(A1 & A2 & A3 & A4)|(A1 & i' & m & A2 & A3 & A4)]]; unfold acct, nopend, onepend in *; cbn [fS fW fP fD lG lT] in *; rewrite (upd_other _ _ _ _ Hne).
      * left. do 3 (split; [assumption|]). intros j p Hj Hg. exact (A4 j p (Hx _ _ Hj Hg) Hg).
      * right. left. do 3 (split; [assumption|]). intros j p Hj Hg. exact (A4 j p (Hx _ _ Hj Hg) Hg).
      * right. right. split; [exact A1|]. exists i', m. split; [intros j p Hj Hg; eapply A2; eauto|]. split; [exact A3|].
        assert (i <> i') by (intros <-; destruct A4 as [([E|E] & _)|[E _]]; rewrite Hp in E; injection E; congruence).
        rewrite Hy by assumption. exact A4.
Qed.

(** ** The operations that differ *)
Lemma slept f i k w c : lT (fS f) !! i = Some (Gor k (Sleep w :: c)) -> count w (lG (fS f)) = 0 -> lT (abs f) !! i = Some (Gor k (Woken w :: c)).
Proof. intros Hi Hz. rewrite (abs_lookup _ _ _ Hi). unfold abs1. cbn [gCode gKind]. now rewrite Hz. Qed.
(** Goroutine i goes on with c', the counter of w changes to n; the rest of w's
    state is given by its accounting. *)
Lemma acct_other f f' w w' i k c c' n : acct f w' -> w' <> w -> lT (fS f) !! i = Some (Gor k c) -> sleeps w' (Gor k c) = false -> sleeps w' (Gor k c') = false -> woke w' (Gor k c') = false ->
  fS f' = fgo f (set_count w n (lG (fS f))) i k c' -> fW f' w' = fW f w' -> fP f' w' = fP f w' ->
  (fD f' = fD f \/ exists p, fD f !! i = None /\ pgroup p = w /\ fD f' = <[i := p]> (fD f)) -> acct f' w'.
Proof.
  intros I Hne Hi Hs Hs' Hw' ES EW EP ED.
  assert (E1 : count w' (lG (fS f')) = count w' (lG (fS f))) by (rewrite ES; apply (set_count_other w); assumption).
  assert (E2 : nsl w' (lT (fS f')) = nsl w' (lT (fS f))).
  { rewrite ES. unfold fgo. cbn [lT]. pose proof (nsl_insert w' _ _ _ (Gor k c') Hi) as E. rewrite Hs, Hs' in E. cbn [b2n] in E. lia. }
  assert (E3 : nowoke (lT (fS f)) w' -> nowoke (lT (fS f')) w') by (rewrite ES; apply (nowoke_insert _ _ _ _ _ Hi); assumption).
  destruct ED as [ED|(p & Hf & Hp & ED)]; [eapply acct_ext; eauto|].
  assert (Hx : forall j q, fD f' !! j = Some q -> pgroup q = w' -> fD f !! j = Some q).
  { rewrite ED. intros j q Hj Hg. apply lookup_insert_Some in Hj as [[<- <-]|[_ Hj]]; [congruence|exact Hj]. }
  destruct I as [(A1 & A2 & A3 & A4)|[(A1 & A2 & A3 & A4)|(A1 & i' & m & A2 & A3 & A4)]]; unfold acct, nopend, onepend in *; rewrite E1, E2, EW, EP.
  - left. do 3 (split; [assumption|]). intros j q Hj Hg. exact (A4 j q (Hx _ _ Hj Hg) Hg).
  - right. left. do 3 (split; [assumption|]). intros j q Hj Hg. exact (A4 j q (Hx _ _ Hj Hg) Hg).
  - right. right. split; [exact A1|]. exists i', m. split; [intros j q Hj Hg; exact (A2 j q (Hx _ _ Hj Hg) Hg)|]. split; [exact A3|].
    assert (i <> i') by (intros <-; destruct A4 as [([E|E] & _)|[E _]]; congruence).
    rewrite ED, lookup_insert_ne by assumption. tauto.
Qed.
Lemma set_count_id w h : set_count w (count w h) h = h.
Proof. destruct h, w; reflexivity. Qed.
Lemma add_sim f A i k w c x f' ob : lreach (abs f) A -> apart A -> finv f -> lCrash (fS f) = false ->
  lT (fS f) !! i = Some (Gor k (AddW w :: c)) -> fD f !! i = None -> fstep f (LRun i x) = (f', ob) ->
  ob = [] /\ finv f' /\ lstep (abs f) (LRun i x) = (abs f', []).
Proof.
  intros R Ha I Hc Hi Hd H. unfold fstep in H. rewrite Hc, Hi, Hd in H.
  pose proof (abs_lookup _ _ _ Hi) as Hb. rewrite abs1_id in Hb by exact Logic.I.
  pose proof (v_codes _ (lreach_inv _ _ R) _ _ Hb) as Hco. cbn [gKind gCode] in Hco.
  assert (Hn : awake c) by (codes_check (fun c => match c with _ :: Sleep _ :: _ | _ :: Woken _ :: _ => false | _ => true end) Hco; destruct c as [|[] c]; cbn; auto; discriminate Hco).
  assert (Hz : count w (lG (fS f)) = 0 -> nsl w (lT (fS f)) = 0%nat).
  { intros Hz. destruct (nsl w (lT (fS f))) eqn:E; [reflexivity|]. exfalso. destruct (nsl_ex w (lT (fS f))) as (j & kj & cj & Hj); [lia|].
    eapply (add_woken _ _ i j); [exact R|exact Ha|exact Hc|exact Hb|]. exact (slept _ _ _ _ _ Hj Hz). }
  assert (Hs : forall w', sleeps w' (Gor k (AddW w :: c)) = false) by reflexivity.
  assert (Hcase : fP f w = 0%nat /\ fW f w = nsl w (lT (fS f)) /\ nopend f w /\ 0 <= count w (lG (fS f))).
  { destruct (I w) as [(A1 & A2 & A3 & A4)|[(A1 & A2 & A3 & A4)|(A1 & i' & m & A2 & A3 & A4)]]; [| |exfalso].
    - repeat (split; [assumption|]). lia.
    - specialize (Hz A1). split; [lia|]. split; [lia|]. split; [assumption|lia].
    - specialize (Hz A1). destruct A4 as [(_ & _ & E & _)|(_ & _ & E)]; lia. }
  destruct Hcase as (HP & HW & HD & Hge).
  assert (Hb2 : (count w (lG (fS f)) =? 0) && negb (fW f w =? 0)%nat = false).
  { destruct (count w (lG (fS f)) =? 0) eqn:E; [|reflexivity]. apply Z.eqb_eq in E. rewrite HW, (Hz E). reflexivity. }
  rewrite Hb2 in H. injection H as <- <-. split; [reflexivity|].
  pose proof (nsl_insert w _ _ _ (Gor k c) Hi) as EN. rewrite Hs, (sleeps_up w k c (awake_up _ Hn)) in EN. cbn [b2n] in EN. split.
  - intros w'. destruct (decide (w' = w)) as [->|Hne].
    + left. cbn [fS fW fP fD fgo lG lT]. unfold fgo. cbn [lG lT]. rewrite set_count_same. split; [lia|]. split; [assumption|]. split; [lia|exact HD].
    + eapply (acct_other f _ w w' i k (AddW w :: c) c); try reflexivity; auto; [now apply sleeps_up, awake_up|now apply woke_awake].
  - unfold lstep. change (lCrash (abs f)) with (lCrash (fS f)). rewrite Hc, Hb. cbn [exec wake app]. rewrite app_nil_r. f_equal. unfold abs, fgo. cbn [fS lG lT lCrash]. f_equal.
    rewrite (list_fmap_insert (abs1 _)), abs1_id by now apply awake_up. f_equal. symmetry. apply abs_map_ext. intros j kj wj cj Hj.
    destruct (decide (wj = w)) as [->|Hne]; [|now rewrite set_count_other]. rewrite set_count_same.
    destruct (Z.eq_dec (count w (lG (fS f))) 0) as [E|E]; [|lia]. exfalso. specialize (Hz E). pose proof (nsl_pos w _ _ _ Hj ltac:(unfold sleeps; cbn; now apply bool_decide_eq_true)). lia.
Qed.
Lemma map_abs_wake h w ts : 0 < count w h ->
  map (abs1 (set_count w 0 h)) ts = map (wake1 w) (map (abs1 h) ts).
Proof.
  intros Hp. induction ts as [|t ts IH]; [reflexivity|]. cbn [map]. rewrite IH. f_equal. destruct t as [k [|[] c]]; try reflexivity.
  unfold abs1. cbn [gCode gKind]. destruct (decide (w0 = w)) as [->|Hne].
  - rewrite set_count_same. cbn [Z.eqb]. rewrite (proj2 (Z.eqb_neq _ _)) by lia. unfold wake1. cbn [gCode gKind]. now rewrite decide_True.
  - rewrite set_count_other by assumption. destruct (count w0 h =? 0); unfold wake1; cbn [gCode gKind]; [reflexivity|]. now rewrite decide_False.
Qed.
Lemma wake1_up w k c : up_ c -> wake1 w (Gor k c) = Gor k c.
Proof. destruct c as [|[] c]; try reflexivity. intros []. Qed.
Lemma done_sim f A i k w c x f' ob : lreach (abs f) A -> apart A -> finv f -> lCrash (fS f) = false ->
  lT (fS f) !! i = Some (Gor k (DoneW w :: c)) -> fD f !! i = None -> 0 < count w (lG (fS f)) -> fstep f (LRun i x) = (f', ob) ->
  ob = [] /\ finv f' /\ lstep (abs f) (LRun i x) = (abs f', []).
Proof.
  intros R Ha I Hc Hi Hd Hpos H. unfold fstep in H. rewrite Hc, Hi, Hd in H. rewrite (proj2 (Z.leb_gt _ _) Hpos) in H.
  pose proof (abs_lookup _ _ _ Hi) as Hb. rewrite abs1_id in Hb by exact Logic.I.
  pose proof (v_codes _ (lreach_inv _ _ R) _ _ Hb) as Hco. cbn [gKind gCode] in Hco.
  assert (Hn : awake c) by (codes_check (fun c => match c with _ :: Sleep _ :: _ | _ :: Woken _ :: _ => false | _ => true end) Hco; destruct c as [|[] c]; cbn; auto; discriminate Hco).
  assert (Hs : forall w', sleeps w' (Gor k (DoneW w :: c)) = false) by reflexivity.
  assert (Hcase : fP f w = 0%nat /\ fW f w = nsl w (lT (fS f)) /\ nopend f w).
  { destruct (I w) as [(A1 & A2 & A3 & A4)|[(A1 & _)|(A1 & _)]]; [auto|lia|lia]. }
  destruct Hcase as (HP & HW & HD).
  pose proof (nsl_insert w _ _ _ (Gor k c) Hi) as EN. rewrite Hs, (sleeps_up w k c (awake_up _ Hn)) in EN. cbn [b2n] in EN.
  assert (Hnw : nowoke (lT (fS f)) w).
  { intros j [kj cj] Hj. destruct (woke w (Gor kj cj)) eqn:E; [exfalso|reflexivity]. unfold woke in E. cbn in E. destruct cj as [|[] cj]; try discriminate E. apply bool_decide_eq_true in E as ->.
    pose proof (abs_lookup _ _ _ Hj) as Hj'. rewrite abs1_id in Hj' by exact Logic.I. pose proof (woken_zero _ _ _ _ _ _ R Ha Hj') as E. cbn [abs lG] in E. lia. }
  injection H as <- <-. split; [reflexivity|]. split.
  - intros w'. destruct (decide (w' = w)) as [->|Hne].
    + destruct (count w (lG (fS f)) =? 1) eqn:E1; cbn [andb].
      * apply Z.eqb_eq in E1. right. destruct (fW f w =? 0)%nat eqn:E2; cbn [negb].
        -- apply Nat.eqb_eq in E2. left. unfold fgo. cbn [fS fW fP fD lG lT]. rewrite set_count_same. split; [lia|]. split; [assumption|]. split; [lia|exact HD].
        -- apply Nat.eqb_neq in E2. right. unfold fgo. cbn [fS fW fP fD lG lT]. rewrite set_count_same. split; [lia|]. exists i, (fW f w). split.
           { intros j q Hj Hg. cbn [fD] in Hj. apply lookup_insert_Some in Hj as [[<- _]|[_ Hj]]; [reflexivity|destruct (HD _ _ Hj Hg)]. }
           split; [lia|]. left. rewrite lookup_insert. split; [auto|]. split; [reflexivity|]. split; [lia|]. split; [assumption|].
           apply (nowoke_insert _ _ _ _ _ Hi); [now apply woke_awake|exact Hnw].
      * apply Z.eqb_neq in E1. left. unfold fgo. cbn [fS fW fP fD lG lT]. rewrite set_count_same. split; [lia|]. split; [assumption|]. split; [lia|exact HD].
    + eapply (acct_other f _ w w' i k (DoneW w :: c) c); try reflexivity; auto; [now apply sleeps_up, awake_up|now apply woke_awake|].
      cbn [fD]. destruct (_ && _); [right; eexists; split; [exact Hd|split; [|reflexivity]; reflexivity]|left; reflexivity].
  - unfold lstep. change (lCrash (abs f)) with (lCrash (fS f)). change (lG (abs f)) with (lG (fS f)). rewrite Hc, Hb. cbn [exec]. rewrite (proj2 (Z.leb_gt _ _) Hpos). rewrite app_nil_r. cbn [app]. f_equal. unfold abs, fgo. cbn [fS lG lT lCrash]. f_equal.
    destruct (count w (lG (fS f)) =? 1) eqn:E1; cbn [wake].
    + apply Z.eqb_eq in E1. rewrite E1. change (1 - 1) with 0. rewrite map_abs_wake by assumption. f_equal.
      rewrite (list_fmap_insert (abs1 _)). now rewrite abs1_id by now apply awake_up.
    + apply Z.eqb_neq in E1. rewrite (list_fmap_insert (abs1 _)), abs1_id by now apply awake_up. f_equal. symmetry. apply abs_map_ext. intros j kj wj cj Hj.
      destruct (decide (wj = w)) as [->|Hne]; [|now rewrite set_count_other]. rewrite set_count_same. lia.
Qed.
Lemma wait_sim f A i k w c x f' ob : lreach (abs f) A -> finv f -> lCrash (fS f) = false ->
  lT (fS f) !! i = Some (Gor k (Wait w :: c)) -> fD f !! i = None -> count w (lG (fS f)) <> 0 -> fstep f (LRun i x) = (f', ob) ->
  ob = [] /\ finv f' /\ lstep (abs f) (LRun i x) = (abs f', []).
Proof.
  intros R I Hc Hi Hd Hnz H. unfold fstep in H. rewrite Hc, Hi, Hd in H. pose proof (proj2 (Z.eqb_neq _ _) Hnz) as Hnb. rewrite Hnb in H.
  pose proof (abs_lookup _ _ _ Hi) as Hb. rewrite abs1_id in Hb by exact Logic.I.
  injection H as <- <-. split; [reflexivity|]. split.
  - intros w'. destruct (decide (w' = w)) as [->|Hne].
    + destruct (I w) as [(A1 & A2 & A3 & A4)|[(A1 & _)|(A1 & _)]]; [|contradiction..]. left. unfold fgo. cbn [fS fW fP fD lG lT]. rewrite upd_same.
      split; [assumption|]. split; [assumption|]. split; [|exact A4]. pose proof (nsl_insert w _ _ _ (Gor k (Sleep w :: c)) Hi) as EN.
      unfold sleeps in EN at 1 2. cbn [gCode] in EN. rewrite bool_decide_true in EN by reflexivity. cbn [b2n] in EN. lia.
    + eapply (acct_other f _ w w' i k (Wait w :: c) (Sleep w :: c) (count w (lG (fS f)))); try reflexivity; auto.
      * unfold sleeps. cbn. rewrite bool_decide_false; auto.
      * cbn [fS]. now rewrite set_count_id.
      * cbn [fW]. now rewrite upd_other.
  - unfold lstep. change (lCrash (abs f)) with (lCrash (fS f)). change (lG (abs f)) with (lG (fS f)). rewrite Hc, Hb. cbn [exec]. rewrite Hnb. cbn [wake app]. rewrite app_nil_r. f_equal. unfold abs, fgo. cbn [fS lG lT lCrash]. f_equal.
    rewrite (list_fmap_insert (abs1 _)). f_equal. unfold abs1. cbn [gCode gKind]. now rewrite Hnb.
Qed.
Lemma sleep_sim f A i k w c x f' ob : lreach (abs f) A -> finv f -> lCrash (fS f) = false ->
  lT (fS f) !! i = Some (Gor k (Sleep w :: c)) -> fD f !! i = None -> fstep f (LRun i x) = (f', ob) ->
  ob = [] /\ finv f' /\ abs f' = abs f.
Proof.
  intros R I Hc Hi Hd H. unfold fstep in H. rewrite Hc, Hi, Hd in H.
  destruct (fP f w) as [|m] eqn:EP; injection H as <- <-; [auto|]. split; [reflexivity|].
  assert (Hz : count w (lG (fS f)) = 0) by (destruct (I w) as [(_ & A2 & _)|[(A1 & _)|(A1 & _)]]; [lia|assumption..]).
  pose proof (nsl_insert w _ _ _ (Gor k (Woken w :: c)) Hi) as EN. unfold sleeps in EN at 1 2. cbn [gCode] in EN. rewrite bool_decide_true in EN by reflexivity. cbn [b2n] in EN. split.
  - intros w'. destruct (decide (w' = w)) as [->|Hne].
    + right. destruct (I w) as [(_ & A2 & _)|[(A1 & A2 & A3 & A4)|(A1 & i' & n & A2 & A3 & A4)]]; [lia|left|right]; unfold fgo; cbn [fS fW fP fD lG lT]; rewrite upd_same.
      * split; [assumption|]. split; [assumption|]. split; [lia|exact A4].
      * split; [assumption|]. exists i', n. split; [exact A2|]. split; [assumption|]. destruct A4 as [(_ & _ & _ & E & _)|(E1 & E2 & E3)]; [lia|]. right. split; [assumption|]. split; [assumption|]. lia.
    + eapply (acct_other f _ w w' i k (Sleep w :: c) (Woken w :: c) (count w (lG (fS f)))); try reflexivity; auto.
      * unfold sleeps. cbn. rewrite bool_decide_false; auto.
      * unfold woke. cbn. rewrite bool_decide_false; auto.
      * cbn [fS]. now rewrite set_count_id.
      * cbn [fP]. now rewrite upd_other.
  - unfold abs, fgo. cbn [fS lG lT lCrash]. rewrite Hc. f_equal. rewrite (list_fmap_insert (abs1 _)).
    apply list_insert_id. rewrite list_lookup_fmap, Hi. cbn [fmap option_fmap option_map]. unfold abs1 at 1. cbn [gCode gKind]. rewrite Hz. cbn. reflexivity.
Qed.

(** ** Every step *)
Lemma fstep_sim f A e f' ob : lreach (abs f) A -> apart A -> finv f -> fstep f e = (f', ob) ->
  exists os es, ob = map FL os /\ finv f' /\ lrun (abs f) es = (abs f', os) /\ Forall (fun e' => e' = e) es.
Proof.
  intros R Ha I H.
  assert (one : forall os, ob = map FL os -> finv f' -> lstep (abs f) e = (abs f', os) -> exists os es, ob = map FL os /\ finv f' /\ lrun (abs f) es = (abs f', os) /\ Forall (fun e' => e' = e) es).
  { intros os H1 H2 H3. exists os, [e]. split; [assumption|]. split; [assumption|]. split; [|constructor; auto]. cbn [lrun]. rewrite H3. cbn. now rewrite app_nil_r. }
  assert (none : ob = [] -> finv f' -> abs f' = abs f -> exists os es, ob = map FL os /\ finv f' /\ lrun (abs f) es = (abs f', os) /\ Forall (fun e' => e' = e) es).
  { intros H1 H2 H3. exists [], []. split; [assumption|]. split; [assumption|]. split; [cbn; now rewrite H3|constructor]. }
  destruct (lCrash (fS f)) eqn:Hc; [unfold fstep in H; rewrite Hc in H; injection H as <- <-; auto|].
  destruct e as [cl|i x|].
  - unfold fstep, flift, lstep in H. rewrite Hc in H. injection H as <- <-. apply (one [LBegin (length (lT (fS f))) cl]); [reflexivity| |].
    + intros w. eapply acct_ext; [apply (I w)|reflexivity..| |]; cbn [fS lT].
      * rewrite nsl_app. destruct cl; cbn [nsl]; unfold sleeps; cbn; lia.
      * intros Hw j t Hj. apply lookup_app_Some in Hj as [Hj|[_ Hj]]; [eauto|]. apply list_lookup_singleton_Some in Hj as [_ <-]. destruct cl; reflexivity.
    + unfold lstep. change (lCrash (abs f)) with (lCrash (fS f)). rewrite Hc. unfold abs. cbn [fS lG lT lCrash]. rewrite map_app, map_length. f_equal. f_equal. f_equal. destruct cl; reflexivity.
  - destruct (lT (fS f) !! i) as [[k code]|] eqn:Hi; [|unfold fstep in H; rewrite Hc, Hi in H; injection H as <- <-; auto].
    destruct (fD f !! i) as [p|] eqn:Hd.
    { unfold fstep in H. rewrite Hc, Hi, Hd in H. destruct (fdone_sim _ _ _ _ _ _ I Hc Hd H) as (H1 & H2 & H3). auto. }
    destruct code as [|o c]; [unfold fstep in H; rewrite Hc, Hi, Hd in H; injection H as <- <-; auto|].
    assert (lift : (forall w, o <> AddW w) -> (forall w, o = DoneW w -> count w (lG (fS f)) <= 0) -> (forall w, o <> Sleep w) -> (forall w, o = Wait w -> count w (lG (fS f)) = 0) ->
      flift f (LRun i x) = (f', ob) -> exists os es, ob = map FL os /\ finv f' /\ lrun (abs f) es = (abs f', os) /\ Forall (fun e' => e' = LRun i x) es).
    { intros H1 H2 H3 H4 H5. destruct (flift_run _ _ _ _ _ _ _ _ _ R I Hc Hi H1 H2 H3 H4 H5) as (os & E1 & E2 & E3). eauto. }
    pose proof H as H'. unfold fstep in H. rewrite Hc, Hi, Hd in H.
    destruct o; try (apply lift; [discriminate..|exact H]).
    + destruct (add_sim _ _ _ _ _ _ _ _ _ R Ha I Hc Hi Hd H') as (H1 & H2 & H3). exact (one [] H1 H2 H3).
    + destruct (count w (lG (fS f)) <=? 0) eqn:E.
      * apply lift; try discriminate; [|exact H]. intros w' E'. injection E' as <-. lia.
      * destruct (done_sim _ _ _ _ _ _ _ _ _ R Ha I Hc Hi Hd ltac:(lia) H') as (H1 & H2 & H3). exact (one [] H1 H2 H3).
    + destruct (count w (lG (fS f)) =? 0) eqn:E.
      * apply lift; try discriminate; [|exact H]. intros w' E'. injection E' as <-. lia.
      * destruct (wait_sim _ _ _ _ _ _ _ _ _ R I Hc Hi Hd ltac:(lia) H') as (H1 & H2 & H3). exact (one [] H1 H2 H3).
    + destruct (sleep_sim _ _ _ _ _ _ _ _ _ R I Hc Hi Hd H') as (H1 & H2 & H3). auto.
    + assert (Hb : lT (abs f) !! i = Some (Gor k (Woken w :: c))) by (rewrite (abs_lookup _ _ _ Hi), abs1_id by exact Logic.I; reflexivity).
      pose proof (woken_zero _ _ _ _ _ _ R Ha Hb) as Hz. cbn [abs lG] in Hz.
      assert (Hw : fW f w = 0%nat).
      { destruct (I w) as [(A1 & _)|[(_ & A2 & _)|(_ & i' & m & _ & A3 & [(_ & _ & _ & _ & Hn)|(_ & E & _)])]]; [lia|assumption| |assumption].
        exfalso. specialize (Hn _ _ Hi). unfold woke in Hn. cbn in Hn. apply bool_decide_eq_false in Hn. congruence. }
      rewrite Hz, Hw in H. cbn [Z.eqb Nat.eqb negb andb] in H. apply lift; try discriminate; exact H.
  - unfold fstep, flift, lstep in H. rewrite Hc in H. injection H as <- <-. apply (one []); [reflexivity| |].
    + intros w. eapply acct_ext; [apply (I w)|..]; try reflexivity; [|auto]. cbn [fS lG]. destruct (lG (fS f)), w; reflexivity.
    + unfold lstep. change (lCrash (abs f)) with (lCrash (fS f)). rewrite Hc. unfold abs. cbn [fS lG lT lCrash]. f_equal. f_equal. symmetry. apply abs_map_ext. intros. destruct (lG (fS f)), w; reflexivity.
Qed.

Lemma frun_app f es1 es2 : frun f (es1 ++ es2) = let '(f1, o1) := frun f es1 in let '(f2, o2) := frun f1 es2 in (f2, o1 ++ o2).
Proof.
  revert f. induction es1 as [|e es1 IH]; intros f; cbn [app frun]; [destruct (frun f es2); reflexivity|].
  destruct (fstep f e) as [f1 o1]. rewrite IH. destruct (frun f1 es1) as [f2 o2]. destruct (frun f2 es2). now rewrite app_assoc.
Qed.
Lemma seen_app A B : seen (A ++ B) = seen A ++ seen B.
Proof. apply flat_map_app. Qed.
Lemma finv_init : finv finit.
Proof. intros w. right. left. split; [destruct w; reflexivity|]. split; [reflexivity|]. split; [reflexivity|]. intros j p H. cbn in H. rewrite lookup_empty in H. discriminate H. Qed.
Lemma lrun_app' s es1 es2 s1 o1 s2 o2 : lrun s es1 = (s1, o1) -> lrun s1 es2 = (s2, o2) -> lrun s (es1 ++ es2) = (s2, o1 ++ o2).
Proof.
  revert s o1. induction es1 as [|e es1 IH]; intros s o1 H1 H2; cbn [app lrun] in *; [injection H1 as <- <-; exact H2|].
  destruct (lstep s e) as [s' o]. destruct (lrun s' es1) as [s'' o'] eqn:E. injection H1 as <- <-. erewrite IH by eauto. now rewrite app_assoc.
Qed.
Theorem frun_sim es : forall f A, frun finit es = (f, A) -> apart (seen A) ->
  no_misuse A /\ finv f /\ exists ls, lrun linit ls = (abs f, seen A) /\ (Forall no_fail es -> Forall no_fail ls).
Proof.
  induction es as [|e es IH] using rev_ind; intros f A H Ha.
  - injection H as <- <-. split; [apply misuse_nil|]. split; [apply finv_init|]. exists []. split; [reflexivity|constructor].
  - rewrite frun_app in H. destruct (frun finit es) as [f1 o1] eqn:E1. cbn [frun] in H. destruct (fstep f1 e) as [f2 o2] eqn:E2. injection H as <- <-. rewrite app_nil_r in *.
    rewrite seen_app in Ha. destruct (IH _ _ eq_refl (apart_pre _ _ Ha)) as (H1 & H2 & ls & H3 & H4).
    destruct (fstep_sim f1 (seen o1) e f2 o2) as (os & es' & E & H5 & H6 & H7); [exists ls; exact H3|exact (apart_pre _ _ Ha)|assumption|assumption|].
    split; [|split; [assumption|]].
    + intros y Hy. apply in_app_or in Hy as [Hy|Hy]; [auto|]. rewrite E in Hy. exact (misuse_FL _ _ Hy).
    + exists (ls ++ es'). split; [rewrite seen_app, E, seen_FL; eapply lrun_app'; eauto|].
      intros Hf. apply Forall_app in Hf as [Hf1 Hf2]. apply Forall_app. split; [auto|]. apply Forall_cons in Hf2 as [Hf2 _]. eapply List.Forall_impl; [|exact H7]. intros ? ->. exact Hf2.
Qed.
