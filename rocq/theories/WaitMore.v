(** * WaitMore: the executions of Lifecycle.v are executions of WaitGroups.v; what
    a Start that overlaps a waiting call can do *)
From Verif Require Export WaitProofs.
From stdpp Require Import gmap list.
From Coq Require Import ZifyBool.
Open Scope Z_scope.
Open Scope list_scope.

(** ** The other direction: every waiter takes its permit at once *)
Definition same (f : fsys) (s : lsys) : Prop :=
  fS f = s /\ (forall w, fW f w = nsl w (lT s)) /\ (forall w, fP f w = 0%nat) /\ fD f = ∅.
Definition fpath (f : fsys) (f' : fsys) (ob : list fobs) : Prop := exists es, frun f es = (f', ob).
Lemma fpath_refl f : fpath f f [].
Proof. exists []. reflexivity. Qed.
Lemma fpath_trans f1 f2 f3 a b : fpath f1 f2 a -> fpath f2 f3 b -> fpath f1 f3 (a ++ b).
Proof. intros [e1 H1] [e2 H2]. exists (e1 ++ e2). rewrite frun_app, H1, H2. reflexivity. Qed.
Lemma fpath_one f e f' ob : fstep f e = (f', ob) -> fpath f f' ob.
Proof. intros H. exists [e]. cbn. rewrite H. now rewrite app_nil_r. Qed.
Lemma wake_none w ts : nsl w ts = 0%nat -> map (wake1 w) ts = ts.
Proof.
  induction ts as [|[k c] ts IH]; intros H; [reflexivity|]. cbn [nsl] in H. cbn [map]. rewrite IH by lia. f_equal.
  destruct c as [|[] c]; try reflexivity. unfold wake1, sleeps in *. cbn [gCode gKind b2n] in *. destruct (decide (w0 = w)) as [->|]; [|reflexivity]. rewrite bool_decide_true in H by reflexivity. cbn in H. lia.
Qed.
Lemma wake_again w ts i k c : ts !! i = Some (Gor k (Sleep w :: c)) -> map (wake1 w) (<[i := Gor k (Woken w :: c)]> ts) = map (wake1 w) ts.
Proof.
  intros Hi. rewrite (list_fmap_insert (wake1 w)). apply list_insert_id. rewrite list_lookup_fmap, Hi. cbn. unfold wake1. cbn. now rewrite decide_True.
Qed.
Lemma nsl_wake w w' ts : nsl w' (map (wake1 w) ts) = if decide (w' = w) then 0%nat else nsl w' ts.
Proof.
  induction ts as [|[k c] ts IH]; [cbn; now destruct (decide _)|]. cbn [map nsl]. rewrite IH.
  destruct c as [|[] c]; try (unfold wake1, sleeps; cbn; destruct (decide (w' = w)); reflexivity).
  unfold wake1, sleeps; cbn [gCode gKind]. destruct (decide (w0 = w)) as [->|Hne]; cbn [gCode].
  - destruct (decide (w' = w)) as [->|]; [reflexivity|]. rewrite bool_decide_false by auto. reflexivity.
  - destruct (decide (w' = w)) as [->|]; [|reflexivity]. rewrite bool_decide_false by auto. reflexivity.
Qed.
(** All permits are taken. *)
Lemma take_all w n : forall f, lCrash (fS f) = false -> fD f = ∅ -> fP f w = n -> nsl w (lT (fS f)) = n ->
  exists f', fpath f f' [] /\ fS f' = LSys (lG (fS f)) (map (wake1 w) (lT (fS f))) false /\ fW f' = fW f /\ fD f' = ∅ /\ fP f' w = 0%nat /\ forall w', w' <> w -> fP f' w' = fP f w'.
Proof.
  induction n as [|n IH]; intros f Hc Hd HP HN.
  - exists f. split; [apply fpath_refl|]. rewrite wake_none by assumption. split; [destruct f as [[] ? ? ?]; cbn in *; subst; reflexivity|]. auto.
  - destruct (nsl_ex w (lT (fS f))) as (i & k & c & Hi); [lia|].
    assert (H : fstep f (LRun i XGo) = (FSys (fgo f (lG (fS f)) i k (Woken w :: c)) (fW f) (upd (fP f) w n) (fD f), [])).
    { unfold fstep. rewrite Hc, Hi, Hd, lookup_empty, HP. reflexivity. }
    pose proof (nsl_insert w _ _ _ (Gor k (Woken w :: c)) Hi) as EN. unfold sleeps in EN at 1 2. cbn [gCode] in EN. rewrite bool_decide_true in EN by reflexivity. cbn [b2n] in EN.
    destruct (IH (FSys (fgo f (lG (fS f)) i k (Woken w :: c)) (fW f) (upd (fP f) w n) (fD f))) as (f' & H1 & H2 & H3 & H4 & H5 & H6); unfold fgo; cbn [fS lCrash fD fP lT]; [reflexivity|assumption|apply upd_same|lia|].
    exists f'. split; [change (@nil fobs) with (@nil fobs ++ []); eapply fpath_trans; [exact (fpath_one _ _ _ _ H)|exact H1]|].
    rewrite H2. unfold fgo. cbn [fS lG lT]. split; [now rewrite (wake_again _ _ _ _ _ Hi)|]. split; [exact H3|]. split; [exact H4|]. split; [exact H5|].
    intros w' Hne. rewrite H6 by assumption. cbn [fP]. now apply upd_other.
Qed.
(** The permits are given. *)
Lemma rel_all i k code w n : forall f, lCrash (fS f) = false -> lT (fS f) !! i = Some (Gor k code) -> fD f = {[i := PRel w (S n)]} ->
  exists f', fpath f f' [] /\ fS f' = fS f /\ fW f' = fW f /\ fD f' = ∅ /\ fP f' w = (fP f w + S n)%nat /\ forall w', w' <> w -> fP f' w' = fP f w'.
Proof.
  induction n as [|n IH]; intros f Hc Hi Hd.
  - assert (H : fstep f (LRun i XGo) = (FSys (fS f) (fW f) (upd (fP f) w (S (fP f w))) (delete i (fD f)), [])).
    { unfold fstep. rewrite Hc, Hi, Hd, lookup_singleton. cbn [fdone]. rewrite Hd. reflexivity. }
    eexists. split; [exact (fpath_one _ _ _ _ H)|]. cbn [fS fW fD fP]. split; [reflexivity|]. split; [reflexivity|]. split; [rewrite Hd; apply delete_singleton|]. split; [rewrite upd_same; lia|]. intros. now apply upd_other.
  - assert (H : fstep f (LRun i XGo) = (FSys (fS f) (fW f) (upd (fP f) w (S (fP f w))) {[i := PRel w (S n)]}, [])).
    { unfold fstep. rewrite Hc, Hi, Hd, lookup_singleton. cbn [fdone]. rewrite Hd, insert_singleton. reflexivity. }
    destruct (IH (FSys (fS f) (fW f) (upd (fP f) w (S (fP f w))) {[i := PRel w (S n)]})) as (f' & H1 & H2 & H3 & H4 & H5 & H6); cbn [fS fD]; auto.
    exists f'. split; [change (@nil fobs) with (@nil fobs ++ []); eapply fpath_trans; [exact (fpath_one _ _ _ _ H)|exact H1]|]. cbn [fS fW fP] in *.
    split; [assumption|]. split; [assumption|]. split; [assumption|]. rewrite upd_same in H5. split; [lia|]. intros w' Hne. rewrite H6 by assumption. now apply upd_other.
Qed.
Lemma asleep_pos s w : linv s -> (0 < nsl w (lT s))%nat -> 0 < count w (lG s).
Proof. intros I H. destruct (nsl_ex _ _ H) as (i & k & c & Hi). exact (v_sleep s I _ _ _ _ Hi). Qed.
Lemma asleep_zero s w : linv s -> count w (lG s) = 0 -> nsl w (lT s) = 0%nat.
Proof. intros I H. destruct (nsl w (lT s)) eqn:E; [reflexivity|]. pose proof (asleep_pos s w I). lia. Qed.

Lemma same_same f s s' : same f s -> (forall w, nsl w (lT s') = nsl w (lT s)) -> same (FSys s' (fW f) (fP f) (fD f)) s'.
Proof. intros (H1 & H2 & H3 & H4) H. split; [reflexivity|]. split; [|auto]. intros w. cbn. now rewrite H2, H. Qed.
Lemma lstep_fine s e s' os f : linv s -> lstep s e = (s', os) -> same f s -> exists f', fpath f f' (map FL os) /\ same f' s'.
Proof.
  intros I H Hf. pose proof Hf as (E1 & HW & HP & HD).
  destruct (lCrash s) eqn:Hc.
  { unfold lstep in H. rewrite Hc in H. injection H as <- <-. exists f. split; [apply fpath_refl|assumption]. }
  assert (lift : fstep f e = flift f e -> (forall w, nsl w (lT s') = nsl w (lT s)) -> exists f', fpath f f' (map FL os) /\ same f' s').
  { intros E EN. exists (FSys s' (fW f) (fP f) (fD f)). split; [|eapply same_same; eauto]. eapply (fpath_one f e). rewrite E. unfold flift. rewrite E1, H. reflexivity. }
  destruct e as [cl|i x|].
  - apply lift; [unfold fstep; rewrite E1, Hc; reflexivity|]. unfold lstep in H. rewrite Hc in H. injection H as <- <-. intros w. cbn [lT]. rewrite nsl_app. destruct cl; cbn [nsl]; unfold sleeps; cbn; lia.
  - unfold lstep in H. rewrite Hc in H.
    destruct (lT s !! i) as [[k [|o c]]|] eqn:Hi; [injection H as <- <-; exists f; split; [apply fpath_refl|assumption]| |injection H as <- <-; exists f; split; [apply fpath_refl|assumption]].
    assert (Hd : fD f !! i = None) by (rewrite HD; apply lookup_empty).
    assert (Hfs : fstep f (LRun i x) = match o with
          | AddW w =>
              let h := set_count w (count w (lG s) + 1) (lG s) in
              if (count w (lG s) =? 0) && negb (fW f w =? 0)%nat then fmisuse f h i k [Unlock]
              else (FSys (fgo f h i k c) (fW f) (fP f) (fD f), [])
          | DoneW w =>
              if count w (lG s) <=? 0 then flift f (LRun i x) else
              (FSys (fgo f (set_count w (count w (lG s) - 1) (lG s)) i k c) (fW f) (fP f)
                 (if (count w (lG s) =? 1) && negb (fW f w =? 0)%nat then <[i := PCheck w (fW f w)]> (fD f) else fD f), [])
          | Wait w =>
              if count w (lG s) =? 0 then flift f (LRun i x)
              else (FSys (fgo f (lG s) i k (Sleep w :: c)) (upd (fW f) w (S (fW f w))) (fP f) (fD f), [])
          | Sleep w =>
              match fP f w with
              | O => (f, [])
              | S m => (FSys (fgo f (lG s) i k (Woken w :: c)) (fW f) (upd (fP f) w m) (fD f), [])
              end
          | Woken w =>
              if (count w (lG s) =? 0) && negb (fW f w =? 0)%nat then
                (if is_call k then (FSys (fgo f (lG s) i k []) (fW f) (fP f) (fD f), [FL (LPanic i PReuse)])
                 else (FSys (LSys (lG s) (lT s) true) (fW f) (fP f) (fD f), [FL (LDie PReuse)]))
              else flift f (LRun i x)
          | _ => flift f (LRun i x)
          end) by (unfold fstep; rewrite E1, Hc, Hi, Hd; reflexivity).
    pose proof (v_codes _ I _ _ Hi) as Hco. cbn [gKind gCode] in Hco.
    assert (Hn : awake c) by (codes_check (fun c => match c with _ :: Sleep _ :: _ | _ :: Woken _ :: _ => false | _ => true end) Hco; destruct c as [|[] c]; cbn; auto; discriminate Hco).
    assert (Hz : forall w, (count w (lG s) =? 0) && negb (fW f w =? 0)%nat = false).
    { intros w. destruct (count w (lG s) =? 0) eqn:E; [|reflexivity]. rewrite HW, (asleep_zero s w I) by lia. reflexivity. }
    assert (Hgen : (forall w, o <> Sleep w) -> (forall w, o = DoneW w -> count w (lG s) <= 0) -> (forall w, o = Wait w -> count w (lG s) = 0) -> fstep f (LRun i x) = flift f (LRun i x) -> exists f', fpath f f' (map FL os) /\ same f' s').
    { intros H1 H2 H3 H4. apply lift; [assumption|]. intros w.
      assert (Hu : sleeps w (Gor k (o :: c)) = false) by (apply sleeps_up; destruct o; cbn; auto; eapply H1; reflexivity).
      destruct (exec (lG s) i k o x) as [|h pre sp wk os'|pre p|p] eqn:Hx; injection H as <- <-; auto; cbn [lT].
      - assert (wk = None) as ->. { destruct wk as [w'|]; [|reflexivity]. destruct (exec_wk _ _ _ _ _ _ _ _ _ _ w' Hx eq_refl) as [-> E]. specialize (H2 w' eq_refl). lia. }
        pose proof (next_awake _ _ _ _ _ _ _ _ _ _ _ Hco Hx H3) as Hn'.
        cbn [wake]. rewrite nsl_app. pose proof (nsl_insert w _ _ _ (Gor k (pre ++ c)) Hi) as E. rewrite Hu, (sleeps_up w k (pre ++ c) (awake_up _ Hn')) in E.
        assert (E2 : nsl w sp = 0%nat). { destruct (nsl w sp) eqn:E2; [reflexivity|]. destruct (nsl_ex w sp) as (n' & k' & c' & Hs); [lia|].
          apply (exec_spawn _ _ _ _ _ _ _ _ _ _ _ _ Hx) in Hs as [_ [(g' & _ & _ & Hs)|(g' & _ & Hs)]]; discriminate Hs. }
        cbn [b2n] in E. lia.
      - assert (Hn' : awake pre) by (destruct o; cbn in Hx; exec_cases Hx k; injection Hx as <- <-; exact Logic.I).
        pose proof (nsl_insert w _ _ _ (Gor k pre) Hi) as E. rewrite Hu, (sleeps_up w k pre (awake_up _ Hn')) in E. cbn [b2n] in E. lia. }
    destruct o; try (apply Hgen; [discriminate..|exact Hfs]).
    + (* Add *) cbn [exec] in H. injection H as <- <-. cbv zeta in Hfs. rewrite Hz in Hfs.
      eexists. split; [exact (fpath_one _ _ _ _ Hfs)|]. cbn [wake]. rewrite app_nil_r. cbn [app]. unfold fgo. rewrite E1. eapply (same_same f s); [assumption|]. intros w'. cbn [lT].
      pose proof (nsl_insert w' _ _ _ (Gor k c) Hi) as E. rewrite (sleeps_up w' k (AddW w :: c) Logic.I), (sleeps_up w' k c (awake_up _ Hn)) in E. cbn [b2n] in E. lia.
    + (* Done *) destruct (count w (lG s) <=? 0) eqn:Ep.
      { apply Hgen; try discriminate; [|exact Hfs]. intros w' E. injection E as <-. lia. }
      cbn [exec] in H. rewrite Ep in H. injection H as <- <-. cbn [app]. rewrite app_nil_r.
      set (h := set_count w (count w (lG s) - 1) (lG s)) in *. set (ts := <[i := Gor k c]> (lT s)) in *.
      assert (EN : forall w', nsl w' ts = nsl w' (lT s)).
      { intros w'. pose proof (nsl_insert w' _ _ _ (Gor k c) Hi) as E. rewrite (sleeps_up w' k (DoneW w :: c) Logic.I), (sleeps_up w' k c (awake_up _ Hn)) in E. cbn [b2n] in E. subst ts. lia. }
      assert (Hfg : fgo f h i k c = LSys h ts false) by (unfold fgo; now rewrite E1). rewrite Hfg in Hfs.
      destruct (count w (lG s) =? 1) eqn:E; cbn [wake].
      2: { eexists. split; [exact (fpath_one _ _ _ _ Hfs)|]. eapply (same_same f s); [assumption|]. exact EN. }
      destruct (fW f w) as [|n] eqn:En; cbn [Nat.eqb negb andb] in Hfs.
      { rewrite HW in En. eexists. split; [exact (fpath_one _ _ _ _ Hfs)|]. rewrite wake_none by (rewrite EN; exact En). eapply (same_same f s); [assumption|]. exact EN. }
      assert (Hi' : ts !! i = Some (Gor k c)) by (subst ts; apply list_lookup_insert; eapply lookup_lt_Some; eassumption).
      assert (Hh0 : count w h = 0) by (subst h; rewrite set_count_same; lia).
      assert (Hh1 : set_count w 0 h = h) by (rewrite <- Hh0; apply set_count_id).
      set (f1 := FSys (LSys h ts false) (fW f) (fP f) (<[i := PCheck w (S n)]> (fD f))) in *.
      assert (S1 : fstep f1 (LRun i XGo) = (FSys (LSys h ts false) (fW f) (fP f) {[i := PStore w (S n)]}, [])).
      { unfold fstep, f1. cbn [fS lCrash lT fD]. rewrite Hi', lookup_insert. cbn [fdone fS lG fW]. rewrite Hh0, En, Nat.eqb_refl. cbn [Z.eqb andb fS fW fP fD]. rewrite insert_insert, HD. reflexivity. }
      set (f2 := FSys (LSys h ts false) (fW f) (fP f) {[i := PStore w (S n)]}) in *.
      assert (S2 : fstep f2 (LRun i XGo) = (FSys (LSys h ts false) (upd (fW f) w 0) (fP f) {[i := PRel w (S n)]}, [])).
      { unfold fstep, f2. cbn [fS lCrash lT fD]. rewrite Hi', lookup_singleton. cbn [fdone fS lG lT fW fP fD]. rewrite Hh1, insert_singleton. reflexivity. }
      set (f3 := FSys (LSys h ts false) (upd (fW f) w 0) (fP f) {[i := PRel w (S n)]}) in *.
      destruct (rel_all i k c w n f3) as (f4 & P1 & P2 & P3 & P4 & P5 & P6); [reflexivity|exact Hi'|reflexivity|].
      destruct (take_all w (S n) f4) as (f5 & Q1 & Q2 & Q3 & Q4 & Q5 & Q6).
      { rewrite P2. reflexivity. } { exact P4. } { rewrite P5. cbn [f3 fP]. now rewrite HP. } { rewrite P2. cbn [f3 fS lT]. now rewrite EN, <- HW. }
      exists f5. split.
      * change (map FL []) with ([] ++ ([] ++ ([] ++ ([] ++ @nil fobs)))).
        eapply fpath_trans; [exact (fpath_one _ _ _ _ Hfs)|]. eapply fpath_trans; [exact (fpath_one _ _ _ _ S1)|]. eapply fpath_trans; [exact (fpath_one _ _ _ _ S2)|]. eapply fpath_trans; [exact P1|exact Q1].
      * split; [rewrite Q2, P2; reflexivity|]. split; [|split; [|exact Q4]].
        -- intros w'. rewrite Q3, P3. cbn [f3 fW lT]. rewrite nsl_wake. destruct (decide (w' = w)) as [->|Hne]; [apply upd_same|]. rewrite upd_other by assumption. now rewrite EN.
        -- intros w'. destruct (decide (w' = w)) as [->|Hne]; [exact Q5|]. rewrite Q6, P6 by assumption. apply HP.
    + (* Wait *) destruct (count w (lG s) =? 0) eqn:E.
      { apply Hgen; try discriminate; [|exact Hfs]. intros w' E'. injection E' as <-. lia. }
      cbn [exec] in H. rewrite E in H. injection H as <- <-. cbn [app wake]. rewrite app_nil_r.
      eexists. split; [exact (fpath_one _ _ _ _ Hfs)|]. unfold fgo. rewrite E1. split; [reflexivity|]. split; [|auto]. intros w'. cbn [fW lT].
      pose proof (nsl_insert w' _ _ _ (Gor k (Sleep w :: c)) Hi) as EN. unfold sleeps in EN at 1 2. cbn [gCode] in EN. destruct (decide (w' = w)) as [->|Hne].
      * rewrite bool_decide_true in EN by reflexivity. rewrite upd_same, HW. cbn [b2n] in EN. lia.
      * rewrite bool_decide_false in EN by auto. rewrite upd_other, HW by assumption. cbn [b2n] in EN. lia.
    + (* Sleep *) cbn [exec] in H. injection H as <- <-. exists f. split; [apply fpath_refl|assumption].
    + (* Woken *) rewrite Hz in Hfs. apply Hgen; try discriminate; exact Hfs.
  - apply lift; [unfold fstep; rewrite E1, Hc; reflexivity|]. unfold lstep in H. rewrite Hc in H. injection H as <- <-. reflexivity.
Qed.
Theorem lreach_fine s A : lreach s A -> exists f, freach f (map FL A) /\ fS f = s.
Proof.
  intros R. enough (exists f, fpath finit f (map FL A) /\ same f s) as (f & H1 & H2) by (exists f; split; [exact H1|apply H2]).
  revert s A R. apply (lreach_ind (fun s A => exists f, fpath finit f (map FL A) /\ same f s)).
  - exists finit. split; [apply fpath_refl|]. split; [reflexivity|]. split; [reflexivity|]. split; reflexivity.
  - intros s A e s' o R I (f & H1 & H2) H. destruct (lstep_fine _ _ _ _ _ I H H2) as (f' & H3 & H4). exists f'. split; [|assumption]. rewrite map_app. eapply fpath_trans; eauto.
Qed.

(** ** At rest *)
Theorem rest_same f A : freach f A -> apart (seen A) -> lCrash (fS f) = false -> f_at_rest f -> lreach (fS f) (seen A) /\ at_rest (fS f).
Proof.
  intros [es H] Ha Hc Hr. destruct (frun_sim _ _ _ H Ha) as (_ & I & ls & Hl & _).
  assert (R : lreach (abs f) (seen A)) by (exists ls; exact Hl).
  assert (Hlen : forall i p, fD f !! i = Some p -> (exists t, lT (fS f) !! i = Some t) -> False).
  { intros i p Hp [[k code] Hi]. specialize (Hr i XGo (or_introl eq_refl)). unfold fstep in Hr. rewrite Hc, Hi, Hp in Hr.
    destruct (fdone f i k p) as [f' ob] eqn:E. destruct p as [w n|w n|w n]; cbn [fdone] in E; pose proof (I w) as Iw;
      (destruct Iw as [(_ & _ & _ & Hn)|[(_ & _ & _ & Hn)|(Hz & i' & m & Ho & Hm & Hk)]]; [destruct (Hn _ _ Hp eq_refl)..|]); pose proof (Ho _ _ Hp eq_refl) as <-.
    - destruct Hk as [([E'|E'] & Hw & _)|(E' & _)]; rewrite Hp in E'; try discriminate E'. injection E' as <-.
      rewrite Hz, Hw, Nat.eqb_refl in E. cbn [Z.eqb andb] in E. injection E as <- <-. injection Hr as Hr. apply (f_equal fD) in Hr. cbn [fD] in Hr. rewrite <- Hr in Hp. rewrite lookup_insert in Hp. discriminate Hp.
    - injection E as <- <-. injection Hr as Hr. apply (f_equal fD) in Hr. cbn [fD] in Hr. rewrite <- Hr in Hp. rewrite lookup_insert in Hp. discriminate Hp.
    - injection E as <- <-. injection Hr as Hr. apply (f_equal (fun g => fP g w)) in Hr. cbn [fP] in Hr. rewrite upd_same in Hr. lia. }
  assert (Hown : forall i p, fD f !! i = Some p -> exists t, lT (fS f) !! i = Some t).
  { clear - H. revert f A H. induction es as [|e es IH] using rev_ind; intros f A H; [injection H as <- <-; intros i p Hp; cbn in Hp; rewrite lookup_empty in Hp; discriminate Hp|].
    rewrite frun_app in H. destruct (frun finit es) as [f1 o1] eqn:E1. specialize (IH _ _ eq_refl). cbn [frun] in H. destruct (fstep f1 e) as [f2 o2] eqn:E2. injection H as <- <-. clear E1.
    assert (Hmono : forall i, is_Some (lT (fS f1) !! i) -> is_Some (lT (fS f2) !! i)).
    { intros i Hi. apply lookup_lt_is_Some. apply lookup_lt_is_Some in Hi. eapply Nat.lt_le_trans; [exact Hi|]. clear - E2.
      assert (Hl : forall s e s' o, lstep s e = (s', o) -> (length (lT s) <= length (lT s'))%nat).
      { clear. intros s e s' o H. unfold lstep in H. destruct (lCrash s); [injection H as <- _; lia|]. destruct e as [c|i x|]; [injection H as <- _; cbn; rewrite app_length; lia| |injection H as <- _; cbn; lia].
        destruct (lT s !! i) as [[k [|o' c]]|]; try (injection H as <- _; lia). destruct (exec _ _ _ _ _); injection H as <- _; cbn; rewrite ?app_length, ?insert_length; try lia.
        destruct wk; cbn [wake]; rewrite ?map_length, ?insert_length; lia. }
      unfold fstep in E2. destruct (lCrash (fS f1)); [injection E2 as <- _; lia|].
      assert (Hf : flift f1 e = (f2, o2) -> (length (lT (fS f1)) <= length (lT (fS f2)))%nat).
      { unfold flift. destruct (lstep (fS f1) e) eqn:E. intros [= <- _]. cbn. eapply Hl; eauto. }
      destruct e as [c|i x|]; auto. destruct (lT (fS f1) !! i) as [[k code]|]; [|injection E2 as <- _; lia].
      destruct (fD f1 !! i) as [p|].
      - destruct p; cbn [fdone] in E2; unfold fmisuse in E2; repeat match type of E2 with context [if ?b then _ else _] => destruct b end; injection E2 as <- _; cbn; rewrite ?insert_length; lia.
      - destruct code as [|o c]; [injection E2 as <- _; lia|].
        destruct o; auto; unfold fmisuse, fgo in E2; repeat match type of E2 with context [if ?b then _ else _] => destruct b end; auto; try (destruct (fP f1 w)); injection E2 as <- _; cbn; rewrite ?insert_length; lia. }
    intros j q Hq. assert (Hj : fD f1 !! j = Some q \/ (exists x, e = LRun j x /\ is_Some (lT (fS f1) !! j)) \/ is_Some (fD f1 !! j)).
    { clear - E2 Hq. unfold fstep in E2. destruct (lCrash (fS f1)); [injection E2 as <- _; auto|].
      assert (Hf : flift f1 e = (f2, o2) -> fD f1 !! j = Some q). { unfold flift. destruct (lstep (fS f1) e). intros [= <- _]. exact Hq. }
      destruct e as [c|i x|]; auto. destruct (lT (fS f1) !! i) as [[k code]|] eqn:Hi; [|injection E2 as <- _; auto].
      destruct (decide (j = i)) as [->|Hne]; [right; left; eauto|]. left.
      destruct (fD f1 !! i) as [p|].
      - destruct p; cbn [fdone] in E2; unfold fmisuse in E2; repeat match type of E2 with context [if ?b then _ else _] => destruct b end; injection E2 as <- _; cbn [fD] in Hq; try exact Hq; try (rewrite lookup_insert_ne in Hq by auto; exact Hq).
        destruct n as [|[|n]]; [rewrite lookup_delete_ne in Hq by auto; exact Hq..|rewrite lookup_insert_ne in Hq by auto; exact Hq].
      - destruct code as [|o c]; [injection E2 as <- _; exact Hq|].
        destruct o; auto; unfold fmisuse, fgo in E2; repeat match type of E2 with context [if ?b then _ else _] => destruct b end; auto; try (destruct (fP f1 w)); injection E2 as <- _; cbn [fD] in Hq; try exact Hq; rewrite lookup_insert_ne in Hq by auto; exact Hq. }
    apply Hmono. destruct Hj as [Hj|[(x & _ & Hj)|[q' Hj]]]; [eapply IH; eauto|exact Hj|eapply IH; eauto]. }
  assert (Hnp : forall w, nopend f w) by (intros w j p Hp; exfalso; eapply Hlen; eauto).
  assert (Hno : fD f = ∅) by (apply map_empty; intros j; destruct (fD f !! j) as [p|] eqn:Hp; [exfalso; eauto|reflexivity]).
  assert (Hz : forall w, count w (lG (fS f)) = 0 -> nsl w (lT (fS f)) = 0%nat).
  { intros w Hz. destruct (nsl w (lT (fS f))) as [|n] eqn:En; [reflexivity|exfalso]. destruct (nsl_ex w (lT (fS f))) as (j & kj & cj & Hj); [lia|].
    destruct (I w) as [(A1 & _)|[(A1 & A2 & A3 & A4)|(A1 & i' & m & A2 & A3 & A4)]]; [lia| |].
    - specialize (Hr j XGo (or_introl eq_refl)). unfold fstep in Hr. rewrite Hc, Hj, Hno, lookup_empty in Hr. destruct (fP f w) as [|q]; [lia|]. injection Hr as Hr.
      apply (f_equal (fun g => lT (fS g) !! j)) in Hr. unfold fgo in Hr. cbn [fS lT] in Hr. rewrite list_lookup_insert, Hj in Hr by (eapply lookup_lt_Some; eassumption). discriminate Hr.
    - destruct A4 as [([E|E] & _)|[E _]]; rewrite Hno, lookup_empty in E; discriminate E. }
  assert (Ef : abs f = fS f).
  { unfold abs. rewrite Hc. destruct (fS f) as [h ts cr] eqn:Es. cbn [lG lT lCrash] in *. subst cr. f_equal. clear - Hz. induction ts as [|t ts IH]; [reflexivity|]. cbn [map].
    rewrite IH by (intros w Hw; specialize (Hz w Hw); cbn [nsl] in Hz; lia). f_equal. destruct t as [k [|[] c]]; try reflexivity. unfold abs1. cbn [gCode gKind]. destruct (count w h =? 0) eqn:E; [|reflexivity].
    exfalso. apply Z.eqb_eq in E. specialize (Hz w E). cbn [nsl] in Hz. unfold sleeps in Hz. cbn [gCode] in Hz. rewrite bool_decide_true in Hz by reflexivity. cbn in Hz. lia. }
  rewrite Ef in R. split; [exact R|]. intros i x Hx. specialize (Hr i x Hx).
  assert (Hlf : flift f (LRun i x) = (f, []) -> lstep (fS f) (LRun i x) = (fS f, [])).
  { unfold flift. destruct (lstep (fS f) (LRun i x)) as [s' o] eqn:E. intros E'. injection E' as E1 E2. apply (f_equal fS) in E1. cbn in E1. destruct o; [|discriminate E2]. congruence. }
  unfold fstep in Hr. rewrite Hc in Hr. destruct (lT (fS f) !! i) as [[k [|o c]]|] eqn:Hi; try (unfold lstep; rewrite Hc, Hi; reflexivity). rewrite Hno, lookup_empty in Hr.
  assert (Hneq : forall h c', fgo f h i k c' = fS f -> c' = o :: c).
  { intros h c' E. apply (f_equal (fun s => lT s !! i)) in E. unfold fgo in E. cbn [lT] in E. rewrite list_lookup_insert, Hi in E by (eapply lookup_lt_Some; eassumption). congruence. }
  assert (Hcc : forall o, c <> o :: c) by (intros o' E; apply (f_equal (@length op)) in E; cbn in E; lia).
  destruct o; auto; unfold fmisuse in Hr.
  - exfalso. destruct (_ && _); [destruct (is_call k); discriminate Hr|]. injection Hr as Hr. apply (f_equal fS) in Hr. cbn [fS] in Hr. apply Hneq in Hr. eapply Hcc; eauto.
  - destruct (count w (lG (fS f)) <=? 0); auto. exfalso. injection Hr as Hr. apply (f_equal fS) in Hr. cbn [fS] in Hr. apply Hneq in Hr. eapply Hcc; eauto.
  - destruct (count w (lG (fS f)) =? 0); auto. exfalso. injection Hr as Hr. apply (f_equal fS) in Hr. cbn [fS] in Hr. apply Hneq in Hr. discriminate Hr.
  - unfold lstep. rewrite Hc, Hi. reflexivity.
  - destruct (_ && _); auto. destruct (is_call k); discriminate Hr.
Qed.

(** ** A boolean test for [apart] *)
Definition clash (a b : lcall) : bool :=
  let w c := match c with CStop | CWait | CRestart => true | _ => false end in
  let s c := match c with CStart | CRestart => true | _ => false end in
  (w a && s b) || (s a && w b).
Definition endedb (B : list lobs) (i : nat) : bool := existsb (fun x => match x with LReturn j | LPanic j _ => (j =? i)%nat | _ => false end) B.
Fixpoint apart_from (B A : list lobs) : bool :=
  match A with
  | [] => true
  | x :: A' =>
      match x with
      | LBegin j cj => forallb (fun y => match y with LBegin i ci => negb (clash ci cj) || endedb B i | _ => true end) B
      | _ => true
      end && apart_from (B ++ [x]) A'
  end.
Lemma endedb_ok B i : endedb B i = true -> call_ended B i.
Proof.
  intros H. apply existsb_exists in H as (x & Hx & E). destruct x; try discriminate E; apply Nat.eqb_eq in E as ->; [left; assumption|right; eauto].
Qed.
Lemma apart_from_ok A : forall B, apart_from B A = true -> forall B1 i ci C j cj, A = B1 ++ LBegin j cj :: C -> In (LBegin i ci) (B ++ B1) ->
  (waiting_call ci /\ starting_call cj \/ starting_call ci /\ waiting_call cj) -> call_ended (B ++ B1) i.
Proof.
  induction A as [|x A IH]; intros B H B1 i ci C j cj E Hin Hcl; [destruct B1; discriminate E|]. cbn [apart_from] in H. apply andb_true_iff in H as [H1 H2].
  destruct B1 as [|y B1]; cbn [app] in E; injection E as E1 E2.
  - subst x. rewrite app_nil_r in *. rewrite forallb_forall in H1. specialize (H1 _ Hin). apply orb_true_iff in H1 as [H1|H1]; [|now apply endedb_ok].
    exfalso. destruct Hcl as [[Hw Hs]|[Hs Hw]]; destruct Hs as [->| ->], Hw as [->|[->| ->]]; discriminate H1.
  - subst y. specialize (IH _ H2 B1 i ci C j cj E2). rewrite <- !app_assoc in IH. cbn [app] in IH. auto.
Qed.
Lemma apart_ok A : apart_from [] A = true -> apart A.
Proof. intros H B i ci C j cj E Hin Hcl. exact (apart_from_ok A [] H B i ci C j cj E Hin Hcl). Qed.

(** ** A started mock without a server *)
Fixpoint dull (c : list op) : bool :=
  match c with
  | [] | SwapStarted :: _ => true
  | (ClearServer | ClearStopped | NewLane | AddW _ | DoneW _ | GoRun | StoreDown | Listen _ | SetListener _ | Accept _ | CheckLane _ | Register _ | Work _ | Forget _ | Die) :: _ => false
  | _ :: c' => dull c'
  end.
Definition start_tails : list (list op) := [start_code ++ [Ret]; tail start_code ++ [Ret]; [Unlock]; []].
Definition dull_thread (t : gor) : Prop := dull (gCode t) = true /\ (gKind t = KCall CStart -> In (gCode t) start_tails).
Definition dead (f : fsys) : Prop := hStarted (lG (fS f)) = true /\ fD f = ∅ /\ forall i t, lT (fS f) !! i = Some t -> dull_thread t.
Definition dead_obs (f : fsys) (y : fobs) : Prop :=
  match y with
  | FL (LReturn i) => exists k c, lT (fS f) !! i = Some (Gor k c) /\ k <> KCall CStart
  | FL (LUp _ | LListen _ | LLane _ _) | FMisuse _ | FMisuseDies => False
  | _ => True
  end.
Lemma dull_exec h i k o x c : hStarted h = true -> dull_thread (Gor k (o :: c)) -> (forall w, o <> Sleep w) ->
  match exec h i k o x with
  | Next h' pre sp wk os => hStarted h' = true /\ dull_thread (Gor k (pre ++ c)) /\ sp = [] /\ wk = None /\
      forall y, In y os -> match y with LReturn j => j = i /\ k <> KCall CStart | LUp _ | LListen _ | LLane _ _ => False | _ => True end
  | Panics pre p => dull_thread (Gor k pre)
  | _ => True
  end.
Proof.
  intros Hs [Hd Hk] Hn. cbn [gCode gKind] in *. destruct h as [st sp mu ci cg ca li cl la cc pa ge nu ta]. cbn in Hs. subst st.
  assert (Hk' : k = KCall CStart -> o = Lock /\ c = tail start_code ++ [Ret] \/ o = SwapStarted \/ o = Unlock /\ c = []).
  { intros E. specialize (Hk E). cbn in Hk. destruct Hk as [Hk|[Hk|[Hk|[Hk|[]]]]]; try discriminate Hk; injection Hk as <- <-; auto. }
  assert (Hrest : k <> KCall CStart \/ k = KCall CStart) by (destruct k as [[]| |]; auto; left; discriminate).
  destruct (exec _ i k o x) as [|h' pre sp' wk os|pre p|p] eqn:Hx; try exact Logic.I.
  - assert (G : hStarted h' = true /\ sp' = [] /\ wk = None /\ dull (pre ++ c) = true /\ (pre = [] \/ o = SwapStopped \/ o = LoadStarted \/ exists w, o = Wait w) /\
      forall y, In y os -> match y with LReturn j => j = i /\ o = Ret | LUp _ | LListen _ | LLane _ _ => False | _ => True end).
    { destruct o; try discriminate Hd; cbn in Hx; exec_cases Hx k; injection Hx as <- <- <- <- <-; cbn [dull app stop_rest] in *;
        (split; [reflexivity|split; [reflexivity|split; [reflexivity|split; [exact Hd|split; [eauto 6|]]]]]); intros y Hy; try destruct w; cbn in Hy; repeat destruct Hy as [<-|Hy]; try contradiction; auto. }
    destruct G as (G1 & G2 & G3 & G4 & G5 & G6). split; [assumption|]. split; [|split; [assumption|split; [assumption|]]].
    + split; cbn [gCode gKind]; [assumption|]. intros E. destruct (Hk' E) as [[E1 E2]|[E1|[E1 E2]]]; subst o.
      * destruct G5 as [->|[?|[?|[w ?]]]]; try discriminate. subst c. right. left. reflexivity.
      * cbn in Hx. destruct k; discriminate Hx.
      * destruct G5 as [->|[?|[?|[w ?]]]]; try discriminate. subst c. right. right. right. left. reflexivity.
    + intros y Hy. specialize (G6 y Hy). destruct y; auto. destruct G6 as [-> ->]. split; [reflexivity|]. intros E. destruct (Hk' E) as [[E1 E2]|[E1|[E1 E2]]]; discriminate E1.
  - destruct o; try discriminate Hd; cbn in Hx; exec_cases Hx k; injection Hx as <- <-; split; cbn [gCode gKind]; try reflexivity; intros E; cbn; auto.
Qed.
Lemma no_begin h i k o x h' pre sp wk os j cl : exec h i k o x = Next h' pre sp wk os -> ~ In (LBegin j cl) os.
Proof. intros Hx Hz. destruct o; cbn in Hx; exec_cases Hx k; injection Hx as <- <- <- <- <-; cbn in Hz; repeat destruct Hz as [Hz|Hz]; try discriminate Hz; contradiction. Qed.
Lemma dead_step f e f' ob : dead f -> fstep f e = (f', ob) ->
  dead f' /\ (forall y, In y ob -> dead_obs f' y) /\ (forall i k c, lT (fS f) !! i = Some (Gor k c) -> exists c', lT (fS f') !! i = Some (Gor k c')) /\
  (forall i cl, In (FL (LBegin i cl)) ob -> exists c, lT (fS f') !! i = Some (Gor (KCall cl) c)).
Proof.
  intros (Hs & Hd & Ht) H.
  assert (stay : f' = f -> ob = [] -> dead f' /\ (forall y, In y ob -> dead_obs f' y) /\ (forall i k c, lT (fS f) !! i = Some (Gor k c) -> exists c', lT (fS f') !! i = Some (Gor k c')) /\
    (forall i cl, In (FL (LBegin i cl)) ob -> exists c, lT (fS f') !! i = Some (Gor (KCall cl) c))).
  { intros -> ->. split; [split; auto|]. split; [intros y []|]. split; [eauto|intros ? ? []]. }
  destruct (lCrash (fS f)) eqn:Hc; [unfold fstep in H; rewrite Hc in H; injection H as <- <-; auto|].
  destruct e as [cl|i x|].
  - unfold fstep, flift, lstep in H. rewrite Hc in H. injection H as <- <-. split; [|split; [|split]].
    + split; [exact Hs|]. split; [exact Hd|]. intros i t Hi. cbn [fS lT] in Hi. apply lookup_call in Hi as [Hi|[-> ->]]; [eauto|]. destruct cl; split; cbn; auto; try discriminate.
    + intros y [<-|[]]. exact Logic.I.
    + intros i k c Hi. exists c. cbn [fS lT]. now apply lookup_app_l_Some.
    + intros i cl' [E|[]]. injection E as <- <-. eexists. cbn [fS lT]. rewrite lookup_app_r, Nat.sub_diag by lia. reflexivity.
  - destruct (lT (fS f) !! i) as [[k code]|] eqn:Hi; [|unfold fstep in H; rewrite Hc, Hi in H; injection H as <- <-; auto].
    unfold fstep in H. rewrite Hc, Hi, Hd, lookup_empty in H. destruct code as [|o c]; [injection H as <- <-; auto|].
    pose proof (Ht _ _ Hi) as Hi'. pose proof (lookup_lt_Some _ _ _ Hi) as Hlt.
    assert (set : forall h c' ob' W P, hStarted h = true -> dull_thread (Gor k c') -> (forall y, In y ob' -> dead_obs (FSys (fgo f h i k c') W P ∅) y) -> (forall j cl, ~ In (FL (LBegin j cl)) ob') ->
       (FSys (fgo f h i k c') W P ∅, ob') = (f', ob) -> dead f' /\ (forall y, In y ob -> dead_obs f' y) /\ (forall i k c, lT (fS f) !! i = Some (Gor k c) -> exists c', lT (fS f') !! i = Some (Gor k c')) /\
       (forall i cl, In (FL (LBegin i cl)) ob -> exists c, lT (fS f') !! i = Some (Gor (KCall cl) c))).
    { intros h c' ob' W P H1 H2 H3 H4 E. injection E as <- <-. split; [|split; [exact H3|split]].
      - split; [exact H1|]. split; [reflexivity|]. intros j t Hj. unfold fgo in Hj. cbn [fS lT] in Hj. apply (insert_cases _ _ _ _ _ _ Hi) in Hj as [[_ Hj]|[_ ->]]; eauto.
      - intros j kj cj Hj. unfold fgo. cbn [fS lT]. destruct (decide (j = i)) as [->|Hne]; [rewrite list_lookup_insert by assumption; rewrite Hi in Hj; injection Hj as -> _; eauto|]. rewrite list_lookup_insert_ne by auto. eauto.
      - intros j cl Hj. destruct (H4 _ _ Hj). }
    assert (lift : (forall w, o <> Sleep w) -> flift f (LRun i x) = (f', ob) -> dead f' /\ (forall y, In y ob -> dead_obs f' y) /\ (forall i k c, lT (fS f) !! i = Some (Gor k c) -> exists c', lT (fS f') !! i = Some (Gor k c')) /\
       (forall i cl, In (FL (LBegin i cl)) ob -> exists c, lT (fS f') !! i = Some (Gor (KCall cl) c))).
    { intros Hn Hl. unfold flift, lstep in Hl. rewrite Hc, Hi in Hl. pose proof (dull_exec (lG (fS f)) i k o x c Hs Hi' Hn) as G.
      destruct (exec (lG (fS f)) i k o x) as [|h pre sp wk os|pre p|p] eqn:Hx.
      - injection Hl as <- <-. apply stay; [destruct f; reflexivity|reflexivity].
      - destruct G as (G1 & G2 & -> & -> & G5). cbn [wake] in Hl. rewrite app_nil_r, Hd in Hl. eapply (set h (pre ++ c)); [exact G1|exact G2| | |exact Hl].
        + intros y Hy. apply in_map_iff in Hy as (z & <- & Hz). specialize (G5 z Hz). destruct z; cbn; auto. destruct G5 as [-> G5]. exists k, (pre ++ c). split; [|exact G5]. apply list_lookup_insert. assumption.
        + intros j cl Hj. apply in_map_iff in Hj as (z & Ez & Hz). injection Ez as ->. exact (no_begin _ _ _ _ _ _ _ _ _ _ _ _ Hx Hz).
      - rewrite Hd in Hl. eapply (set (lG (fS f)) pre); [exact Hs|exact G| | |exact Hl].
        + intros y [<-|[]]. exact Logic.I.
        + intros j cl [E|[]]. discriminate E.
      - injection Hl as <- <-. split; [split; auto|]. split; [intros y [<-|[]]; exact Logic.I|]. split; [eauto|]. intros j cl [E|[]]. discriminate E. }
    destruct Hi' as [Hdl Hkd]. cbn [gCode gKind] in Hdl, Hkd.
    destruct o; try discriminate Hdl; try (apply lift; [discriminate|exact H]).
    + destruct (count w (lG (fS f)) =? 0); [apply lift; [discriminate|exact H]|]. rewrite ?Hd in H. eapply (set (lG (fS f)) (Sleep w :: c)); [exact Hs| | | |exact H]; [|intros y []|intros j cl []].
      split; cbn [gCode gKind]; [exact Hdl|]. intros E. specialize (Hkd E). cbn in Hkd. repeat destruct Hkd as [Hkd|Hkd]; try discriminate Hkd; contradiction.
    + destruct (fP f w) as [|m]; [injection H as <- <-; auto|]. rewrite ?Hd in H. eapply (set (lG (fS f)) (Woken w :: c)); [exact Hs| | | |exact H]; [|intros y []|intros j cl []].
      split; cbn [gCode gKind]; [exact Hdl|]. intros E. specialize (Hkd E). cbn in Hkd. repeat destruct Hkd as [Hkd|Hkd]; try discriminate Hkd; contradiction.
    + destruct (_ && _); [|apply lift; [discriminate|exact H]]. destruct (is_call k).
      * rewrite ?Hd in H. eapply (set (lG (fS f)) []); [exact Hs| | | |exact H]; [split; cbn; auto 10|intros y [<-|[]]; exact Logic.I|intros j cl [E|[]]; discriminate E].
      * injection H as <- <-. split; [split; auto|]. split; [intros y [<-|[]]; exact Logic.I|]. split; [eauto|]. intros j cl [E|[]]. discriminate E.
  - unfold fstep, flift, lstep in H. rewrite Hc in H. injection H as <- <-. split; [split; [|split; auto]|].
    + cbn. destruct (lG (fS f)); exact Hs.
    + split; [intros y []|]. split; [eauto|intros ? ? []].
Qed.
(** No server ever listens again, no Start ever returns. *)
Theorem dead_forever es : forall f f' A, dead f -> frun f es = (f', A) ->
  (forall g, ~ In (FL (LListen g)) A) /\ (forall i, In (FL (LBegin i CStart)) A -> ~ In (FL (LReturn i)) A).
Proof.
  enough (G : forall f f' A, dead f -> frun f es = (f', A) -> dead f' /\ (forall g, ~ In (FL (LListen g)) A) /\
    (forall i, In (FL (LBegin i CStart)) A -> exists c, lT (fS f') !! i = Some (Gor (KCall CStart) c)) /\
    (forall i, In (FL (LReturn i)) A -> exists k c, lT (fS f') !! i = Some (Gor k c) /\ k <> KCall CStart)).
  { intros f f' A Hd H. destruct (G _ _ _ Hd H) as (_ & G1 & G2 & G3). split; [exact G1|]. intros i Hb Hr.
    destruct (G2 _ Hb) as [c E]. destruct (G3 _ Hr) as (k & c' & E' & Hk). rewrite E in E'. injection E' as <- _. contradiction. }
  induction es as [|e es IH] using rev_ind; intros f f' A Hd H.
  - injection H as <- <-. split; [exact Hd|]. split; [intros g []|]. split; intros i [].
  - rewrite frun_app in H. destruct (frun f es) as [f1 o1] eqn:E1. cbn [frun] in H. destruct (fstep f1 e) as [f2 o2] eqn:E2. injection H as <- <-. rewrite app_nil_r.
    destruct (IH _ _ _ Hd E1) as (I1 & I2 & I3 & I4). destruct (dead_step _ _ _ _ I1 E2) as (D1 & D2 & D3 & D4). split; [exact D1|]. split; [|split].
    + intros g Hin. apply in_app_or in Hin as [Hin|Hin]; [eapply I2; eauto|]. exact (D2 _ Hin).
    + intros i Hin. apply in_app_or in Hin as [Hin|Hin]; [|eauto]. destruct (I3 _ Hin) as [c Hc]. eapply D3; eauto.
    + intros i Hin. apply in_app_or in Hin as [Hin|Hin]; [|exact (D2 _ Hin)]. destruct (I4 _ Hin) as (k & c & Hc & Hk). destruct (D3 _ _ _ Hc) as [c' Hc']. eauto.
Qed.

(** ** Runs *)
Definition fgo_n (i n : nat) : list levent := repeat (LRun i XGo) n.
(** Start, a WaitForTermination that sleeps, a RequestStop; the accept loop stands
    before its last Done, a second Start before its first Add. *)
Definition ev_edge : list levent :=
  [LCall CStart] ++ fgo_n 0 10 ++ fgo_n 1 3 ++ [LCall CWait] ++ fgo_n 2 1 ++ [LCall CStop] ++ fgo_n 3 8 ++ fgo_n 1 3 ++ [LCall CStart] ++ fgo_n 4 5.
Definition ev_crash : list levent := ev_edge ++ [LRun 1 XGo; LRun 4 XGo; LRun 1 XGo].
Definition ev_dead : list levent := ev_edge ++ [LRun 1 XGo; LRun 1 XGo; LRun 4 XGo; LRun 4 XGo; LRun 1 XGo; LRun 1 XGo] ++ fgo_n 2 10.
(** The same without the overlap: Start after WaitForTermination has returned. *)
Definition ev_apart : list levent :=
  [LCall CStart] ++ fgo_n 0 10 ++ fgo_n 1 3 ++ [LCall CWait] ++ fgo_n 2 1 ++ [LCall CStop] ++ fgo_n 3 8 ++ fgo_n 1 3 ++
  [LRun 1 XGo; LRun 1 XGo; LRun 1 XGo; LRun 1 XGo] ++ fgo_n 2 4 ++ [LCall CStart] ++ fgo_n 4 10 ++ fgo_n 5 3.
Lemma ev_no_fail n i : Forall no_fail (fgo_n i n).
Proof. induction n; constructor; auto. exact Logic.I. Qed.
Definition no_failb (e : levent) : bool := match e with LRun _ XFail => false | _ => true end.
Lemma no_failb_ok es : forallb no_failb es = true -> Forall no_fail es.
Proof. intros H. apply List.Forall_forall. intros e He. rewrite forallb_forall in H. specialize (H e He). destruct e as [|? []|]; try exact Logic.I. discriminate H. Qed.
Definition deadb (f : fsys) : bool :=
  hStarted (lG (fS f)) && match map_to_list (fD f) with [] => true | _ => false end &&
  forallb (fun t => dull (gCode t) && match gKind t with KCall CStart => existsb (fun c => bool_decide (c = gCode t)) start_tails | _ => true end) (lT (fS f)).
Lemma deadb_ok f : deadb f = true -> dead f.
Proof.
  intros H. apply andb_true_iff in H as [H H3]. apply andb_true_iff in H as [H1 H2]. split; [exact H1|]. split.
  - destruct (map_to_list (fD f)) eqn:E; [|discriminate H2]. now apply map_to_list_empty_iff.
  - intros i t Hi. rewrite forallb_forall in H3. specialize (H3 t). destruct t as [k c]. cbn [gCode gKind] in H3.
    assert (Hin : In (Gor k c) (lT (fS f))) by (apply elem_of_list_In; eapply elem_of_list_lookup_2; exact Hi).
    specialize (H3 Hin). apply andb_true_iff in H3 as [H3 H4]. split; [exact H3|]. cbn [gKind gCode]. intros ->. apply existsb_exists in H4 as (c' & Hc & E). apply bool_decide_eq_true in E as <-. exact Hc.
Qed.
Theorem no_misuse_crash es f A : frun finit es = (f, A) -> apart (seen A) -> Forall no_fail es -> lCrash (fS f) = false /\ ~ In FMisuseDies A /\ forall p, ~ In (FL (LDie p)) A.
Proof.
  intros H Ha Hf. destruct (frun_sim _ _ _ H Ha) as (H1 & _ & ls & H2 & H3). destruct (no_crash _ _ _ (H3 Hf) H2) as [H4 H5].
  split; [exact H4|]. split; [intros Hx; destruct (H1 _ Hx) as [x E]; discriminate E|].
  intros p Hp. apply (H5 p). unfold seen. apply in_flat_map. exists (FL (LDie p)). split; [exact Hp|left; reflexivity].
Qed.
Theorem refines f A : freach f A -> apart (seen A) -> no_misuse A /\ exists s, lreach s (seen A).
Proof. intros [es H] Ha. destruct (frun_sim _ _ _ H Ha) as (H1 & _ & ls & H2 & _). split; [exact H1|]. exists (abs f), ls. exact H2. Qed.
Definition crashes : Prop := exists es f A, Forall no_fail es /\ frun finit es = (f, A) /\ lCrash (fS f) = true /\ In (FMisuse 4) A /\ In FMisuseDies A /\ forall p, ~ In (FL (LDie p)) A.
Lemma crash_run : crashes.
Proof.
  exists ev_crash, (fst (frun finit ev_crash)), (snd (frun finit ev_crash)). split; [apply no_failb_ok; vm_compute; reflexivity|]. split; [apply surjective_pairing|].
  split; [vm_compute; reflexivity|]. split; [vm_compute; tauto|]. split; [vm_compute; tauto|]. intros p. vm_compute. intros H. repeat destruct H as [H|H]; try discriminate H; contradiction.
Qed.
Lemma dead_run : exists es f A, Forall no_fail es /\ frun finit es = (f, A) /\ lCrash (fS f) = false /\ In (FMisuse 4) A /\ hStarted (lG (fS f)) = true /\ In (FL (LReturn 2)) A /\
  forall es' f' A', frun f es' = (f', A') -> (forall g, ~ In (FL (LListen g)) A') /\ (forall i, In (FL (LBegin i CStart)) A' -> ~ In (FL (LReturn i)) A').
Proof.
  exists ev_dead, (fst (frun finit ev_dead)), (snd (frun finit ev_dead)). split; [apply no_failb_ok; vm_compute; reflexivity|]. split; [apply surjective_pairing|].
  split; [vm_compute; reflexivity|]. split; [vm_compute; tauto|]. split; [vm_compute; reflexivity|]. split; [vm_compute; tauto|].
  intros es' f' A' H. eapply dead_forever; [|exact H]. apply deadb_ok. vm_compute. reflexivity.
Qed.
