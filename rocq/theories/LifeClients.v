(** * LifeClients: when the table of clients is right *)
From Verif Require Export LifeTable.
From stdpp Require Import gmap list.
From Coq Require Import ZifyBool.
Open Scope Z_scope.
Open Scope list_scope.

(** ** Numbers *)
Definition numbered (A : list lobs) : Prop := forall B g n C, A = B ++ LConn g n :: C -> n = S (tfold B).2.
Lemma conn_step s e s' g n : linv s -> lstep s e = (s', [LConn g n]) -> exists i c, lT s !! i = Some (Gor (KRun g) (Register g :: c)) /\ 0 < wt w_up (Register g :: c) /\ n = S (num g (lG s)).
Proof.
  intros I H. apply lstep_cases in H as [[_ E]|[(p' & _ & E & _)|[(cl & _ & _ & _ & E)|[(_ & _ & _ & E)|(i0 & x & k & o' & c0 & _ & _ & Hi & [(h & pre & sp & wk & Hx & _)|(pre & p' & Hx & _ & E)])]]]]; try discriminate E.
  pose proof (v_codes s I _ _ Hi) as Hc. cbn [gCode gKind] in Hc.
  destruct o'; cbn in Hx; exec_cases Hx k; injection Hx; intros; subst; try discriminate. destruct (op_register _ _ _ Hc) as [-> Hw]. eauto.
Qed.
Lemma gone_step s e s' g n : linv s -> lstep s e = (s', [LGone g n]) -> exists i c, lT s !! i = Some (Gor (KClient g n) (Forget g :: c)) /\ 0 < wt w_act (Forget g :: c).
Proof.
  intros I H. apply lstep_cases in H as [[_ E]|[(p' & _ & E & _)|[(cl & _ & _ & _ & E)|[(_ & _ & _ & E)|(i0 & x & k & o' & c0 & _ & _ & Hi & [(h & pre & sp & wk & Hx & _)|(pre & p' & Hx & _ & E)])]]]]; try discriminate E.
  pose proof (v_codes s I _ _ Hi) as Hc. cbn [gCode gKind] in Hc.
  destruct o'; cbn in Hx; exec_cases Hx k; injection Hx; intros; subst; try discriminate. destruct (op_forget _ _ _ Hc) as (m & Ek & Hw). injection Ek as -> <-. eauto.
Qed.
Lemma reach_numbered s A : lreach s A -> numbered A.
Proof.
  intros R B g n C E. destruct (lobs_split _ _ _ _ _ R E) as (s1 & e & s2 & R1 & H).
  apply (conn_step _ _ _ _ _ (lreach_inv _ _ R1)) in H as (i & c & Hi & Hw & ->). f_equal. exact (a_num _ _ (lreach_tab _ _ R1) _ _ _ Hi Hw).
Qed.
Lemma numbered_app A B : numbered (A ++ B) -> numbered A.
Proof. intros H B' g n C ->. apply (H B' g n (C ++ B)). now rewrite <- app_assoc. Qed.
Definition no_fresh (C : list lobs) : Prop := forall i, ~ In (LFresh i) C.
Definition no_conn (C : list lobs) : Prop := forall g n, ~ In (LConn g n) C.
Lemma last_same C : forall A, no_fresh C -> no_conn C -> (tfold (A ++ C)).2 = (tfold A).2.
Proof.
  induction C as [|x C IH] using rev_ind; intros A Hf Hc; [now rewrite app_nil_r|].
  rewrite app_assoc, tfold_app. cbn [fold_left]. rewrite <- (IH A); [|intros i Hi; apply (Hf i); now apply in_mono|intros g n Hi; apply (Hc g n); now apply in_mono].
  destruct x; try reflexivity; exfalso; [apply (Hf i)|apply (Hc g n)]; apply in_elt.
Qed.
Lemma last_mono C : forall A, numbered (A ++ C) -> no_fresh C -> ((tfold A).2 <= (tfold (A ++ C)).2)%nat.
Proof.
  induction C as [|x C IH] using rev_ind; intros A Hn Hf; [now rewrite app_nil_r|]. rewrite app_assoc in *.
  pose proof (IH A (numbered_app _ _ Hn)) as H. rewrite (tfold_app (A ++ C)). cbn [fold_left]. assert (H' : ((tfold A).2 <= (tfold (A ++ C)).2)%nat) by (apply H; intros i Hi; apply (Hf i); now apply in_mono).
  destruct x; cbn; try assumption.
  - exfalso. apply (Hf i). apply in_elt.
  - rewrite (Hn (A ++ C) g n [] eq_refl). lia.
Qed.
Lemma tfold_conn A g n : (tfold (A ++ [LConn g n])).2 = n.
Proof. now rewrite tfold_app. Qed.
Lemma last_ge A1 g n C : numbered (A1 ++ LConn g n :: C) -> no_fresh C -> (n <= (tfold (A1 ++ LConn g n :: C)).2)%nat.
Proof.
  intros Hn Hf. replace (A1 ++ LConn g n :: C) with ((A1 ++ [LConn g n]) ++ C) in * by now rewrite <- app_assoc.
  pose proof (last_mono C _ Hn Hf) as H. now rewrite tfold_conn in H.
Qed.
Lemma newer A1 g n C g' k : numbered (A1 ++ LConn g n :: C) -> no_fresh C -> In (LConn g' k) C -> (n < k)%nat.
Proof.
  intros Hn Hf Hin. apply in_split in Hin as (C1 & C2 & ->).
  rewrite (Hn (A1 ++ LConn g n :: C1) g' k C2) by now rewrite <- app_assoc.
  assert (Hn' : numbered (A1 ++ LConn g n :: C1)) by (apply (numbered_app _ (LConn g' k :: C2)); now rewrite <- app_assoc).
  pose proof (last_ge _ _ _ _ Hn') as H. assert (n <= (tfold (A1 ++ LConn g n :: C1)).2)%nat; [|lia].
  apply H. intros i Hi. apply (Hf i). now apply in_mono.
Qed.
Lemma conn_dec C : no_conn C \/ exists g k, In (LConn g k) C.
Proof.
  induction C as [|x C [IH|(g & k & IH)]]; [left; intros g n []| |right; exists g, k; right; assumption].
  destruct x; try (left; intros g' n' [E|Hi]; [discriminate E|now apply (IH g' n')]). right. exists g, n. left. reflexivity.
Qed.

(** ** The table *)
(** Whenever a connection ended in C, one had been registered in C before. *)
Definition stays (C : list lobs) : Prop := forall C1 g m C2, C = C1 ++ LGone g m :: C2 -> exists g' k, In (LConn g' k) C1.
Definition in_table (A : list lobs) (n : nat) : Prop := exists A1 g C, A = A1 ++ LConn g n :: C /\ no_fresh C /\ stays C.
Lemma stays_snoc C x : stays (C ++ [x]) <-> stays C /\ (forall g m, x = LGone g m -> exists g' k, In (LConn g' k) C).
Proof.
  split.
  - intros H. split.
    + intros C1 g m C2 ->. apply (H C1 g m (C2 ++ [x])). now rewrite <- app_assoc.
    + intros g m ->. apply (H C g m []). reflexivity.
  - intros [H1 H2] C1 g m C2 E. destruct C2 as [|y C2 _] using rev_ind.
    + apply app_inj_tail in E as [-> ->]. eauto.
    + replace (C1 ++ LGone g m :: C2 ++ [y]) with ((C1 ++ LGone g m :: C2) ++ [y]) in E by now rewrite <- app_assoc. apply app_inj_tail in E as [-> _]. eapply H1; reflexivity.
Qed.
Lemma split_snoc {X} (A B : list X) y x C : A ++ [x] = B ++ y :: C -> (C = [] /\ A = B /\ x = y) \/ exists C', C = C' ++ [x] /\ A = B ++ y :: C'.
Proof.
  intros E. destruct C as [|z C _] using rev_ind; [left; now apply app_inj_tail in E as [-> ->]|]. right. exists C.
  replace (B ++ y :: C ++ [z]) with ((B ++ y :: C) ++ [z]) in E by now rewrite <- app_assoc. apply app_inj_tail in E as [-> ->]. auto.
Qed.
Lemma table_spec A : numbered A -> forall n, n ∈ (tfold A).1 <-> in_table A n.
Proof.
  induction A as [|x A IH] using rev_ind; intros Hn n.
  - split; [intros H; cbn in H; set_solver|]. intros (A1 & g & C & E & _). destruct A1; discriminate E.
  - specialize (IH (numbered_app _ _ Hn)). rewrite tfold_app. cbn [fold_left].
    assert (Hsame : (forall g m, x <> LConn g m) -> (forall i, x <> LFresh i) -> (forall g m, x <> LGone g m) -> n ∈ (tfold A).1 <-> in_table (A ++ [x]) n).
    { intros H1 H2 H3. rewrite IH. split.
      - intros (A1 & g & C & -> & Hf & Hs). exists A1, g, (C ++ [x]). split; [now rewrite <- app_assoc|]. split.
        + intros i Hi. apply in_app_or in Hi as [Hi|[Hi|[]]]; [now apply (Hf i)|now apply (H2 i)].
        + apply stays_snoc. split; [assumption|]. intros g' m E. now apply H3 in E.
      - intros (A1 & g & C & E & Hf & Hs). apply split_snoc in E as [(_ & _ & E)|(C' & -> & ->)]; [now apply H1 in E|].
        exists A1, g, C'. split; [reflexivity|]. split; [intros i Hi; apply (Hf i); now apply in_mono|]. now apply stays_snoc in Hs. }
    destruct x; cbn [tstep fst]; try (apply Hsame; intros; discriminate).
    + split; [intros H; set_solver|]. intros (A1 & g & C & E & Hf & Hs). apply split_snoc in E as [(_ & _ & E)|(C' & -> & ->)]; [discriminate E|]. exfalso. apply (Hf i). apply in_elt.
    + rewrite elem_of_union, elem_of_singleton, IH. split.
      * intros [->|(A1 & g' & C & -> & Hf & Hs)].
        -- exists A, g, []. split; [reflexivity|]. split; [intros i []|]. intros C1 g' m C2 E. destruct C1; discriminate E.
        -- exists A1, g', (C ++ [LConn g n0]). split; [now rewrite <- app_assoc|]. split.
           ++ intros i Hi. apply in_app_or in Hi as [Hi|[Hi|[]]]; [now apply (Hf i)|discriminate Hi].
           ++ apply stays_snoc. split; [assumption|discriminate].
      * intros (A1 & g' & C & E & Hf & Hs). apply split_snoc in E as [(-> & -> & E)|(C' & -> & ->)]; [left; congruence|]. right.
        exists A1, g', C'. split; [reflexivity|]. split; [intros i Hi; apply (Hf i); now apply in_mono|]. now apply stays_snoc in Hs.
    + rewrite elem_of_difference, not_elem_of_singleton, IH. split.
      * intros [(A1 & g' & C & -> & Hf & Hs) Hne]. exists A1, g', (C ++ [LGone g n0]). split; [now rewrite <- app_assoc|]. split.
        -- intros i Hi. apply in_app_or in Hi as [Hi|[Hi|[]]]; [now apply (Hf i)|discriminate Hi].
        -- apply stays_snoc. split; [assumption|]. intros _ _ _. destruct (conn_dec C) as [Hc|?]; [|assumption]. exfalso. apply Hne.
           replace (A1 ++ LConn g' n :: C) with ((A1 ++ [LConn g' n]) ++ C) by now rewrite <- app_assoc. now rewrite last_same, tfold_conn.
      * intros (A1 & g' & C & E & Hf & Hs). apply split_snoc in E as [(_ & _ & E)|(C' & -> & ->)]; [discriminate E|]. apply stays_snoc in Hs as [Hs Hc].
        assert (Hf' : no_fresh C') by (intros i Hi; apply (Hf i); now apply in_mono). split; [exists A1, g', C'; auto|].
        destruct (Hc _ _ eq_refl) as (g'' & k & Hk). apply numbered_app in Hn. pose proof (newer _ _ _ _ _ _ Hn Hf' Hk) as Hlt.
        apply in_split in Hk as (C1 & C2 & ->).
        replace (A1 ++ LConn g' n :: C1 ++ LConn g'' k :: C2) with ((A1 ++ LConn g' n :: C1) ++ LConn g'' k :: C2) in * by now rewrite <- app_assoc.
        pose proof (last_ge _ _ _ _ Hn) as Hge. assert (k <= (tfold ((A1 ++ LConn g' n :: C1) ++ LConn g'' k :: C2)).2)%nat; [|lia]. apply Hge. intros i Hi. apply (Hf' i). apply in_or_app. right. right. assumption.
Qed.
Theorem table_is s A : lreach s A -> forall n, n ∈ hTable (lG s) <-> in_table A n.
Proof. intros R n. rewrite (a_tab _ _ (lreach_tab _ _ R)). apply table_spec. eapply reach_numbered; eassumption. Qed.

(** ** Connections and their goroutines *)
Record cinv (s : lsys) (A : list lobs) : Prop := {
  c_num : forall g n, In (LConn g n) A -> (n <= num g (lG s))%nat;
  c_thr : forall i g n c, lT s !! i = Some (Gor (KClient g n) c) -> In (LConn g n) A;
  c_uni : forall i j g n c c', lT s !! i = Some (Gor (KClient g n) c) -> lT s !! j = Some (Gor (KClient g n) c') -> i = j;
  c_live : forall i g n c, lT s !! i = Some (Gor (KClient g n) c) -> forget_ahead c = true ->
    (exists A1 C, A = A1 ++ LConn g n :: C /\ no_fresh C) /\ ~ In (LGone g n) A;
  c_gone : forall g n, In (LGone g n) A -> In (LConn g n) A;
  c_gen : forall i g c, lT s !! i = Some (Gor (KRun g) c) -> 0 < wt w_up c -> forall A1 g' n C, A = A1 ++ LConn g' n :: C -> no_fresh C -> g' = g
}.
(** A step that shows neither a connection, nor an end, nor a fresh table. *)
Lemma dull_step s A s' o : cinv s A -> (forall g, num g (lG s') = num g (lG s)) ->
  (forall x, In x o -> match x with LConn _ _ | LGone _ _ | LFresh _ => False | _ => True end) ->
  (forall i k c, lT s' !! i = Some (Gor k c) -> match k with
     | KClient g n => exists v, lT s !! i = Some (Gor k v) /\ (forget_ahead c = true -> forget_ahead v = true)
     | KRun g => (exists v, lT s !! i = Some (Gor k v) /\ (0 < wt w_up c -> 0 < wt w_up v)) \/ (forall A1 g' n C, A = A1 ++ LConn g' n :: C -> no_fresh C -> False)
     | KCall _ => True end) -> (exists x, o = [x]) \/ o = [] -> cinv s' (A ++ o).
Proof.
  intros [N T U L G E] Hnum Ho Ht Hone.
  assert (Hin : forall x, In x (A ++ o) -> match x with LConn _ _ | LGone _ _ | LFresh _ => True | _ => False end -> In x A).
  { intros x Hx Hk. apply in_app_or in Hx as [Hx|Hx]; [assumption|]. exfalso. apply Ho in Hx. destruct x; contradiction. }
  assert (Hnf : no_fresh o) by (intros i Hi; apply (Ho _ Hi)).
  split.
  - intros g n H. rewrite Hnum. apply N. now apply Hin in H.
  - intros i g n c H. destruct (Ht _ _ _ H) as (v & Hv & _). apply in_mono. eapply T; eassumption.
  - intros i j g n c c' H1 H2. destruct (Ht _ _ _ H1) as (v & Hv & _). destruct (Ht _ _ _ H2) as (v' & Hv' & _). eapply U; eassumption.
  - intros i g n c H Hf. destruct (Ht _ _ _ H) as (v & Hv & Hfv). destruct (L _ _ _ _ Hv (Hfv Hf)) as [(A1 & C & -> & Hc) Hg]. split.
    + exists A1, (C ++ o). split; [now rewrite <- app_assoc|]. intros j Hj. apply in_app_or in Hj as [Hj|Hj]; [now apply (Hc j)|now apply (Hnf j)].
    + intros Hg'. now apply Hin in Hg'.
  - intros g n H. apply in_mono, G. now apply Hin in H.
  - intros i g c H Hup A1 g' n C Ea Hc.
    assert (Hsp : exists C', A = A1 ++ LConn g' n :: C' /\ no_fresh C').
    { destruct Hone as [[x ->]| ->]; [|rewrite app_nil_r in Ea; eauto]. apply split_snoc in Ea as [(_ & _ & Ex)|(C' & -> & ->)].
      - exfalso. subst x. exact (Ho _ (or_introl eq_refl)).
      - exists C'. split; [reflexivity|]. intros j Hj. apply (Hc j). now apply in_mono. }
    destruct Hsp as (C' & Ea' & Hc'). destruct (Ht _ _ _ H) as [(v & Hv & Hvu)|Hno]; [eapply E; eauto|]. exfalso. eapply Hno; eassumption.
Qed.
Lemma forget_next g n o c cc : In (o :: c) (codes (KClient g n)) -> In cc (next_codes o c) -> forget_ahead cc = true -> forget_ahead (o :: c) = true /\ (forall g', o <> Forget g').
Proof.
  intros H H1 H2. cbn in H. repeat destruct H as [H|H]; try discriminate H; try contradiction; injection H as <- <-; cbn in H1; repeat destruct H1 as [<-|H1]; try contradiction; try discriminate H2; (split; [reflexivity|discriminate]).
Qed.
Lemma cinv_step s A e s' o : lreach s A -> cinv s A -> lstep s e = (s', o) -> cinv s' (A ++ o).
Proof.
  intros R T H. pose proof (lreach_inv _ _ R) as I. pose proof (lstep_one _ _ _ _ H) as Hone. assert (Hone' : (exists x, o = [x]) \/ o = []) by tauto. clear Hone.
  pose proof (lreach_step _ _ _ _ _ R H) as R'. pose proof H as H0.
  apply lstep_cases in H as [[-> ->]|[(p & -> & -> & _)|[(cl & -> & _ & -> & ->)|[(-> & _ & -> & ->)|(i0 & x & k0 & o' & c0 & -> & _ & Hi0 & [(h & pre & sp & wk & Hx & ->)|(pre & p & Hx & -> & ->)])]]]].
  - now rewrite app_nil_r.
  - apply (dull_step s); auto; cbn [lT].
    + intros x [<-|[]]; exact Logic.I.
    + intros i k c Hi. destruct k; eauto.
  - apply (dull_step s); auto; cbn [lT].
    + intros x [<-|[]]; exact Logic.I.
    + intros i k c Hi. apply lookup_call in Hi as [Hi|[-> E]]; [destruct k; eauto|]. injection E as -> ->. exact Logic.I.
  - apply (dull_step s); auto; cbn [lT lG].
    + intros g. now destruct (lG s).
    + intros x [].
    + intros i k c Hi. destruct k; eauto.
  - pose proof (v_codes s I _ _ Hi0) as Hc0. cbn [gCode gKind] in Hc0. pose proof (exec_tab _ _ _ _ _ _ _ _ _ _ Hx) as Ht. pose proof (exec_codes _ _ _ _ _ _ _ _ _ _ c0 Hx) as Hcc.
    set (s' := LSys h (wake wk (<[i0:=Gor k0 (pre ++ c0)]> (lT s)) ++ sp) false) in *.
    (* goroutines that are not new *)
    assert (Hsrc : forall j kj c, lT s' !! j = Some (Gor kj c) ->
      (exists v, lT s !! j = Some (Gor kj v) /\ (0 < wt w_up c -> (exists g, kj = KRun g) -> 0 < wt w_up v) /\ ((exists g n, kj = KClient g n) -> forget_ahead c = true -> forget_ahead v = true /\ (j = i0 -> forall g', o' <> Forget g'))) \/
      (j = length (lT s) /\ ((exists g, o' = GoRun /\ hLane (lG s) = Some g /\ kj = KRun g) \/ (exists g, o' = Register g /\ kj = KClient g (S (num g (lG s))))))).
    { intros j kj c Hj. cbn [lT s'] in Hj. apply (after_lookup _ _ _ _ _ _ _ _ Hi0) in Hj as [([kv cv] & Hv & Hne & Ek & Hw)|[(-> & Ek & Hw)|(m & -> & Hsp)]]; cbn [gKind gCode] in *.
      - left. subst kv. exists cv. split; [assumption|]. destruct (woke_up _ _ _ Hw) as (-> & _). split; [auto|]. intros _ Hf. split; [|congruence]. destruct Hw as [[-> _]|(w & c' & -> & -> & ->)]; assumption.
      - left. subst kj. exists (o' :: c0). split; [assumption|]. destruct (woke_up _ _ _ Hw) as (-> & _). split.
        + intros Hup [g ->]. eapply run_up_next; [exact Hc0|exact Hcc|assumption].
        + intros (g & n & ->) Hf. assert (Hf' : forget_ahead (pre ++ c0) = true) by (destruct Hw as [[-> _]|(w & c' & -> & -> & ->)]; assumption).
          destruct (forget_next _ _ _ _ _ Hc0 Hcc Hf') as [H1 H2]. auto.
      - right. destruct o'; cbn in Hx; exec_cases Hx k0; injection Hx as <- <- <- <- <-; try discriminate Hsp; destruct m as [|m]; try discriminate Hsp; injection Hsp as <- <-; rewrite Nat.add_0_r; eauto 10. }
    assert (Hdull : (forall g, o' <> Register g) -> (forall g, o' <> Forget g) -> o' <> ClearServer -> cinv s' (A ++ o)).
    { intros N1 N2 N3. apply (dull_step s); auto.
      - intros g. unfold num. cbn [lG s']. destruct o'; destruct Ht as (_ & Hnm & _); try (rewrite Hnm; reflexivity). exfalso. eapply N1; reflexivity.
      - intros y Hy. destruct o'; cbn in Hx; exec_cases Hx k0; injection Hx; intros; subst; try contradiction; try (destruct Hy as [<-|[]]; exact Logic.I); exfalso; first [exact (N3 eq_refl)|exact (N1 _ eq_refl)|exact (N2 _ eq_refl)].
      - intros i k c Hi. destruct (Hsrc _ _ _ Hi) as [(v & Hv & H1 & H2)|(-> & [(g & -> & Hl & ->)|(g & -> & ->)])].
        + destruct k as [cl|g|g n]; [exact Logic.I| |].
          * left. exists v. split; [assumption|]. intros Hup. apply H1; eauto.
          * exists v. split; [assumption|]. intros Hf. apply H2; eauto.
        + right. intros A1 g' n C -> Hf. destruct (op_go _ _ Hc0) as [G1 _]. pose proof (a_clear _ _ (lreach_tab _ _ R) _ _ _ Hi0 G1) as Ez.
          pose proof (reach_numbered _ _ R) as Hn. pose proof (last_ge _ _ _ _ Hn Hf) as Hge. pose proof (Hn A1 g' n C eq_refl). lia.
        + exfalso. eapply N1; reflexivity. }
    destruct (decide (o' = ClearServer)) as [->|N3].
    { destruct Ht as (_ & Hnm & _ & _ & ->). destruct (op_clear _ _ Hc0) as ([cl Ek] & Hw & _).
      assert (Hnoclient : forall j g n c, lT s !! j = Some (Gor (KClient g n) c) -> forget_ahead c = true -> False).
      { intros j g n c Hj Hf. destruct (client_forget _ _ _ (v_codes s I _ _ Hj) Hf) as [Ha _]. destruct (act_run _ _ R _ _ _ _ Hj Ha) as (j' & c' & Hj' & Ho).
        unfold open_run in Ho. apply andb_true_iff in Ho as [Ho _]. assert (j' = i0) as -> by (refine (up_unique s j' i0 _ _ I Hj' Hi0 _ Hw); cbn; lia). congruence. }
      destruct T as [N T U L G E]. split.
      - intros g n Hin. apply in_app_or in Hin as [Hin|[Hin|[]]]; [|discriminate Hin]. unfold num. cbn [lG s']. rewrite Hnm. apply (N g n Hin).
      - intros i g n c Hi. destruct (Hsrc _ _ _ Hi) as [(v & Hv & _)|(_ & [(g' & E' & _)|(g' & E' & _)])]; try discriminate E'. apply in_mono. eauto.
      - intros i j g n c c' H1 H2. destruct (Hsrc _ _ _ H1) as [(v & Hv & _)|(_ & [(g' & E' & _)|(g' & E' & _)])]; try discriminate E'. destruct (Hsrc _ _ _ H2) as [(v' & Hv' & _)|(_ & [(g' & E' & _)|(g' & E' & _)])]; try discriminate E'. eauto.
      - intros i g n c H1 Hf. destruct (Hsrc _ _ _ H1) as [(v & Hv & _ & Hv2)|(_ & [(g' & E' & _)|(g' & E' & _)])]; try discriminate E'. exfalso. apply (Hnoclient _ _ _ _ Hv). apply Hv2; eauto.
      - intros g n Hin. apply in_app_or in Hin as [Hin|[Hin|[]]]; [|discriminate Hin]. apply in_mono. auto.
      - intros i g c Hi Hup A1 g' n C Ea Hf. exfalso. apply split_snoc in Ea as [(_ & _ & E')|(C' & -> & _)]; [discriminate E'|]. apply (Hf i0). apply in_elt. }
    assert (Hcase : (exists g, o' = Register g) \/ (exists g, o' = Forget g) \/ ((forall g, o' <> Register g) /\ forall g, o' <> Forget g)).
    { destruct o'; eauto; right; right; split; discriminate. }
    destruct Hcase as [[g ->]|[[g ->]|[N1 N2]]]; [| |auto].
    + destruct (op_register _ _ _ Hc0) as [-> Hw]. destruct Ht as (_ & Hnm & _ & _ & ->).
      assert (Hn1 : forall g', num g' h = if decide (g' = g) then S (num g (lG s)) else num g' (lG s)).
      { intros g'. unfold num at 1. rewrite Hnm. destruct (decide (g' = g)) as [->|Hne]; [now rewrite lookup_insert|rewrite lookup_insert_ne by auto; reflexivity]. }
      destruct T as [N T U L G E]. split.
      * intros g' n Hin. cbn [lG s']. rewrite Hn1. apply in_app_or in Hin as [Hin|[Hin|[]]].
        -- apply N in Hin. destruct (decide (g' = g)) as [->|]; lia.
        -- injection Hin as -> <-. rewrite decide_True by reflexivity. lia.
      * intros i g' n c Hi. destruct (Hsrc _ _ _ Hi) as [(v & Hv & _)|(_ & [(g'' & E' & _)|(g'' & E' & E2)])]; [apply in_mono; eauto|discriminate E'|]. injection E' as <-. injection E2 as -> ->. apply in_elt.
      * assert (Hnew : forall i c, lT s !! i = Some (Gor (KClient g (S (num g (lG s)))) c) -> False) by (intros i c Hi; apply T, N in Hi; lia).
        intros i j g' n c c' H1 H2. destruct (Hsrc _ _ _ H1) as [(v & Hv & _)|(-> & [(g'' & E' & _)|(g'' & E' & E2)])]; try discriminate E'.
        -- destruct (Hsrc _ _ _ H2) as [(v' & Hv' & _)|(-> & [(g'' & E' & _)|(g'' & E' & E2)])]; try discriminate E'; [eauto|]. injection E' as <-. injection E2 as -> ->. exfalso. eauto.
        -- injection E' as <-. injection E2 as -> ->. destruct (Hsrc _ _ _ H2) as [(v' & Hv' & _)|(-> & _)]; [exfalso; eauto|reflexivity].
      * intros i g' n c Hi Hf. destruct (Hsrc _ _ _ Hi) as [(v & Hv & _ & Hv2)|(_ & [(g'' & E' & _)|(g'' & E' & E2)])]; [|discriminate E'|].
        -- destruct (Hv2 ltac:(eauto) Hf) as [Hf' _]. destruct (L _ _ _ _ Hv Hf') as [(A1 & C & -> & Hc) Hg]. split.
           ++ exists A1, (C ++ [LConn g (S (num g (lG s)))]). split; [now rewrite <- app_assoc|]. intros j Hj. apply in_app_or in Hj as [Hj|[Hj|[]]]; [now apply (Hc j)|discriminate Hj].
           ++ intros Hin. apply in_app_or in Hin as [Hin|[Hin|[]]]; [contradiction|discriminate Hin].
        -- injection E' as <-. injection E2 as -> ->. split; [exists A, []; split; [reflexivity|intros j []]|]. intros Hin. apply in_app_or in Hin as [Hin|[Hin|[]]]; [|discriminate Hin]. apply G, N in Hin. lia.
      * intros g' n Hin. apply in_app_or in Hin as [Hin|[Hin|[]]]; [|discriminate Hin]. apply in_mono. auto.
      * intros i g' c Hi Hup A1 g'' n C Ea Hf. destruct (Hsrc _ _ _ Hi) as [(v & Hv & Hv1 & _)|(_ & [(g1 & E' & _)|(g1 & E' & E2)])]; try discriminate. specialize (Hv1 Hup ltac:(eauto)).
        assert (Ei : i = i0) by (exact (up_unique s i i0 _ _ I Hv Hi0 Hv1 Hw)). subst i. rewrite Hi0 in Hv. injection Hv as -> _.
        apply split_snoc in Ea as [(_ & _ & Ec)|(C' & -> & ->)]; [congruence|]. eapply (E _ _ _ Hi0 Hw A1 g'' n C'); [reflexivity|]. intros j Hj. apply (Hf j). now apply in_mono.
    + destruct (op_forget _ _ _ Hc0) as (n & -> & Hw). destruct Ht as (_ & Hnm & _ & _ & ->). 
      destruct T as [N T U L G E]. split.
      * intros g' n' Hin. unfold num. cbn [lG s']. rewrite Hnm. apply in_app_or in Hin as [Hin|[Hin|[]]]; [apply (N g' n' Hin)|discriminate Hin].
      * intros i g' n' c Hi. destruct (Hsrc _ _ _ Hi) as [(v & Hv & _)|(_ & [(g'' & E' & _)|(g'' & E' & E2)])]; try discriminate. apply in_mono; eauto.
      * intros i j g' n' c c' H1 H2. destruct (Hsrc _ _ _ H1) as [(v & Hv & _)|(-> & [(g'' & E' & _)|(g'' & E' & E2)])]; try discriminate. destruct (Hsrc _ _ _ H2) as [(v' & Hv' & _)|(-> & [(g'' & E' & _)|(g'' & E' & E2)])]; try discriminate. eauto.
      * intros i g' n' c Hi Hf. destruct (Hsrc _ _ _ Hi) as [(v & Hv & _ & Hv2)|(_ & [(g'' & E' & _)|(g'' & E' & E2)])]; try discriminate.
        destruct (Hv2 ltac:(eauto) Hf) as [Hf' Hni]. destruct (L _ _ _ _ Hv Hf') as [(A1 & C & -> & Hc) Hg]. split.
        -- exists A1, (C ++ [LGone g n]). split; [now rewrite <- app_assoc|]. intros j Hj. apply in_app_or in Hj as [Hj|[Hj|[]]]; [now apply (Hc j)|discriminate Hj].
        -- intros Hin. apply in_app_or in Hin as [Hin|[Hin|[]]]; [contradiction|]. injection Hin as <- <-. assert (i = i0) as -> by (eapply U; eassumption). now apply (Hni eq_refl g).
      * intros g' n' Hin. apply in_mono. apply in_app_or in Hin as [Hin|[Hin|[]]]; [auto|]. injection Hin as <- <-. eauto.
      * intros i g' c Hi Hup A1 g'' n' C Ea Hf. destruct (Hsrc _ _ _ Hi) as [(v & Hv & Hv1 & _)|(_ & [(g1 & E' & _)|(g1 & E' & E2)])]; try discriminate. specialize (Hv1 Hup ltac:(eauto)).
        apply split_snoc in Ea as [(_ & _ & Ec)|(C' & -> & ->)]; [discriminate Ec|]. eapply (E _ _ _ Hv Hv1 A1 g'' n' C'); [reflexivity|]. intros j Hj. apply (Hf j). now apply in_mono.
  - apply (dull_step s); auto; cbn [lT].
    + intros y [<-|[]]; exact Logic.I.
    + intros i k c Hi. destruct (panic_call _ _ _ _ _ _ _ Hx) as [cl Ek]. apply (insert_cases _ _ _ _ _ _ Hi0) in Hi as [[_ Hi]|[-> E]]; [destruct k; eauto|]. injection E as -> ->. subst k0. exact Logic.I.
Qed.
Lemma lreach_cinv s A : lreach s A -> cinv s A.
Proof.
  revert s A. apply (lreach_ind cinv).
  - split.
    + intros g n [].
    + intros i g n c H; discriminate H.
    + intros i j g n c c' H; discriminate H.
    + intros i g n c H; discriminate H.
    + intros g n [].
    + intros i g c H; discriminate H.
  - intros s A e s' o R I IH H. eapply cinv_step; eauto.
Qed.

(** ** When the table is right *)
(** Connection n of the server is registered and has not ended. *)
Definition connected (A : list lobs) (n : nat) : Prop := exists A1 g C, A = A1 ++ LConn g n :: C /\ no_fresh C /\ ~ In (LGone g n) C.
(** Only the connection registered last ever ends. *)
Definition newest_ends (A : list lobs) : Prop := forall A1 g n A2, A = A1 ++ LGone g n :: A2 -> exists B C, A1 = B ++ LConn g n :: C /\ no_conn C.
Lemma newest_app A B : newest_ends (A ++ B) -> newest_ends A.
Proof. intros H A1 g n A2 ->. apply (H A1 g n (A2 ++ B)). now rewrite <- app_assoc. Qed.
Lemma gone_conn s A A1 g n A2 : lreach s A -> A = A1 ++ LGone g n :: A2 ->
  (exists B C, A1 = B ++ LConn g n :: C /\ no_fresh C) /\ ~ In (LGone g n) A1 /\ (forall B g' m C, A1 = B ++ LConn g' m :: C -> no_fresh C -> g' = g).
Proof.
  intros R E. destruct (lobs_split _ _ _ _ _ R E) as (s1 & e & s2 & R1 & H). pose proof (lreach_cinv _ _ R1) as T.
  apply (gone_step _ _ _ _ _ (lreach_inv _ _ R1)) in H as (i & c & Hi & Hw). destruct (c_live _ _ T _ _ _ _ Hi) as [H1 H2]; [reflexivity|].
  do 2 (split; [assumption|]). destruct (act_run _ _ R1 _ _ _ _ Hi Hw) as (j & c' & Hj & Ho). unfold open_run in Ho. apply andb_true_iff in Ho as [Ho _].
  intros B g' m C. eapply (c_gen _ _ T _ _ _ Hj). lia.
Qed.
Lemma last_conn X a b Y B c d D : X ++ LConn a b :: Y = B ++ LConn c d :: D -> no_conn D ->
  (X = B /\ a = c /\ b = d /\ Y = D) \/ exists Y', Y = Y' ++ LConn c d :: D.
Proof.
  intros E Hd. apply app_eq_inv in E as [(k & -> & E)|(k & -> & E)]; destruct k as [|y k]; cbn in E.
  - injection E as -> -> ->. rewrite app_nil_r. auto.
  - injection E as -> ->. exfalso. apply (Hd a b). apply in_elt.
  - injection E as -> -> ->. rewrite app_nil_r. auto.
  - injection E as <- ->. right. eauto.
Qed.
Lemma exact_if s A : lreach s A -> newest_ends A -> forall n, n ∈ hTable (lG s) <-> connected A n.
Proof.
  intros R Ho n. rewrite (table_is _ _ R). pose proof (reach_numbered _ _ R) as Hn. split; intros (A1 & g & C & -> & Hf & H); exists A1, g, C; (split; [reflexivity|]); (split; [assumption|]).
  - intros Hg. apply in_split in Hg as (C1 & C2 & ->). destruct (H _ _ _ _ eq_refl) as (g' & k & Hk).
    destruct (Ho (A1 ++ LConn g n :: C1) g n C2) as (B & D & E & Hd); [now rewrite <- app_assoc|].
    assert (Hf1 : no_fresh C1) by (intros i Hi; apply (Hf i); now apply in_mono).
    assert (Hn1 : numbered (A1 ++ LConn g n :: C1)) by (apply (numbered_app _ (LGone g n :: C2)); now rewrite <- app_assoc).
    assert (Hnn : ~ In (LConn g n) C1) by (intros Hi; pose proof (newer _ _ _ _ _ _ Hn1 Hf1 Hi); lia).
    pose proof (newer _ _ _ _ _ _ Hn1 Hf1 Hk) as Hlt. apply in_split in Hk as (D1 & D2 & ->).
    replace (A1 ++ LConn g n :: D1 ++ LConn g' k :: D2) with ((A1 ++ LConn g n :: D1) ++ LConn g' k :: D2) in E by now rewrite <- app_assoc.
    destruct (last_conn _ _ _ _ _ _ _ _ E Hd) as [(_ & _ & -> & _)|(Y & ->)]; [lia|]. apply Hnn. apply in_or_app. right. right. apply in_elt.
  - intros C1 g' m C2 ->. destruct (conn_dec C1) as [Hc|?]; [exfalso|assumption].
    assert (Hf1 : no_fresh C1) by (intros i Hi; apply (Hf i); now apply in_mono).
    assert (EA : A1 ++ LConn g n :: C1 ++ LGone g' m :: C2 = (A1 ++ LConn g n :: C1) ++ LGone g' m :: C2) by now rewrite <- app_assoc.
    destruct (Ho _ _ _ _ EA) as (B & D & E & Hd). destruct (gone_conn _ _ _ _ _ _ R EA) as (_ & _ & Hgen). specialize (Hgen _ _ _ _ eq_refl Hf1) as ->.
    destruct (last_conn _ _ _ _ _ _ _ _ E Hd) as [(_ & _ & -> & _)|(Y & ->)]; [|apply (Hc g' m), in_elt]. apply H. apply in_elt.
Qed.
Theorem exact_iff s A : lreach s A ->
  (newest_ends A <-> forall s1 B, lreach s1 B -> B `prefix_of` A -> forall n, n ∈ hTable (lG s1) <-> connected B n).
Proof.
  intros R. split.
  - intros Ho s1 B R1 [C ->]. apply (exact_if _ _ R1). eapply newest_app; eassumption.
  - intros H A1 g n A2 ->. destruct (lobs_split _ _ _ _ _ R eq_refl) as (s1 & e & s2 & R1 & Hst).
    pose proof (lreach_step _ _ _ _ _ R1 Hst) as R2. destruct (gone_conn _ _ _ _ _ _ R eq_refl) as ((B & C & E & Hf) & Hng & _).
    exists B, C. split; [assumption|]. intros g' k Hk.
    assert (Hc2 : ~ connected (A1 ++ [LGone g n]) n).
    { intros (X & g2 & D & E2 & Hf2 & Hng2). apply split_snoc in E2 as [(_ & _ & E2)|(D' & -> & E2)]; [discriminate E2|].
      assert (g2 = g) as ->.
      { destruct (gone_conn _ _ _ _ _ _ R eq_refl) as (_ & _ & Hg). eapply Hg; [exact E2|]. intros i Hi. apply (Hf2 i). now apply in_mono. }
      apply Hng2. apply in_elt. }
    apply Hc2. apply (H _ _ R2); [exists A2; now rewrite <- app_assoc|].
    rewrite (a_tab _ _ (lreach_tab _ _ R2)), tfold_app. cbn [fold_left tstep fst]. apply elem_of_difference. split.
    + rewrite <- (a_tab _ _ (lreach_tab _ _ R1)). apply (H _ _ R1); [exists (LGone g n :: A2); reflexivity|]. exists B, g, C. split; [assumption|]. split; [assumption|]. intros Hi. apply Hng. rewrite E. apply in_or_app. right. right. assumption.
    + rewrite not_elem_of_singleton. pose proof (reach_numbered _ _ R1) as Hn. rewrite E in Hn |- *. pose proof (newer _ _ _ _ _ _ Hn Hf Hk) as Hlt.
      apply in_split in Hk as (D1 & D2 & ->). assert (k <= (tfold (B ++ LConn g n :: D1 ++ LConn g' k :: D2)).2)%nat; [|lia].
      replace (B ++ LConn g n :: D1 ++ LConn g' k :: D2) with ((B ++ LConn g n :: D1) ++ LConn g' k :: D2) in * by now rewrite <- app_assoc. apply last_ge; [assumption|]. intros i Hi. apply (Hf i). apply in_or_app. right. right. assumption.
Qed.
