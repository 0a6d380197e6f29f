(** * UnlockedProofs: what the readers without a lock find *)
From Verif Require Export Unlocked ListProofs StateProofs.
From stdpp Require Import gmap list.
From Coq Require Import ZifyBool ZifyNat.
Open Scope Z_scope.
Open Scope list_scope.

(** Right for SyncGroup: everything there was at the beginning, nothing that is
    not there at the end, nothing twice. *)
Definition sync_right (A B : list obs) (asg : assignment) : Prop :=
  NoDup (map fst asg) /\
  (forall t, tr_topic t A = true -> In t (map fst asg)) /\ (forall t, In t (map fst asg) -> tr_topic t (A ++ B) = true) /\
  forall t ps, In (t, ps) asg -> NoDup ps /\ (forall p, tr_has t p A = true -> In p ps) /\ (forall p, In p ps -> tr_has t p (A ++ B) = true).

Definition parts_right (A B : list obs) (acc : assignment) : Prop :=
  NoDup (map fst acc) /\ (forall t, In t (map fst acc) -> tr_topic t (A ++ B) = true) /\
  forall t ps, In (t, ps) acc -> NoDup ps /\ (forall p, tr_has t p A = true -> In p ps) /\ (forall p, In p ps -> tr_has t p (A ++ B) = true).

Definition okr (r0 : ureader) (A B : list obs) (r : ureader) : Prop :=
  match r0 with
  | UTime t p T =>
      match r with
      | UTime t' p' T' => t' = t /\ p' = p /\ T' = T
      | ULoop t' p' T' n ts => (t' = t /\ p' = p /\ T' = T) /\
          sometime A B (fun os => (n <= length (tr_log t p os))%nat /\
            (forall k x, (n <= k)%nat -> nth_error (tr_log t p os) k = Some x -> T <= rTs x) /\
            ts = match nth_error (tr_log t p os) n with Some x => rTs x | None => 0 end)
      | UList tm o => sometime A B (fun os => by_time (tr_log t p os) T o tm)
      | _ => False
      end
  | UFirst t p =>
      match r with
      | UFirst t' p' => t' = t /\ p' = p
      | UFirst1 t' p' => (t' = t /\ p' = p) /\ sometime A B (fun os => tr_log t p os <> [])
      | UList tm o => sometime A B (fun os => o = 0 /\ tm = match tr_log t p os with [] => 0 | x :: _ => rTs x end)
      | _ => False
      end
  | ULast t p None None =>
      match r with
      | ULast t' p' tm o => (t' = t /\ p' = p) /\
          (match tm with Some tm => sometime A B (fun os => tm = tr_wall os) | None => True end) /\
          (match o with Some o => sometime A B (fun os => o = zlen (tr_log t p os)) | None => True end)
      | UList tm o => sometime A B (fun os => tm = tr_wall os) /\ sometime A B (fun os => o = zlen (tr_log t p os))
      | _ => False
      end
  | USync =>
      match r with
      | USync => True
      | UTopics must seen acc => (forall t, tr_topic t A = true -> t ∈ must) /\ seen = rev (map fst acc) /\ parts_right A B acc
      | UParts must seen acc t pmust pseen pars =>
          (forall t, tr_topic t A = true -> t ∈ must) /\ seen = t :: rev (map fst acc) /\ parts_right A B acc /\
          ~ In t (map fst acc) /\ tr_topic t (A ++ B) = true /\ (forall p, tr_has t p A = true -> p ∈ pmust) /\
          pseen = rev pars /\ NoDup pars /\ (forall p, In p pars -> tr_has t p (A ++ B) = true)
      | UAssign asg => sync_right A B asg
      | _ => False
      end
  | _ => True
  end.

Lemma sometime_more A B o (P : list obs -> Prop) : sometime A B P -> sometime A (B ++ o) P.
Proof. intros (B1 & [C ->] & H). exists B1. split; [|assumption]. exists (C ++ o). now rewrite app_assoc. Qed.
Lemma sometime_now A B (P : list obs -> Prop) : P (A ++ B) -> sometime A B P.
Proof. intros H. exists B. split; [reflexivity|assumption]. Qed.
Lemma topic_more t A B o : tr_topic t (A ++ B) = true -> tr_topic t (A ++ B ++ o) = true.
Proof. intros H. now rewrite app_assoc, tr_topic_app, H. Qed.
Lemma has_more t p A B o : tr_has t p (A ++ B) = true -> tr_has t p (A ++ B ++ o) = true.
Proof. intros H. now rewrite app_assoc, tr_has_app, H. Qed.
Lemma parts_more A B o acc : parts_right A B acc -> parts_right A (B ++ o) acc.
Proof.
  intros (H1 & H2 & H3). split; [assumption|]. split; [auto using topic_more|].
  intros t ps Hin. destruct (H3 _ _ Hin) as (? & ? & ?). split; [assumption|]. split; auto using has_more.
Qed.
Lemma okr_more r0 A B o r : okr r0 A B r -> okr r0 A (B ++ o) r.
Proof.
  destruct r0 as [t p T| | t p| |t p [?|] [?|]| | | | | |]; try exact id.
  - destruct r; try exact id; cbn [okr].
    + intros [? ?]. split; [assumption|]. now apply sometime_more.
    + apply sometime_more.
  - destruct r; try exact id; cbn [okr].
    + intros [? ?]. split; [assumption|]. now apply sometime_more.
    + apply sometime_more.
  - destruct r; try exact id; cbn [okr].
    + intros (? & H1 & H2). split; [assumption|]. destruct tm, o0; split; auto using sometime_more.
    + intros [? ?]. split; now apply sometime_more.
  - destruct r; try exact id; cbn [okr].
    + intros (? & ? & ?). auto using parts_more.
    + intros (? & ? & ? & ? & ? & ? & ? & ? & ?). repeat (split; [solve [auto using parts_more, topic_more]|]). auto using has_more.
    + intros (H1 & H2 & H3 & H4). split; [assumption|]. split; [assumption|]. split; [auto using topic_more|].
      intros t ps Hin. destruct (H4 _ _ Hin) as (? & ? & ?). split; [assumption|]. split; auto using has_more.
Qed.

(** ** A step of the reader *)
Lemma inb_true {A} `{EqDecision A} (x : A) l : inb x l = true <-> In x l.
Proof. unfold inb. rewrite bool_decide_eq_true. apply elem_of_list_In. Qed.
Lemma utopics_in s t : In t (utopics s) <-> has_topic s t.
Proof.
  unfold utopics, has_topic. rewrite in_map_iff. split.
  - intros ([t' kt] & <- & H). exists kt. apply elem_of_list_In, elem_of_map_to_list in H. exact H.
  - intros [kt H]. exists (t, kt). split; [reflexivity|]. now apply elem_of_list_In, elem_of_map_to_list.
Qed.
Lemma uparts_in s t p : In p (uparts s t) <-> has_part s t p.
Proof.
  unfold uparts, has_part. destruct (sDs s !! t) as [kt|].
  - rewrite in_map_iff. split.
    + intros ([p' kp] & <- & H). exists kt, kp. apply elem_of_list_In, elem_of_map_to_list in H. auto.
    + intros (kt' & kp & [= <-] & H). exists (p, kp). split; [reflexivity|]. now apply elem_of_list_In, elem_of_map_to_list.
  - split; [intros []|]. now intros (kt & kp & ? & _).
Qed.
Lemma log_prefix t p os o k x : nth_error (tr_log t p os) k = Some x -> nth_error (tr_log t p (os ++ o)) k = Some x.
Proof. intros H. rewrite tr_log_app, nth_error_app1; [assumption|]. apply nth_error_Some. congruence. Qed.

Section Step.
  Context (port : Z) (ch : list nat) (A B : list obs) (s : sys) (evs0 evs : list event) (s0 : sys).
  Context (R0 : run (init port ch) evs0 = (s0, A)) (R : run (init port ch) evs = (s, A ++ B)).
  Lemma s_recs t p : records_of s t p = tr_log t p (A ++ B).
  Proof. eapply reach_records, R. Qed.
  Lemma s_wall : sWall s = tr_wall (A ++ B).
  Proof. eapply i_wall, init_run_inv, R. Qed.
  Lemma time_step t p T r c : okr (UTime t p T) A B r -> okr (UTime t p T) A B (rstep s r c).
  Proof.
    intros H. destruct r; try (exact H); try contradiction H; destruct c; try exact H; try (destruct n; exact H).
    - destruct H as (-> & -> & ->). cbn [rstep okr]. split; [auto|]. apply sometime_now. rewrite s_recs. split; [lia|]. split.
      + intros k x Hk Hn. assert (k < length (tr_log t p (A ++ B)))%nat by (apply nth_error_Some; congruence). lia.
      + assert (E : nth_error (tr_log t p (A ++ B)) (length (tr_log t p (A ++ B))) = None) by (apply nth_error_None; lia). now rewrite E.
    - destruct H as [(-> & -> & ->) (B1 & [C HB] & Hn & Hs & Ht)]. destruct n as [|i]; cbn [rstep okr].
      + exists B1. split; [now exists C|]. split; [split; [lia|apply zlen_nonneg]|]. split; [|split].
        * intros k x _ Hk. apply (Hs k); [lia|assumption].
        * now left.
        * intros _. subst ts. now destruct (tr_log t p (A ++ B1)).
      + assert (Hx : exists x, nth_error (tr_log t p (A ++ B1)) i = Some x).
        { destruct (nth_error (tr_log t p (A ++ B1)) i) eqn:E; [eauto|]. apply nth_error_None in E. lia. }
        destruct Hx as [x Hx]. rewrite s_recs, HB, app_assoc. rewrite (log_prefix _ _ _ _ _ _ Hx).
        destruct (rTs x <? T) eqn:E; cbn [okr].
        * exists B1. split; [now exists C|]. split; [unfold zlen; lia|]. split; [|split].
          -- intros k y Hk. apply Hs. lia.
          -- right. exists x. replace (Z.to_nat (Z.of_nat i + 1 - 1)) with i by lia. split; [assumption|]. split; [lia|reflexivity].
          -- lia.
        * split; [auto|]. exists B1. split; [now exists C|]. split; [lia|]. split.
          -- intros k y Hk Hy. destruct (decide (k = i)) as [->|Hne]; [|apply (Hs k); [lia|assumption]]. rewrite Hx in Hy. injection Hy as <-. lia.
          -- now rewrite Hx.
  Qed.
  Lemma first_step t p r c : okr (UFirst t p) A B r -> okr (UFirst t p) A B (rstep s r c).
  Proof.
    intros H. destruct r; try (exact H); try contradiction H; destruct c; try exact H.
    - destruct H as (-> & ->). cbn [rstep]. rewrite s_recs. destruct (tr_log t p (A ++ B)) as [|x l] eqn:E; cbn [okr].
      + apply sometime_now. rewrite E. auto.
      + split; [auto|]. apply sometime_now. congruence.
    - destruct H as [(-> & ->) (B1 & [C HB] & Hn)]. cbn [rstep]. rewrite s_recs. destruct (tr_log t p (A ++ B1)) as [|x l] eqn:E; [contradiction|].
      assert (Hx : nth_error (tr_log t p (A ++ B)) 0 = Some x) by (rewrite HB, app_assoc; apply log_prefix; now rewrite E).
      destruct (tr_log t p (A ++ B)) as [|y l'] eqn:E'; [discriminate|]. injection Hx as ->. cbn [okr]. apply sometime_now. rewrite E'. auto.
  Qed.
  Lemma last_step t p r c : okr (ULast t p None None) A B r -> okr (ULast t p None None) A B (rstep s r c).
  Proof.
    intros H. destruct r; try (exact H); try contradiction H. destruct H as ((-> & ->) & H1 & H2).
    assert (W : sometime A B (fun os => sWall s = tr_wall os)) by (apply sometime_now, s_wall).
    assert (O : sometime A B (fun os => zlen (records_of s t p) = zlen (tr_log t p os))) by (apply sometime_now; now rewrite s_recs).
    destruct tm, o, c; cbn [rstep okr]; auto.
  Qed.
  Lemma end_parts {X} `{EqDecision X} (l m : list X) x : forallb (fun y => inb y l) m = true -> x ∈ m -> In x l.
  Proof. intros H Hx. rewrite forallb_forall in H. apply inb_true, H. now apply elem_of_list_In. Qed.
  Lemma sync_step r c : okr USync A B r -> okr USync A B (rstep s r c).
  Proof.
    pose proof (init_run_inv _ _ _ _ _ R) as I.
    intros H. destruct r; try (exact H); try contradiction H; destruct c; try exact H.
    - cbn [rstep okr]. split; [|split; [reflexivity|]].
      + intros t Ht. apply elem_of_list_In, utopics_in. apply (inv_topic _ _ _ _ I). rewrite tr_topic_app. now rewrite Ht.
      + split; [constructor|]. split; [intros ? []|intros ? ? []].
    - cbn [rstep]. destruct (inb t (utopics s) && negb (inb t seen)) eqn:E; [|exact H].
      apply andb_true_iff in E as [E1 E2]. apply inb_true, utopics_in in E1. apply negb_true_iff in E2.
      destruct H as (H1 & -> & H3). cbn [okr]. split; [assumption|]. split; [reflexivity|]. split; [assumption|]. split.
      { intros Hin. apply in_rev in Hin. apply (inb_true t) in Hin. congruence. }
      split; [now apply (inv_topic _ _ _ _ I)|]. split; [|split; [reflexivity|split; [constructor|intros p []]]].
      intros p Hp. apply elem_of_list_In, uparts_in, (inv_part _ _ _ _ I). rewrite tr_has_app. now rewrite Hp.
    - cbn [rstep]. destruct (forallb (fun t => inb t seen) must) eqn:E; [|exact H]. destruct H as (H1 & -> & H3 & H4 & H5). cbn [okr].
      split; [assumption|]. split; [|auto]. intros t Ht. apply H1 in Ht. apply (end_parts _ _ _ E) in Ht. now apply in_rev.
    - cbn [rstep]. destruct (negb (inb p pseen)) eqn:E; [|exact H]. destruct (lookupPart (sDs s) t p) as [kp|] eqn:Ek; [|exact H].
      destruct H as (H1 & H2 & H3 & H4 & H5 & H6 & -> & H8 & H9). cbn [okr].
      destruct (i_store _ _ _ _ I) as [_ Hst]. specialize (Hst t p). rewrite Ek in Hst. rewrite (po_index _ _ _ _ Hst).
      repeat (split; [assumption|]). split; [now rewrite rev_app_distr|]. apply negb_true_iff in E.
      assert (Hni : ~ In p pars) by (intros Hin; apply in_rev, inb_true in Hin; congruence). split.
      + apply NoDup_app. split; [assumption|]. split; [|apply NoDup_singleton].
        intros q Hq Hq'. apply elem_of_list_singleton in Hq' as ->. now apply elem_of_list_In in Hq.
      + intros q Hq. apply in_app_or in Hq as [Hq|[<-|[]]]; [auto|]. exact (po_has _ _ _ _ Hst).
    - cbn [rstep]. destruct (forallb (fun p => inb p pseen) pmust) eqn:E; [|exact H].
      destruct H as (H1 & -> & (P1 & P2 & P3) & H4 & H5 & H6 & -> & H8 & H9). cbn [okr]. split; [assumption|].
      rewrite map_app. cbn [map fst]. split; [now rewrite rev_app_distr|]. split; [|split].
      + rewrite map_app. apply NoDup_app. split; [assumption|]. split; [|apply NoDup_singleton].
        intros q Hq Hq'. apply elem_of_list_singleton in Hq' as ->. now apply elem_of_list_In in Hq.
      + intros q Hq. rewrite map_app in Hq. apply in_app_or in Hq as [Hq|[<-|[]]]; auto.
      + intros q ps Hq. apply in_app_or in Hq as [Hq|[Hq|[]]]; [auto|]. injection Hq as <- <-. split; [assumption|]. split; [|assumption].
        intros p Hp. apply H6 in Hp. apply (end_parts _ _ _ E) in Hp. now apply in_rev.
  Qed.
  Lemma okr_step r0 r c : (match r0 with UTime _ _ _ | UFirst _ _ | ULast _ _ None None | USync => True | _ => False end) ->
    okr r0 A B r -> okr r0 A B (rstep s r c).
  Proof.
    destruct r0 as [t p T| | t p| |t p [?|] [?|]| | | | | |]; try contradiction; intros _; auto using time_step, first_step, last_step, sync_step.
  Qed.
End Step.

Lemma urun_ok port ch e0 s0 A r0 : run (init port ch) e0 = (s0, A) ->
  (match r0 with UTime _ _ _ | UFirst _ _ | ULast _ _ None None | USync => True | _ => False end) ->
  forall es e1 s1 r1 B1 s r B, run (init port ch) e1 = (s1, A ++ B1) -> okr r0 A B1 r1 -> urun s1 r1 es = (s, r, B) -> okr r0 A (B1 ++ B) r.
Proof.
  intros R0 H0 es. induction es as [|e es IH]; intros e1 s1 r1 B1 s r B R1 Hok H; cbn [urun] in H.
  { injection H as <- <- <-. now rewrite app_nil_r. }
  destruct (ustep s1 r1 e) as [[s2 r2] o2] eqn:E. destruct (urun s2 r2 es) as [[s3 r3] o3] eqn:E3. injection H as <- <- <-.
  rewrite app_assoc. destruct e as [ev|c]; cbn [ustep] in E.
  - destruct (step s1 ev) as [s2' o2'] eqn:Es. injection E as <- <- <-. eapply (IH (e1 ++ [ev])); [|apply okr_more, Hok|exact E3].
    rewrite app_assoc. eapply run_snoc; eauto.
  - injection E as <- <- <-. rewrite app_nil_r. eapply (IH e1); [exact R1| |exact E3]. destruct (sCrash s1); [assumption|]. eapply okr_step; eauto.
Qed.
Lemma okr_start r0 A : okr r0 A [] r0.
Proof.
  destruct r0 as [t p T| | t p| |t p [?|] [?|]| | | | | |]; cbn; auto.
Qed.
Lemma unlocked port ch e0 s0 A r0 es s r B : run (init port ch) e0 = (s0, A) ->
  (match r0 with UTime _ _ _ | UFirst _ _ | ULast _ _ None None | USync => True | _ => False end) ->
  urun s0 r0 es = (s, r, B) -> okr r0 A B r.
Proof.
  intros R0 H0 H. apply (urun_ok port ch e0 s0 A r0 R0 H0 es e0 s0 r0 [] s r B); [now rewrite app_nil_r|apply okr_start|exact H].
Qed.

Lemma unlocked_time port ch e0 s0 A t p T es s r B : run (init port ch) e0 = (s0, A) -> urun s0 (UTime t p T) es = (s, r, B) ->
  r <> UPanic /\ forall tm o, r = UList tm o -> sometime A B (fun os => by_time (tr_log t p os) T o tm).
Proof. intros R H. eapply unlocked in H; [|exact R|exact I]. split; [intros ->; contradiction|intros tm o ->; exact H]. Qed.
Lemma unlocked_first port ch e0 s0 A t p es s r B : run (init port ch) e0 = (s0, A) -> urun s0 (UFirst t p) es = (s, r, B) ->
  r <> UPanic /\ forall tm o, r = UList tm o -> sometime A B (fun os => o = 0 /\ tm = match tr_log t p os with [] => 0 | x :: _ => rTs x end).
Proof. intros R H. eapply unlocked in H; [|exact R|exact I]. split; [intros ->; contradiction|intros tm o ->; exact H]. Qed.
Lemma unlocked_last port ch e0 s0 A t p es s r B : run (init port ch) e0 = (s0, A) -> urun s0 (ULast t p None None) es = (s, r, B) ->
  r <> UPanic /\ forall tm o, r = UList tm o -> sometime A B (fun os => tm = tr_wall os) /\ sometime A B (fun os => o = zlen (tr_log t p os)).
Proof. intros R H. eapply unlocked in H; [|exact R|exact I]. split; [intros ->; contradiction|intros tm o ->; exact H]. Qed.
Lemma unlocked_sync port ch e0 s0 A es s r B : run (init port ch) e0 = (s0, A) -> urun s0 USync es = (s, r, B) ->
  r <> UPanic /\ forall asg, r = UAssign asg -> sync_right A B asg.
Proof. intros R H. eapply unlocked in H; [|exact R|exact I]. split; [intros ->; contradiction|intros asg ->; exact H]. Qed.
