(** * AtomProofs: critical sections are atomic. *)
From Verif Require Import Race AtomSpec.
From stdpp Require Import gmap.
Open Scope Z_scope.
Open Scope list_scope.

Definition gro (s s' : store) : Prop := forall t p, hasPart s t p = true -> hasPart s' t p = true.
Definition stable (m : mutex) (s s' : store) : Prop :=
  match m with
  | MDs => forall t, getTopic s' t = getTopic s t
  | MTopic t => forall p, hasPart s' t p = hasPart s t p
  | MPart t p => recs_of s' t p = recs_of s t p /\ (forall g, offs_of s' t p g = offs_of s t p g) /\
                 (hasPart s t p = true -> lookupPart s' t p = lookupPart s t p)
  end.
Definition rel (m : mutex) (s s' : store) : Prop := gro s s' /\ stable m s s'.
Definition eff (m : mutex) (s s' : store) : Prop := gro s s' /\ forall m', m' <> m -> stable m' s s'.

Lemma gro_refl s : gro s s. Proof. intros t p H. exact H. Qed.
Lemma gro_trans s1 s2 s3 : gro s1 s2 -> gro s2 s3 -> gro s1 s3.
Proof. intros H1 H2 t p H. auto. Qed.
Lemma stable_refl m s : stable m s s.
Proof. destruct m; cbn; auto. Qed.
Lemma has_eq s s' t p : lookupPart s' t p = lookupPart s t p -> hasPart s' t p = hasPart s t p.
Proof. unfold hasPart. intros ->. reflexivity. Qed.
Lemma stable_trans m s1 s2 s3 : stable m s1 s2 -> stable m s2 s3 -> stable m s1 s3.
Proof.
  destruct m as [|t|t p]; cbn; intros H1 H2.
  - intros t. rewrite H2. apply H1.
  - intros p. rewrite H2. apply H1.
  - destruct H1 as (R1 & O1 & L1), H2 as (R2 & O2 & L2). split; [congruence|]. split; [intros g; rewrite O2; apply O1|].
    intros H. specialize (L1 H). rewrite L2; [exact L1|]. rewrite (has_eq _ _ _ _ L1). exact H.
Qed.
Lemma rel_refl m s : rel m s s. Proof. split; [apply gro_refl|apply stable_refl]. Qed.
Lemma rel_trans m s1 s2 s3 : rel m s1 s2 -> rel m s2 s3 -> rel m s1 s3.
Proof. intros [A B] [C D]. split; [eapply gro_trans|eapply stable_trans]; eassumption. Qed.

Lemma recs_eq s1 s2 t p : lookupPart s2 t p = lookupPart s1 t p -> recs_of s2 t p = recs_of s1 t p.
Proof. unfold recs_of. intros ->. reflexivity. Qed.
Lemma offs_eq s1 s2 t p g : lookupPart s2 t p = lookupPart s1 t p -> offs_of s2 t p g = offs_of s1 t p g.
Proof. unfold offs_of. intros ->. reflexivity. Qed.
Lemma stable_part s1 s2 t p : lookupPart s2 t p = lookupPart s1 t p -> stable (MPart t p) s1 s2.
Proof. intros E. split; [apply recs_eq, E|]. split; [intros g; apply offs_eq, E|]. intros _. exact E. Qed.

(** ** What the code may do, outside and inside a critical section *)
Inductive after (m : mutex) : list mop -> list mop -> Prop :=
| af_unlock c : after m (MUnlock m :: c) c
| af_init l c c' : after m c c' -> after m (Init l :: c) c'.

(** [P]: the operation may panic inside a critical section. *)
Inductive good (P : Prop) : store -> list mop -> Prop :=
| g_nil s : good P s []
| g_read s l k c : (forall s', gro s s' -> good P s' (k s' ++ c)) -> good P s (Rd l k :: c)
| g_lock s m c : (forall s', gro s s' -> insec P m s' c) -> good P s (MLock m :: c)
with insec (P : Prop) : mutex -> store -> list mop -> Prop :=
| i_nil m s : P -> insec P m s []
| i_unlock m s c : good P s c -> insec P m s (MUnlock m :: c)
| i_read m s l k c :
    (forall s1 s2, rel m s s1 -> stable m s1 s2 -> k s2 = k s1) ->
    (forall s', rel m s s' -> insec P m s' (k s' ++ c)) -> insec P m s (Rd l k :: c)
| i_init m s l c : insec P m s c -> insec P m s (Init l :: c)
| i_write m s l u c c' :
    (forall s', rel m s s' -> eff m s' (u s')) -> after m c c' ->
    (forall s', rel m s s' -> good P (u s') c') -> insec P m s (Wr l u :: c).

Lemma good_mono (P : Prop) s s' c : gro s s' -> good P s c -> good P s' c.
Proof.
  intros G H. inversion H; subst.
  - constructor.
  - constructor. intros s'' G'. apply H0. eapply gro_trans; eassumption.
  - constructor. intros s'' G'. apply H0. eapply gro_trans; eassumption.
Qed.
Lemma insec_mono (P : Prop) m s s' c : rel m s s' -> insec P m s c -> insec P m s' c.
Proof.
  intros G H. revert s' G. induction H as [m s p0|m s c Hg|m s l k c Hk Hc|m s l c Hi IH|m s l u c c' Hu Ha Hc] using insec_ind; intros s' G.
  - constructor. exact p0.
  - constructor. eapply good_mono; [apply G|exact Hg].
  - constructor.
    + intros s1 s2 R1 R2. apply Hk; [|exact R2]. eapply rel_trans; eassumption.
    + intros s'' R. apply Hc. eapply rel_trans; eassumption.
  - constructor. apply IH. exact G.
  - econstructor; [|exact Ha|].
    + intros s'' R. apply Hu. eapply rel_trans; eassumption.
    + intros s'' R. apply Hc. eapply rel_trans; eassumption.
Qed.

(** ** The part of a section done so far *)
Inductive pre (m : mutex) (s : store) : list mop -> list mop -> Prop :=
| pre_refl c : pre m s c c
| pre_read c0 l k c : pre m s c0 (Rd l k :: c) -> (forall s', stable m s s' -> k s' = k s) -> pre m s c0 (k s ++ c)
| pre_init c0 l c : pre m s c0 (Init l :: c) -> pre m s c0 c.
Lemma pre_stable m s s' c0 c : stable m s s' -> pre m s c0 c -> pre m s' c0 c.
Proof.
  intros R H. induction H as [c|c0 l k c H IH Hk|c0 l c H IH].
  - constructor.
  - rewrite <- (Hk _ R). eapply pre_read; [exact IH|].
    intros s'' R'. rewrite (Hk _ R). apply Hk. eapply stable_trans; eassumption.
  - eapply pre_init. exact IH.
Qed.
Lemma pre_section m s c0 c s1 c1 : pre m s c0 c -> section s c s1 c1 -> section s c0 s1 c1.
Proof.
  intros H. induction H as [c|c0 l k c H IH Hk|c0 l c H IH]; intros S1.
  - exact S1.
  - apply IH. constructor. exact S1.
  - apply IH. constructor. exact S1.
Qed.
Lemma after_section m c c' s : after m c c' -> section s c s c'.
Proof. induction 1; constructor; auto. Qed.

(** ** The simulation *)
Inductive tsim (P : Prop) (s : store) : option mutex -> list mop -> list mop -> Prop :=
| ts_out c : good P s c -> tsim P s None c c
| ts_in m c0 c : pre m s c0 c -> insec P m s c -> tsim P s (Some m) (MLock m :: c0) c
| ts_done m c c' : after m c c' -> good P s c' -> tsim P s (Some m) c' c.

Lemma tsim_other (P : Prop) s s' h a c : tsim P s h a c -> gro s s' -> (forall m, h = Some m -> stable m s s') -> tsim P s' h a c.
Proof.
  intros H G K. inversion H; subst.
  - constructor. eapply good_mono; eassumption.
  - constructor.
    + eapply pre_stable; [apply K; reflexivity|assumption].
    + eapply insec_mono; [split; [exact G|apply K; reflexivity]|assumption].
  - econstructor; [eassumption|]. eapply good_mono; eassumption.
Qed.

Definition holds (s : fsys) (i : nat) (h : option mutex) : Prop := forall m, fMu s m = Some i <-> h = Some m.
Definition sim (Q : nat -> Prop) (s : fsys) (th : list (list mop)) : Prop :=
  length th = length (fTh s) /\ (forall m i, fMu s m = Some i -> (i < length th)%nat) /\
  forall i a c, th !! i = Some a -> fTh s !! i = Some c -> exists h, holds s i h /\ tsim (Q i) (fDs s) h a c.

Lemma set_mu_eq f m v : set_mu f m v m = v.
Proof. unfold set_mu. destruct (decide _); congruence. Qed.
Lemma set_mu_ne f m v m' : m' <> m -> set_mu f m v m' = f m'.
Proof. unfold set_mu. destruct (decide _); congruence. Qed.

(** The threads that do not move. *)
Lemma sim_step (Q : nat -> Prop) s th i a c ds' mu' c' a' h' :
  sim Q s th -> th !! i = Some a -> fTh s !! i = Some c ->
  gro (fDs s) ds' ->
  (forall j m, j <> i -> fMu s m = Some j -> stable m (fDs s) ds') ->
  (forall j m, j <> i -> mu' m = Some j <-> fMu s m = Some j) ->
  (forall m, mu' m = Some i <-> h' = Some m) ->
  tsim (Q i) ds' h' a' c' ->
  sim Q (FSys ds' mu' (<[i := c']> (fTh s))) (<[i := a']> th).
Proof.
  intros (HL & HB & HT) Ha Hc G St Mu Mi T.
  assert (i < length th)%nat as Hi by (eapply lookup_lt_Some; eassumption).
  split; [|split].
  - cbn. rewrite !insert_length. exact HL.
  - cbn. intros m j Hm. rewrite insert_length. destruct (decide (j = i)) as [->|Hj]; [exact Hi|].
    apply (HB m). apply Mu; assumption.
  - cbn. intros j a1 c1. destruct (decide (j = i)) as [->|Hj].
    + rewrite !list_lookup_insert by lia. intros [= <-] [= <-]. exists h'. split; [exact Mi|exact T].
    + rewrite !list_lookup_insert_ne by congruence. intros H1 H2.
      destruct (HT j a1 c1 H1 H2) as (h & Hh & Ht). exists h. split.
      * intros m. cbn. rewrite Mu by assumption. apply Hh.
      * eapply tsim_other; [exact Ht|exact G|]. intros m ->. apply (St j); [exact Hj|]. apply Hh. reflexivity.
Qed.

Lemma insert_self (th : list (list mop)) i a : th !! i = Some a -> <[i := a]> th = th.
Proof. apply list_insert_id. Qed.

Lemma sim_fstep (Q : nat -> Prop) s th i s' e : sim Q s th -> fstep s i = (s', e) ->
  exists th', brun (fDs s, th) (fDs s', th') /\ sim Q s' th'.
Proof.
  intros HS. pose proof HS as (HL & HB & HT). unfold fstep.
  destruct (fTh s !! i) as [c|] eqn:Hc; [|intros [= <- <-]; exists th; split; [reflexivity|exact HS]].
  destruct (lookup_lt_is_Some_2 th i) as [a Ha].
  { rewrite HL. eapply lookup_lt_Some. exact Hc. }
  destruct (HT i a c Ha Hc) as (h & Hh & Ht).
  destruct c as [|o c]; [intros [= <- <-]; exists th; split; [reflexivity|exact HS]|].
  assert (forall j m, j <> i -> fMu s m = Some j -> stable m (fDs s) (fDs s)) as St0 by (intros; apply stable_refl).
  destruct o as [m|m|l k|l u|l].
  - (* Lock *)
    destruct (fMu s m) as [j|] eqn:Hm; [intros [= <- <-]; exists th; split; [reflexivity|exact HS]|].
    intros [= <- <-]. inversion Ht as [c1 Hg|m0 c0 c1 Hp Hi|m0 c1 c' Haf Hg]; subst; cycle 1.
    + inversion Hi.
    + inversion Haf.
    + exists th. split; [reflexivity|]. rewrite <- (insert_self th i _ Ha).
      eapply (sim_step Q s th i _ _ _ _ _ _ (Some m)); eauto using gro_refl.
      * intros j m1 Hj. destruct (decide (m1 = m)) as [->|Hn].
        -- rewrite set_mu_eq, Hm. split; congruence.
        -- rewrite set_mu_ne by assumption. reflexivity.
      * intros m1. destruct (decide (m1 = m)) as [->|Hn].
        -- rewrite set_mu_eq. split; reflexivity.
        -- rewrite set_mu_ne by assumption. rewrite (Hh m1). split; congruence.
      * inversion Hg; subst. constructor; [constructor|]. apply H1. apply gro_refl.
  - (* Unlock *)
    intros [= <- <-].
    assert (h = Some m) as Eh.
    { inversion Ht as [c1 Hg|m0 c0 c1 Hp Hi|m0 c1 c' Haf Hg]; subst; [inversion Hg| |].
      - inversion Hi; subst. reflexivity.
      - inversion Haf; subst. reflexivity. }
    assert (forall j m1, j <> i -> set_mu (fMu s) m None m1 = Some j <-> fMu s m1 = Some j) as M1.
    { intros j m1 Hj. destruct (decide (m1 = m)) as [->|Hn].
      - rewrite set_mu_eq. rewrite (proj2 (Hh m) Eh). split; congruence.
      - rewrite set_mu_ne by assumption. reflexivity. }
    assert (forall m1, set_mu (fMu s) m None m1 = Some i <-> None = Some m1) as M2.
    { intros m1. destruct (decide (m1 = m)) as [->|Hn].
      - rewrite set_mu_eq. split; discriminate.
      - rewrite set_mu_ne by assumption. rewrite (Hh m1). subst h. split; congruence. }
    inversion Ht as [c1 Hg|m0 c0 c1 Hp Hi|m0 c1 c' Haf Hg]; subst; [discriminate| |].
    + (* the section had no write: it takes place now *)
      injection H as ->. exists (<[i := c]> th). split.
      * apply rtc_once. cbn. eapply b_section; [exact Ha|]. eapply pre_section; [exact Hp|]. constructor.
      * eapply (sim_step Q s th i _ _ _ _ _ _ None); eauto using gro_refl.
        inversion Hi; subst. constructor. assumption.
    + injection H as ->. exists th. split; [reflexivity|]. rewrite <- (insert_self th i _ Ha).
      eapply (sim_step Q s th i _ _ _ _ _ _ None); eauto using gro_refl.
      inversion Haf; subst. constructor. assumption.
  - (* Read *)
    intros [= <- <-]. inversion Ht as [c1 Hg|m0 c0 c1 Hp Hi|m0 c1 c' Haf Hg]; subst; cycle 2.
    { inversion Haf. }
    + exists (<[i := k (fDs s) ++ c]> th). split.
      * apply rtc_once. cbn. eapply b_read. exact Ha.
      * eapply (sim_step Q s th i _ _ _ _ _ _ None); eauto using gro_refl; try (intros; reflexivity).
        inversion Hg; subst. constructor. apply H1. apply gro_refl.
    + exists th. split; [reflexivity|]. rewrite <- (insert_self th i _ Ha).
      eapply (sim_step Q s th i _ _ _ _ _ _ (Some m0)); eauto using gro_refl; try (intros; reflexivity).
      inversion Hi; subst. constructor.
      * eapply pre_read; [exact Hp|]. intros s2 R. apply H3; [apply rel_refl|exact R].
      * apply H5. apply rel_refl.
  - (* Write: the section takes place *)
    intros [= <- <-]. inversion Ht as [c1 Hg|m0 c0 c1 Hp Hi|m0 c1 c' Haf Hg]; subst.
    { inversion Hg. } 2:{ inversion Haf. }
    inversion Hi as [| | | |m1 s1 l1 u1 c1 c' Hu Haf Hg]; subst.
    destruct (Hu _ (rel_refl _ _)) as [G E].
    exists (<[i := c']> th). split.
    + apply rtc_once. cbn. eapply b_section; [exact Ha|]. eapply pre_section; [exact Hp|].
      constructor. eapply after_section. exact Haf.
    + eapply (sim_step Q s th i _ _ _ _ _ _ (Some m0)); eauto; try (intros; reflexivity).
      * intros j m1 Hj Hm. apply E. intros ->. apply Hj.
        pose proof (proj2 (Hh m0) eq_refl). congruence.
      * econstructor; [exact Haf|]. apply Hg. apply rel_refl.
  - (* Init *)
    intros [= <- <-]. exists th. split; [reflexivity|]. rewrite <- (insert_self th i _ Ha).
    eapply (sim_step Q s th i _ _ _ _ _ _ h); eauto using gro_refl; try (intros; reflexivity).
    inversion Ht as [c1 Hg|m0 c0 c1 Hp Hi|m0 c1 c' Haf Hg]; subst.
    + inversion Hg.
    + constructor; [eapply pre_init; exact Hp|]. inversion Hi; subst. assumption.
    + inversion Haf; subst. econstructor; eassumption.
Qed.

Lemma sim_frun (Q : nat -> Prop) is_ : forall s th s' tr, sim Q s th -> frun s is_ = (s', tr) ->
  exists th', brun (fDs s, th) (fDs s', th') /\ sim Q s' th'.
Proof.
  induction is_ as [|i is_ IH]; intros s th s' tr HS; cbn.
  - intros [= <- <-]. exists th. split; [reflexivity|exact HS].
  - destruct (fstep s i) as [s1 e1] eqn:E1. destruct (frun s1 is_) as [s2 e2] eqn:E2. intros [= <- <-].
    destruct (sim_fstep _ _ _ _ _ _ HS E1) as (th1 & B1 & S1).
    destruct (IH _ _ _ _ S1 E2) as (th2 & B2 & S2).
    exists th2. split; [etransitivity; eassumption|exact S2].
Qed.

(** ** The operations keep to the rules *)
Lemma upd_has ds t p f t' p' : hasPart (updPart ds t p f) t' p' = hasPart ds t' p'.
Proof.
  unfold hasPart, lookupPart, updPart. destruct (ds !! t) as [kt|] eqn:E; [|reflexivity].
  destruct (kt !! p) as [kp|] eqn:F; [|reflexivity].
  destruct (decide (t' = t)) as [->|N].
  - rewrite lookup_insert, E. destruct (decide (p' = p)) as [->|N].
    + rewrite lookup_insert, F. reflexivity.
    + rewrite lookup_insert_ne by congruence. reflexivity.
  - rewrite lookup_insert_ne by congruence. reflexivity.
Qed.
Lemma upd_topic ds t p f t' : getTopic (updPart ds t p f) t' = getTopic ds t'.
Proof.
  unfold getTopic, updPart. destruct (ds !! t) as [kt|] eqn:E; [|reflexivity].
  destruct (kt !! p) as [kp|] eqn:F; [|reflexivity].
  destruct (decide (t' = t)) as [->|N].
  - rewrite lookup_insert, E. reflexivity.
  - rewrite lookup_insert_ne by congruence. reflexivity.
Qed.
Lemma upd_lookup_ne ds t p f t' p' : (t', p') <> (t, p) -> lookupPart (updPart ds t p f) t' p' = lookupPart ds t' p'.
Proof.
  intros N. unfold lookupPart, updPart. destruct (ds !! t) as [kt|] eqn:E; [|reflexivity].
  destruct (kt !! p) as [kp|] eqn:F; [|reflexivity].
  destruct (decide (t' = t)) as [->|N'].
  - rewrite lookup_insert, E. rewrite lookup_insert_ne by congruence. reflexivity.
  - rewrite lookup_insert_ne by congruence. reflexivity.
Qed.
Lemma eff_upd ds t p f : eff (MPart t p) ds (updPart ds t p f).
Proof.
  split.
  - intros t' p' H. rewrite upd_has. exact H.
  - intros [|t'|t' p'] N; cbn.
    + intros t'. apply upd_topic.
    + intros p'. apply upd_has.
    + apply stable_part, upd_lookup_ne. congruence.
Qed.
Lemma create_has ds t t' p' : hasPart (createTopic ds t) t' p' = hasPart ds t' p'.
Proof.
  unfold hasPart, lookupPart, createTopic. destruct (ds !! t) eqn:E; [reflexivity|].
  destruct (decide (t' = t)) as [->|N].
  - rewrite lookup_insert, E, lookup_empty. reflexivity.
  - rewrite lookup_insert_ne by congruence. reflexivity.
Qed.
Lemma create_lookup ds t t' p' : lookupPart (createTopic ds t) t' p' = lookupPart ds t' p'.
Proof.
  unfold lookupPart, createTopic. destruct (ds !! t) eqn:E; [reflexivity|].
  destruct (decide (t' = t)) as [->|N].
  - rewrite lookup_insert, E, lookup_empty. reflexivity.
  - rewrite lookup_insert_ne by congruence. reflexivity.
Qed.
Lemma eff_createTopic ds t : eff MDs ds (createTopic ds t).
Proof.
  split.
  - intros t' p' H. rewrite create_has. exact H.
  - intros [|t'|t' p'] N; cbn; [congruence| |].
    + intros p'. apply create_has.
    + apply stable_part, create_lookup.
Qed.
Lemma part_lookup ds t p t' p' : lookupPart (createPartition ds t p) t' p' =
  match lookupPart ds t' p' with
  | Some kp => Some kp
  | None => if decide (t' = t /\ p' = p) then (if getTopic ds t then Some (new_part p) else None) else None
  end.
Proof.
  unfold lookupPart, createPartition, getTopic. destruct (ds !! t) as [kt|] eqn:E.
  - destruct (kt !! p) as [kp|] eqn:F.
    + destruct (ds !! t') as [kt'|] eqn:E'.
      * destruct (kt' !! p') eqn:F'; [reflexivity|]. destruct (decide _) as [[-> ->]|]; [congruence|reflexivity].
      * destruct (decide _) as [[-> ->]|]; [congruence|reflexivity].
    + destruct (decide (t' = t)) as [->|N].
      * rewrite lookup_insert, E. destruct (decide (p' = p)) as [->|N].
        -- rewrite lookup_insert, F. destruct (decide _) as [_|N]; [reflexivity|]. exfalso. apply N. auto.
        -- rewrite lookup_insert_ne by congruence. destruct (kt !! p'); [reflexivity|].
           destruct (decide _) as [[_ ?]|]; [contradiction|reflexivity].
      * rewrite lookup_insert_ne by congruence. destruct (ds !! t') as [kt'|].
        -- destruct (kt' !! p'); [reflexivity|]. destruct (decide _) as [[? _]|]; [contradiction|reflexivity].
        -- destruct (decide _) as [[? _]|]; [contradiction|reflexivity].
  - destruct (ds !! t') as [kt'|] eqn:E'; [destruct (kt' !! p'); [reflexivity|]|]; destruct (decide _); reflexivity.
Qed.
Lemma eff_createPartition ds t p : eff (MTopic t) ds (createPartition ds t p).
Proof.
  split.
  - intros t' p'. unfold hasPart. rewrite part_lookup. destruct (lookupPart ds t' p'); [reflexivity|discriminate].
  - intros [|t'|t' p'] N; cbn.
    + intros t'. unfold createPartition, getTopic. destruct (ds !! t) as [kt|] eqn:E; [|reflexivity].
      destruct (kt !! p); [reflexivity|]. destruct (decide (t' = t)) as [->|N'].
      * rewrite lookup_insert, E. reflexivity.
      * rewrite lookup_insert_ne by congruence. reflexivity.
    + intros p'. unfold hasPart. rewrite part_lookup. destruct (lookupPart ds t' p'); [reflexivity|].
      destruct (decide _) as [[-> _]|]; [congruence|reflexivity].
    + unfold recs_of, offs_of, hasPart. rewrite part_lookup. destruct (lookupPart ds t' p'); [repeat split|].
      destruct (decide _); [|repeat split]. destruct (getTopic ds t); repeat split; discriminate.
Qed.

Lemma good_createTopic (P : Prop) s t c : (forall s', gro s s' -> good P s' c) -> good P s (m_createTopic t ++ c).
Proof.
  intros H. constructor. intros s1 G1. constructor.
  - intros s2 s3 _ R. rewrite (R t). reflexivity.
  - intros s2 [G2 _]. destruct (getTopic s2 t).
    + constructor. apply H. eapply gro_trans; eassumption.
    + constructor. econstructor; [|constructor|].
      * intros s3 _. apply eff_createTopic.
      * intros s3 [G3 _]. apply H. eapply gro_trans; [|apply eff_createTopic].
        eapply gro_trans; [exact G1|]. eapply gro_trans; eassumption.
Qed.
Lemma good_createPartition (P : Prop) s t p c : (forall s', gro s s' -> good P s' c) -> good P s (m_createPartition t p ++ c).
Proof.
  intros H. constructor. intros s1 G1. constructor.
  - intros s2 s3 _ R. rewrite (R p). reflexivity.
  - intros s2 [G2 _]. destruct (hasPart s2 t p).
    + constructor. apply H. eapply gro_trans; eassumption.
    + do 3 constructor. econstructor; [|constructor|].
      * intros s3 _. apply eff_createPartition.
      * intros s3 [G3 _]. apply H. eapply gro_trans; [|apply eff_createPartition].
        eapply gro_trans; [exact G1|]. eapply gro_trans; eassumption.
Qed.
(** The partition was found. *)
Lemma good_getTopic (P : Prop) s t k c : (forall s' b, gro s s' -> good P s' (k b ++ c)) -> good P s (m_getTopic t k ++ c).
Proof.
  intros H. constructor. intros s1 G1. constructor.
  - intros s2 s3 _ R. rewrite (R t). reflexivity.
  - intros s2 [G2 _]. constructor. apply H. eapply gro_trans; eassumption.
Qed.
Lemma good_getPartition (P : Prop) s t p k c :
  (forall s' b, gro s s' -> (b = true -> hasPart s' t p = true) -> good P s' (k b ++ c)) -> good P s (m_getPartition t p k ++ c).
Proof.
  intros H. constructor. intros s1 G1. constructor.
  - intros s2 s3 _ R. rewrite (R p). reflexivity.
  - intros s2 [G2 _]. constructor. apply H; [eapply gro_trans; eassumption|auto].
Qed.
Lemma good_part (P : Prop) s t p l k c :
  (forall s1 s2, stable (MPart t p) s1 s2 -> k s2 = k s1) ->
  (forall s', gro s s' -> insec P (MPart t p) s' (k s' ++ c)) ->
  good P s (MLock (MPart t p) :: Rd l k :: c).
Proof.
  intros Hk H. constructor. intros s1 G1. constructor.
  - intros s2 s3 _ R. apply Hk, R.
  - intros s2 [G2 _]. apply H. eapply gro_trans; eassumption.
Qed.
Lemma insec_upd (P : Prop) s t p l f c : (forall s', gro s s' -> good P s' c) ->
  insec P (MPart t p) s (Wr l (fun s => updPart s t p f) :: MUnlock (MPart t p) :: c).
Proof.
  intros H. econstructor; [|constructor|].
  - intros s1 _. apply eff_upd.
  - intros s1 [G _]. apply H. eapply gro_trans; [exact G|]. apply (proj1 (eff_upd s1 t p f)).
Qed.
Lemma good_postRecord (P : Prop) s t p r c : (forall s', gro s s' -> good P s' c) -> good P s (m_postRecord t p r ++ c).
Proof.
  intros H. cbn [m_postRecord app]. apply good_part.
  - intros s1 s2 (E & _). rewrite E. reflexivity.
  - intros s1 G1. cbn [app]. constructor. apply insec_upd. intros s2 G2. apply H. eapply gro_trans; eassumption.
Qed.
Lemma good_gco (P : Prop) s t p g c : (forall s', gro s s' -> good P s' c) -> good P s (m_groupCommittedOffset t p g ++ c).
Proof.
  intros H. cbn [m_groupCommittedOffset app]. apply good_part.
  - intros s1 s2 (_ & E & _). rewrite E. reflexivity.
  - intros s1 G1. destruct (offs_of s1 t p g); cbn [app].
    + constructor. apply H. exact G1.
    + apply insec_upd. intros s2 G2. apply H. eapply gro_trans; eassumption.
Qed.

Lemma app_nil_code (c : list mop) : c = c ++ [].
Proof. symmetry. apply app_nil_r. Qed.
Lemma good_create (P : Prop) ts p : forall s c, (forall s', gro s s' -> good P s' c) ->
  good P s (flat_map (fun t => m_createTopic t ++ m_createPartition t p) ts ++ c).
Proof.
  induction ts as [|t ts IH]; intros s c H; cbn [flat_map].
  - apply H, gro_refl.
  - rewrite <- !app_assoc. apply good_createTopic. intros s1 G1. apply good_createPartition. intros s2 G2.
    apply IH. intros s3 G3. apply H. eauto using gro_trans.
Qed.
Lemma good_call (P : Prop) s w c : good P s (m_call w c).
Proof.
  destruct c as [t p k v h ts|ts p|t p g o]; cbn [m_call].
  - apply good_createTopic. intros s1 _. apply good_createPartition. intros s2 _.
    rewrite (app_nil_code (m_postRecord _ _ _)). apply good_postRecord. intros s3 _. constructor.
  - rewrite (app_nil_code (flat_map _ _)). apply good_create. intros s3 _. constructor.
  - rewrite (app_nil_code (m_getTopic _ _)). apply good_getTopic. intros s1 b _. destruct b; [|constructor].
    apply good_getPartition. intros s2 b _ _. destruct b; [|constructor].
    cbn [app]. constructor. intros s3 _. apply insec_upd. intros s4 _. constructor.
Qed.
Lemma good_flat {A} (P : Prop) (f : A -> list mop) (l : list A) :
  (forall x s c, (forall s', gro s s' -> good P s' c) -> good P s (f x ++ c)) ->
  forall s c, (forall s', gro s s' -> good P s' c) -> good P s (flat_map f l ++ c).
Proof.
  intros Hf. induction l as [|x l IH]; intros s c H; cbn [flat_map].
  - apply H, gro_refl.
  - rewrite <- app_assoc. apply Hf. intros s1 G1. apply IH. intros s2 G2. apply H. eapply gro_trans; eassumption.
Qed.
Lemma good_commit (P : Prop) s rq : good P s (m_commit rq).
Proof.
  unfold m_commit. rewrite (app_nil_code (flat_map _ _)). apply good_flat; [|intros; constructor].
  intros [t ps] s1 c H. cbn [fst snd]. apply good_getTopic. intros s2 b G2. destruct b; [|apply H, G2].
  apply good_flat; [|intros s3 G3; apply H; eapply gro_trans; eassumption].
  clear s1 H s2 G2. intros p s1 c1 H. unfold m_commit1. apply good_getPartition. intros s2 b G2 _.
  destruct b; [|apply H, G2]. cbn [app]. apply good_part.
  - intros s3 s4 (_ & E & _). rewrite E. reflexivity.
  - intros s3 G3. destruct (_ <? _); cbn [app].
    + apply insec_upd. intros s4 G4. apply H. eauto using gro_trans.
    + constructor. apply H. eapply gro_trans; eassumption.
Qed.
Lemma good_scan (P : Prop) t p T n : forall s c, (forall s', gro s s' -> good P s' c) -> good P s (m_list_scan t p T n ++ c).
Proof.
  induction n as [|n IH]; intros s c H; cbn [m_list_scan app]; [apply H, gro_refl|].
  constructor. intros s1 G1. cbn [app]. constructor. intros s2 G2.
  assert (gro s s2) as G by (eapply gro_trans; eassumption).
  destruct (_ <? _); [apply H, G|]. apply IH. intros s3 G3. apply H. eapply gro_trans; eassumption.
Qed.
Lemma good_list (P : Prop) s rq : good P s (m_list rq).
Proof.
  unfold m_list. rewrite (app_nil_code (flat_map _ _)). apply good_flat; [|intros; constructor].
  intros [t ps] s1 c H. cbn [fst snd]. apply good_getTopic. intros s2 b G2. destruct b; [|apply H, G2].
  apply good_flat; [|intros s3 G3; apply H; eapply gro_trans; eassumption].
  clear s1 H s2 G2. intros p s1 c1 H. unfold m_list1. apply good_getPartition. intros s2 b G2 _.
  destruct b; [|apply H, G2]. destruct (_ =? _); [|destruct (_ =? _)]; cbn [app].
  - constructor. intros s3 G3. apply H. eapply gro_trans; eassumption.
  - constructor. intros s3 G3. destruct (recs_of s3 t (lpIndex p)); cbn [app].
    + apply H. eapply gro_trans; eassumption.
    + constructor. intros s4 G4. constructor. intros s5 G5. apply H. eauto using gro_trans.
  - constructor. intros s3 G3. apply good_scan. intros s4 G4. apply H. eauto using gro_trans.
Qed.
Lemma good_offRead (P : Prop) g tp s c : (forall s', gro s s' -> good P s' c) -> good P s (m_offRead g tp ++ c).
Proof.
  intros H. unfold m_offRead. cbn [app]. constructor. intros s1 G1. cbn [app]. rewrite <- app_assoc.
  apply good_gco. intros s2 G2. constructor. intros s3 G3. apply H. eauto using gro_trans.
Qed.
Lemma good_offOpen (P : Prop) g ch ops : forall s kt data, good P s (m_offOpen g ch ops kt data).
Proof.
  induction ops as [|[n|p] ops IH]; intros s kt data; cbn [m_offOpen].
  - rewrite (app_nil_code (flat_map _ _)). apply good_flat; [|intros; constructor]. intros x s1 c. apply good_offRead.
  - rewrite (app_nil_code (m_getTopic _ _)). apply good_getTopic. intros s1 b _. rewrite app_nil_r. apply IH.
  - destruct kt as [n|]; [|apply IH].
    rewrite (app_nil_code (m_getPartition _ _ _)). apply good_getPartition. intros s1 b _ _. rewrite app_nil_r. apply IH.
Qed.
Definition fd_ok (P : Prop) (s : store) (fd : fdata) : Prop :=
  match fdKp fd with Some (t, p) => hasPart s t p = true | None => True end /\ (P \/ 0 <= fdOff fd).
Lemma fd_ok_gro (P : Prop) s s' fd : gro s s' -> fd_ok P s fd -> fd_ok P s' fd.
Proof. intros G [H1 H2]. split; [|exact H2]. destruct (fdKp fd) as [[t p]|]; auto. Qed.
Lemma fetchOne_kp s fd fd' b : fetchOne s fd = Some (fd', b) -> fdKp fd' = fdKp fd /\ fdOff fd <= fdOff fd'.
Proof.
  unfold fetchOne. destruct (fdKp fd) as [[t p]|] eqn:E; [|intros [= <- _]; split; [exact E|lia]].
  destruct (lookupPart s t p) as [kp|]; [|intros [= <- _]; split; [exact E|lia]].
  destruct (_ <? _); [|intros [= <- _]; split; [exact E|lia]]. destruct (_ <? _); [discriminate|].
  destruct (nth_error _ _); [|discriminate]. destruct (appendMessage _ _ _); intros [= <- _]; cbn; split; try exact E; try reflexivity; lia.
Qed.
Lemma fetchOne_panics s fd : fetchOne s fd = None -> fdOff fd < 0.
Proof.
  unfold fetchOne. destruct (fdKp fd) as [[t p]|] eqn:E; [|discriminate].
  destruct (lookupPart s t p) as [kp|]; [|discriminate].
  destruct (fdOff fd <? zlen (pRecs kp)) eqn:E1; [|discriminate]. destruct (fdOff fd <? 0) eqn:E2; [lia|].
  destruct (nth_error _ _) as [r|] eqn:E3; [destruct (appendMessage _ _ _); discriminate|].
  apply nth_error_None in E3. unfold zlen in E1. lia.
Qed.
Lemma good_fetchOne (P : Prop) s fd k : fd_ok P s fd -> (forall s' fd', gro s s' -> fd_ok P s' fd' -> good P s' (k fd')) ->
  good P s (m_fetchOne fd k).
Proof.
  unfold m_fetchOne. intros Hf H. pose proof Hf as Hf0. destruct Hf as [Hf Ho].
  destruct (fdKp fd) as [[t p]|] eqn:E; [|apply H; [apply gro_refl|exact Hf0]].
  constructor. intros s1 G1. constructor.
  - intros s2 s3 [G2 _] (_ & _ & R). unfold fetchOne. rewrite E.
    rewrite R by (apply G2, G1, Hf). reflexivity.
  - intros s2 [G2 _]. rewrite app_nil_r. destruct (fetchOne s2 fd) as [[fd' got]|] eqn:F.
    2:{ constructor. apply fetchOne_panics in F. destruct Ho; [assumption|lia]. }
    destruct (fetchOne_kp _ _ _ _ F) as [F1 F2].
    assert (forall s3, gro s2 s3 -> good P s3 (k fd')) as Hk.
    { intros s3 G3. apply H; [eauto using gro_trans|]. split; [rewrite F1, E; apply G3, G2, G1, Hf|].
      destruct Ho; [auto|right; lia]. }
    constructor. destruct got; cbn [app]; [constructor; intros s3 G3|]; apply Hk; [exact G3|apply gro_refl].
Qed.
Lemma Forall_fd_gro (P : Prop) s s' fds : gro s s' -> Forall (fd_ok P s) fds -> Forall (fd_ok P s') fds.
Proof. intros G H. eapply Forall_impl; [exact H|]. intros fd. apply fd_ok_gro, G. Qed.
Lemma good_fetchRound (P : Prop) todo : forall s done k, Forall (fd_ok P s) todo -> Forall (fd_ok P s) done ->
  (forall s' fds, gro s s' -> Forall (fd_ok P s') fds -> good P s' (k fds)) -> good P s (m_fetchRound todo done k).
Proof.
  induction todo as [|fd todo IH]; intros s done k Ht Hd H; cbn [m_fetchRound].
  - apply H; [apply gro_refl|exact Hd].
  - inversion Ht; subst. apply good_fetchOne; [assumption|]. intros s1 fd' G1 Hf. apply IH.
    + eapply Forall_fd_gro; eassumption.
    + apply Forall_app. split; [eapply Forall_fd_gro; eassumption|]. constructor; [exact Hf|constructor].
    + intros s2 fds G2 Hfs. apply H; [eapply gro_trans; eassumption|exact Hfs].
Qed.
Lemma good_fetchScan (P : Prop) n : forall s fds, Forall (fd_ok P s) fds -> good P s (m_fetchScan n fds).
Proof.
  induction n as [|n IH]; intros s fds H; cbn [m_fetchScan]; [constructor|].
  apply good_fetchRound; [exact H|constructor|]. intros s1 fds1 _ H1. apply IH, H1.
Qed.
Lemma good_fetchOpen (P : Prop) n ops : (forall p, In (WPart p) ops -> P \/ 0 <= fpOffset p) ->
  forall s kt fds, Forall (fd_ok P s) fds -> good P s (m_fetchOpen n ops kt fds).
Proof.
  induction ops as [|[t|p] ops IH]; intros Hops s kt fds H; cbn [m_fetchOpen].
  - apply good_fetchScan, H.
  - rewrite (app_nil_code (m_getTopic _ _)). apply good_getTopic. intros s1 b G. rewrite app_nil_r.
    apply IH; [|eapply Forall_fd_gro; eassumption]. intros p Hp. apply Hops. right. exact Hp.
  - assert (forall p0, In (WPart p0) ops -> P \/ 0 <= fpOffset p0) as Hops' by (intros p0 Hp; apply Hops; right; exact Hp).
    pose proof (Hops p (or_introl eq_refl)) as Hp. destruct kt as [t|].
    + rewrite (app_nil_code (m_getPartition _ _ _)). apply good_getPartition. intros s1 b G Hb. rewrite app_nil_r.
      apply IH; [exact Hops'|]. apply Forall_app. split; [eapply Forall_fd_gro; eassumption|]. constructor; [|constructor].
      split; [|exact Hp]. cbn. destruct b; [apply Hb; reflexivity|exact Logic.I].
    + apply IH; [exact Hops'|]. apply Forall_app. split; [exact H|]. constructor; [split; [exact Logic.I|exact Hp]|constructor].
Qed.
Lemma good_sync (P : Prop) s ch chs : good P s (m_sync ch chs).
Proof.
  unfold m_sync. constructor. intros s1 _. constructor. intros s2 _.
  apply good_flat; [|intros; constructor]. intros t s3 c H. unfold m_sync_topic. cbn [app].
  constructor. intros s4 G4. constructor. intros s5 G5.
  generalize (match s5 !! t with Some kt => shuffle (chs t) (map fst (map_to_list kt)) | None => [] end). intros ps.
  assert (forall s', gro s5 s' -> good P s' c) as H5.
  { intros s' G. apply H. eauto using gro_trans. }
  clear G5. revert s5 H5. induction ps as [|p ps IH]; intros s5 H5; cbn [map app].
  - apply H5, gro_refl.
  - constructor. intros s6 G6. cbn [app]. apply IH. intros s' G. apply H5. eapply gro_trans; eassumption.
Qed.

Lemma in_plan {Q} (ts : list (topic_req Q)) p : In (WPart p) (plan ts) -> exists t ps, In (t, ps) ts /\ In p ps.
Proof.
  unfold plan. intros H. apply in_flat_map in H as ([t ps] & Ht & Hp). exists t, ps. split; [exact Ht|].
  destruct Hp as [Hp|Hp]; [discriminate|]. apply in_map_iff in Hp as (q & [= ->] & Hq). exact Hq.
Qed.
Lemma good_dsop s o : good (fetches_negative o) s (dsop_code o).
Proof.
  destruct o as [w c|rq n|rq|rq|rq ch|ch chs]; cbn [dsop_code].
  - apply good_call.
  - apply good_fetchOpen; [|constructor]. intros p Hp. apply in_plan in Hp as (t & ps & Ht & Hp).
    destruct (Z_lt_le_dec (fpOffset p) 0) as [L|L]; [left|right; exact L]. exists rq, n, t, ps, p. auto.
  - apply good_commit.
  - apply good_list.
  - apply good_offOpen.
  - apply good_sync.
Qed.

Definition may_die (os : list dsop) (i : nat) : Prop :=
  match os !! i with Some o => fetches_negative o | None => False end.
Lemma sim_init ds os : sim (may_die os) (finit ds os) (map dsop_code os).
Proof.
  split; [reflexivity|]. split; [discriminate|]. intros i a c Ha Hc. cbn [finit fTh] in Hc. rewrite Ha in Hc. injection Hc as <-.
  exists None. split; [intros m; split; discriminate|].
  rewrite list_lookup_fmap in Ha. destruct (os !! i) as [o|] eqn:Ho; [|discriminate]. injection Ha as <-.
  constructor. unfold may_die. rewrite Ho. apply good_dsop.
Qed.

Theorem sections_atomic ds os is_ s tr : frun (finit ds os) is_ = (s, tr) ->
  exists th, brun (ds, map dsop_code os) (fDs s, th) /\
    forall i, (forall m, fMu s m <> Some i) -> th !! i = fTh s !! i.
Proof.
  intros H. destruct (sim_frun _ _ _ _ _ _ (sim_init ds os) H) as (th & B & HL & _ & HT).
  exists th. split; [exact B|]. intros i Hi. destruct (th !! i) as [a|] eqn:Ha.
  - destruct (fTh s !! i) as [c|] eqn:Hc.
    + destruct (HT i a c Ha Hc) as (h & Hh & Ht). inversion Ht; subst; [reflexivity| |]; exfalso; eapply Hi, Hh; reflexivity.
    + apply lookup_ge_None in Hc. apply lookup_lt_Some in Ha. lia.
  - apply lookup_ge_None in Ha. symmetry. apply lookup_ge_None. lia.
Qed.

(** ** No deadlock *)
Lemma no_wait ds os is_ s tr i x c : frun (finit ds os) is_ = (s, tr) -> fTh s !! i = Some (x :: c) ->
  can_move s i \/ exists m j, x = MLock m /\ fMu s m = Some j /\ (can_move s j \/ died_holding s j m).
Proof.
  intros H Hi. destruct (sim_frun _ _ _ _ _ _ (sim_init ds os) H) as (th & _ & HL & HB & HT).
  assert (forall j y c1, fTh s !! j = Some (y :: c1) -> (forall m, y <> MLock m) -> can_move s j) as Mv.
  { intros j y c1 Hj Hy. unfold can_move, fstep. rewrite Hj. destruct y; try (eexists _, _; reflexivity).
    exfalso. eapply Hy. reflexivity. }
  destruct x as [m|m|l k|l u|l]; try (left; eapply Mv; [exact Hi|discriminate]).
  destruct (fMu s m) as [j|] eqn:Em.
  - right. exists m, j. split; [reflexivity|]. split; [exact Em|].
    pose proof (HB m j Em) as Hj. destruct (lookup_lt_is_Some_2 th j Hj) as [a Ha].
    destruct (lookup_lt_is_Some_2 (fTh s) j) as [cj Hcj]; [lia|].
    destruct (HT j a cj Ha Hcj) as (h & Hh & Ht). apply Hh in Em as Eh. subst h.
    destruct cj as [|y cj]; [right; split; assumption|]. left. eapply Mv; [exact Hcj|]. intros m' ->.
    inversion Ht as [|m0 c0 c1 Hp Hin|m0 c1 c2 Haf Hg]; subst; [inversion Hin|inversion Haf].
  - left. unfold can_move, fstep. rewrite Hi, Em. eexists _, _. reflexivity.
Qed.
Lemma died_negative ds os is_ s tr i m : frun (finit ds os) is_ = (s, tr) -> died_holding s i m ->
  exists o, os !! i = Some o /\ fetches_negative o.
Proof.
  intros H [Hi Hm]. destruct (sim_frun _ _ _ _ _ _ (sim_init ds os) H) as (th & _ & HL & HB & HT).
  destruct (lookup_lt_is_Some_2 th i (HB m i Hm)) as [a Ha].
  destruct (HT i a [] Ha Hi) as (h & Hh & Ht). apply Hh in Hm. subst h.
  inversion Ht as [|m0 c0 c1 Hp Hin|m0 c1 c2 Haf Hg]; subst; [inversion Hin as [m1 s1 HP| | | |]; subst|inversion Haf].
  unfold may_die in HP. destruct (os !! i) as [o|]; [|contradiction]. exists o. auto.
Qed.

(** ** No endless run *)
Definition smaller (c' c : list mop) : Prop :=
  match c with
  | [] => False
  | Rd _ k :: c1 => exists s, c' = k s ++ c1
  | _ :: c1 => c' = c1
  end.
Fixpoint smaller_cons (x : mop) : forall c, Acc smaller c -> Acc smaller (x :: c).
Proof.
  intros c Hc. destruct x as [m|m|l k|l u|l]; constructor; cbn; intros c'; try (intros ->; exact Hc).
  intros [s ->]. induction (k s) as [|y ys IH]; cbn; [exact Hc|]. apply smaller_cons. exact IH.
Defined.
Lemma smaller_wf c : Acc smaller c.
Proof. induction c as [|x c IH]; [constructor; contradiction|]. apply smaller_cons, IH. Qed.
Definition one_smaller (l' l : list (list mop)) : Prop :=
  exists i c c', l !! i = Some c /\ smaller c' c /\ l' = <[i := c']> l.
Lemma one_smaller_wf l : Acc one_smaller l.
Proof.
  induction l as [|c l IH].
  - constructor. intros l' (i & c & c' & H & _). discriminate.
  - revert c. induction IH as [l _ IHl]. intros c. induction (smaller_wf c) as [c _ IHc].
    constructor. intros l' (i & c0 & c' & Hi & Hs & ->). destruct i as [|i]; cbn in *.
    + injection Hi as ->. apply IHc, Hs.
    + apply IHl. exists i, c0, c'. auto.
Qed.
Lemma moves_smaller s' s : moves s' s -> one_smaller (fTh s') (fTh s).
Proof.
  intros (i & e & H). unfold fstep in H. destruct (fTh s !! i) as [[|x c]|] eqn:Hi; try discriminate.
  exists i, (x :: c). destruct x as [m|m|l k|l u|l]; cbn.
  - destruct (fMu s m); [discriminate|]. injection H as <- <-. exists c. auto.
  - injection H as <- <-. exists c. auto.
  - injection H as <- <-. exists (k (fDs s) ++ c). eauto.
  - injection H as <- <-. exists c. auto.
  - injection H as <- <-. exists c. auto.
Qed.
Lemma no_endless_run s : Acc moves s.
Proof.
  remember (fTh s) as l eqn:E. revert s E. induction (one_smaller_wf l) as [l _ IH]. intros s ->.
  constructor. intros s' H. eapply IH; [|reflexivity]. apply moves_smaller, H.
Qed.

(** Where nothing can move any more, everything is done. *)
Lemma rest_done ds os is_ s tr : frun (finit ds os) is_ = (s, tr) -> (forall o, In o os -> ~ fetches_negative o) ->
  (forall i, ~ can_move s i) -> (forall i c, fTh s !! i = Some c -> c = []) /\ forall m, fMu s m = None.
Proof.
  intros H Hn Hm.
  assert (forall i m, ~ died_holding s i m) as Hd.
  { intros i m D. destruct (died_negative _ _ _ _ _ _ _ H D) as (o & Ho & F). eapply Hn; [|exact F].
    apply elem_of_list_In. eapply elem_of_list_lookup_2. exact Ho. }
  assert (forall i c, fTh s !! i = Some c -> c = []) as Hc.
  { intros i [|x c] Hi; [reflexivity|]. exfalso. destruct (no_wait _ _ _ _ _ _ _ _ H Hi) as [M|(m & j & _ & _ & [M|D])].
    - exact (Hm _ M). - exact (Hm _ M). - exact (Hd _ _ D). }
  split; [exact Hc|]. intros m. destruct (fMu s m) as [j|] eqn:Em; [|reflexivity]. exfalso.
  destruct (sim_frun _ _ _ _ _ _ (sim_init ds os) H) as (th & _ & HL & HB & _).
  destruct (lookup_lt_is_Some_2 (fTh s) j) as [c Hcj]; [rewrite <- HL; eapply HB, Em|].
  apply (Hd j m). split; [|exact Em]. rewrite Hcj. f_equal. eapply Hc, Hcj.
Qed.
