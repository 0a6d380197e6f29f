(** * RaceProofs: every race is one of the two kinds. *)
From Verif Require Import Race RaceSpec.
From stdpp Require Import gmap.
Open Scope Z_scope.
Open Scope list_scope.

(** The mutex that protects a location, and the one that protects the memory it
    is reached from. *)
Definition protector (l : loc) : option mutex :=
  match l with
  | LTopics => Some MDs | LParts t => Some (MTopic t)
  | LRecs t p | LOffs t p => Some (MPart t p)
  | LMade _ _ | LRec _ _ _ => None
  end.
Definition parent (l : loc) : option mutex :=
  match l with
  | LTopics => None | LParts _ => Some MDs
  | LMade t _ | LRecs t _ | LOffs t _ => Some (MTopic t)
  | LRec t p _ => Some (MPart t p)
  end.
(** The location can be reached. *)
Definition present (s : store) (l : loc) : Prop :=
  match l with
  | LTopics => True
  | LParts t => getTopic s t = true
  | LMade t p | LRecs t p | LOffs t p => hasPart s t p = true
  | LRec t p n => n < zlen (recs_of s t p)
  end.

Definition grows (s s' : store) : Prop := forall l, present s l -> present s' l.
Definition keeps (m : mutex) (s s' : store) : Prop :=
  match m with
  | MDs => forall t, getTopic s' t = getTopic s t
  | MTopic t => getTopic s t = true -> forall p, hasPart s' t p = hasPart s t p
  | MPart t p => hasPart s t p = true -> recs_of s' t p = recs_of s t p
  end.
Definition rely (h : option mutex) (s s' : store) : Prop :=
  grows s s' /\ match h with Some m => keeps m s s' | None => True end.
Definition effect (m : mutex) (s s' : store) : Prop := grows s s' /\ forall m', m' <> m -> keeps m' s s'.

Lemma rely_refl h s : rely h s s.
Proof. split; [intros l; auto|]. destruct h as [[]|]; cbn; auto. Qed.
Lemma rely_trans h s1 s2 s3 : rely h s1 s2 -> rely h s2 s3 -> rely h s1 s3.
Proof.
  intros [G1 K1] [G2 K2]. split; [intros l Hl; auto|].
  destruct h as [[|t|t p]|]; cbn in *; auto.
  - intros t. rewrite K2. auto.
  - intros Ht p. rewrite K2; [auto|]. apply (G1 (LParts t)). exact Ht.
  - intros Ht. rewrite K2; [auto|]. apply (G1 (LRecs t p)). exact Ht.
Qed.
Lemma rely_weaken h s s' : rely h s s' -> rely None s s'.
Proof. intros [G _]. split; auto. Qed.
Lemma effect_rely m h s s' : effect m s s' -> h <> Some m -> rely h s s'.
Proof. intros [G E] Hh. split; [exact G|]. destruct h as [m'|]; [|exact Logic.I]. apply E. congruence. Qed.

(** ** What the code of an operation may do *)
Definition learn (h : option mutex) (s : store) (K : loc -> Prop) : loc -> Prop :=
  fun l => K l \/ (h <> None /\ parent l = h /\ present s l).
Definition known (K : loc -> Prop) (l : loc) : Prop := l = LTopics \/ K l.
Definition may_read (o : dsop) (h : option mutex) (K : loc -> Prop) (l : loc) : Prop :=
  (known K l /\ h <> None /\ protector l = h) \/ (protector l = None /\ K l) \/
  (exists t p, lists o t p /\ ((l = LRecs t p /\ K l) \/ exists n, l = LRec t p n)) \/
  (syncs o /\ (l = LTopics \/ (exists t, l = LParts t) \/ exists t p, l = LMade t p)).
Definition writer (o : dsop) (l : loc) : Prop :=
  match l with
  | LTopics | LParts _ => makes o
  | LRecs t p => posts o t p
  | LOffs _ _ => True
  | LMade _ _ | LRec _ _ _ => False
  end.
Definition maker (o : dsop) (l : loc) : Prop :=
  match l with
  | LTopics => False
  | LRec t p _ => posts o t p
  | _ => makes o
  end.

Inductive ok (o : dsop) : option mutex -> (loc -> Prop) -> store -> list mop -> Prop :=
| ok_nil h K s : ok o h K s []
| ok_lock K s m c : (forall s', rely None s s' -> ok o (Some m) K s' c) -> ok o None K s (MLock m :: c)
| ok_unlock K s m c : ok o None K s c -> ok o (Some m) K s (MUnlock m :: c)
| ok_read h K s l k c : may_read o h K l ->
    (forall s', rely h s s' -> ok o h (learn h s' K) s' (k s' ++ c)) -> ok o h K s (Rd l k :: c)
| ok_write m K s l u c : writer o l -> known K l -> protector l = Some m ->
    (forall s', rely (Some m) s s' -> effect m s' (u s') /\ ok o (Some m) (learn (Some m) (u s') K) (u s') c) ->
    ok o (Some m) K s (Wr l u :: c)
| ok_init m K s l c : maker o l -> parent l = Some m ->
    (forall s', rely (Some m) s s' -> ~ present s' l) -> ok o (Some m) K s c -> ok o (Some m) K s (Init l :: c).

(** ** Traces *)
Definition holder (m : mutex) (tr : list ev) : option nat :=
  fold_left (fun h e => match evAct e with
                        | ALock m' => if decide (m' = m) then Some (evTid e) else h
                        | AUnlock m' => if decide (m' = m) then None else h
                        | _ => h end) tr None.
Lemma holder_snoc m tr e : holder m (tr ++ [e]) =
  match evAct e with
  | ALock m' => if decide (m' = m) then Some (evTid e) else holder m tr
  | AUnlock m' => if decide (m' = m) then None else holder m tr
  | _ => holder m tr end.
Proof. unfold holder. rewrite fold_left_app. reflexivity. Qed.

Definition learned (tr : list ev) (i : nat) (K : loc -> Prop) : Prop :=
  forall l, K l -> exists r e m, tr !! r = Some e /\ evTid e = i /\ parent l = Some m /\
    holder m (take r tr) = Some i /\ present (evStore e) l.
Lemma learned_app tr x i K : learned tr i K -> learned (tr ++ x) i K.
Proof.
  intros H l Hl. destruct (H l Hl) as (r & e & m & Hr & Ht & Hp & Hh & Hs).
  exists r, e, m. pose proof (lookup_lt_Some _ _ _ Hr). rewrite lookup_app_l by assumption.
  rewrite take_app_le by lia. auto.
Qed.

(** Why an event after [pre] was possible. *)
Definition just (o : dsop) (pre : list ev) (e : ev) : Prop :=
  match evAct e with
  | ALock m => holder m pre = None
  | AUnlock m => holder m pre = Some (evTid e)
  | ARead l => exists h K, may_read o h K l /\ learned pre (evTid e) K /\
                 (forall m, h = Some m -> holder m pre = Some (evTid e))
  | AWrite l => exists K m, writer o l /\ known K l /\ protector l = Some m /\ learned pre (evTid e) K /\
                 holder m pre = Some (evTid e)
  | AInit l => exists m, maker o l /\ parent l = Some m /\ holder m pre = Some (evTid e) /\
                 ~ present (evStore e) l
  end.

Record inv (os : list dsop) (s : fsys) (tr : list ev) : Prop := {
  inv_len : length (fTh s) = length os;
  inv_th i c o : fTh s !! i = Some c -> os !! i = Some o ->
    exists h K s0, ok o h K s0 c /\ rely h s0 (fDs s) /\ (forall m, fMu s m = Some i <-> h = Some m) /\ learned tr i K;
  inv_mu m i : fMu s m = Some i -> (i < length os)%nat;
  inv_holder m : fMu s m = holder m tr;
  inv_just n e : tr !! n = Some e -> exists o, os !! evTid e = Some o /\ just o (take n tr) e;
  inv_grow a b e f : tr !! a = Some e -> tr !! b = Some f -> (a <= b)%nat -> grows (evStore e) (evStore f);
  inv_last a e : tr !! a = Some e -> grows (evStore e) (fDs s)
}.

Lemma set_mu_same f m v : set_mu f m v m = v.
Proof. unfold set_mu. destruct (decide _); congruence. Qed.
Lemma set_mu_other f m v m' : m' <> m -> set_mu f m v m' = f m'.
Proof. unfold set_mu. destruct (decide _); congruence. Qed.

(** One step keeps the invariant: the part common to all kinds of steps. *)
Lemma inv_push os s tr i c' o x s1 mu1 (h1 : option mutex) (K1 : loc -> Prop) s2 :
  inv os s tr -> os !! i = Some o -> (i < length (fTh s))%nat ->
  just o tr (Ev i x s1) ->
  grows (fDs s) s1 ->
  (forall j, j <> i -> forall m, mu1 m = Some j <-> fMu s m = Some j) ->
  (forall j h s0, j <> i -> (forall m, fMu s m = Some j <-> h = Some m) -> rely h s0 (fDs s) -> rely h s0 s1) ->
  (forall m, mu1 m = Some i <-> h1 = Some m) ->
  (forall m, mu1 m = holder m (tr ++ [Ev i x s1])) ->
  ok o h1 K1 s2 c' -> rely h1 s2 s1 -> learned (tr ++ [Ev i x s1]) i K1 ->
  inv os (FSys s1 mu1 (<[i := c']> (fTh s))) (tr ++ [Ev i x s1]).
Proof.
  intros V Ho Hi Hj Hg Hmu Hrely Hmi Hh Hok Hr2 Hl. split; cbn.
  - rewrite insert_length. apply (inv_len _ _ _ V).
  - intros j c o' Hc Ho'. destruct (decide (j = i)) as [->|Hne].
    + rewrite list_lookup_insert in Hc by assumption. injection Hc as <-.
      rewrite Ho in Ho'. injection Ho' as <-. exists h1, K1, s2. split; [exact Hok|]. split; [exact Hr2|]. split; [exact Hmi|exact Hl].
    + rewrite list_lookup_insert_ne in Hc by congruence.
      destruct (inv_th _ _ _ V j c o' Hc Ho') as (h & K & s0 & H1 & H2 & H3 & H4).
      exists h, K, s0. split; [exact H1|]. split; [apply (Hrely j); assumption|]. split.
      * intros m. rewrite Hmu by assumption. apply H3.
      * apply learned_app. exact H4.
  - intros m j Hm. destruct (decide (j = i)) as [->|Hne].
    + pose proof (inv_len _ _ _ V). lia.
    + apply (inv_mu _ _ _ V m). apply Hmu; assumption.
  - exact Hh.
  - intros n e Hn. apply lookup_app_Some in Hn as [Hn|[Hn1 Hn2]].
    + pose proof (lookup_lt_Some _ _ _ Hn). rewrite take_app_le by lia. apply (inv_just _ _ _ V n e Hn).
    + apply list_lookup_singleton_Some in Hn2 as [Hn2 <-]. cbn. exists o. split; [exact Ho|].
      assert (n = length tr) as -> by lia. rewrite take_app. exact Hj.
  - intros a b e f Ha Hb Hab. apply lookup_app_Some in Ha as [Ha|[Ha1 Ha2]]; apply lookup_app_Some in Hb as [Hb|[Hb1 Hb2]].
    + apply (inv_grow _ _ _ V a b); assumption.
    + apply list_lookup_singleton_Some in Hb2 as [_ <-]. cbn. intros l Hp. apply Hg. apply (inv_last _ _ _ V a e Ha). exact Hp.
    + pose proof (lookup_lt_Some _ _ _ Hb). lia.
    + apply list_lookup_singleton_Some in Ha2 as [_ <-]. apply list_lookup_singleton_Some in Hb2 as [_ <-].
      intros l Hp. exact Hp.
  - intros a e Ha. apply lookup_app_Some in Ha as [Ha|[Ha1 Ha2]].
    + intros l Hp. apply Hg. apply (inv_last _ _ _ V a e Ha). exact Hp.
    + apply list_lookup_singleton_Some in Ha2 as [_ <-]. intros l Hp. exact Hp.
Qed.

Lemma learned_learn tr i x s1 K h : learned tr i K -> (forall m, h = Some m -> holder m tr = Some i) ->
  learned (tr ++ [Ev i x s1]) i (learn h s1 K).
Proof.
  intros HK Hh l [Hl|(Hn & Hp & Hs)].
  - exact (learned_app tr _ i K HK l Hl).
  - destruct h as [m|]; [|congruence]. exists (length tr), (Ev i x s1), m.
    rewrite lookup_app_r by lia. rewrite Nat.sub_diag. rewrite take_app.
    specialize (Hh m eq_refl). cbn. auto 10.
Qed.

Lemma inv_step os s tr i s' es : inv os s tr -> fstep s i = (s', es) -> inv os s' (tr ++ es).
Proof.
  intros V E. unfold fstep in E.
  destruct (fTh s !! i) as [[|o c]|] eqn:Hc; try (injection E as <- <-; rewrite app_nil_r; exact V).
  pose proof (lookup_lt_Some _ _ _ Hc) as Hi.
  assert (exists q, os !! i = Some q) as [q Hq]
    by (apply lookup_lt_is_Some; rewrite <- (inv_len _ _ _ V); exact Hi).
  destruct (inv_th _ _ _ V i _ q Hc Hq) as (h & K & s0 & Hok & Hrel & Hmu & HK).
  assert (Hhold : forall m, h = Some m -> holder m tr = Some i)
    by (intros m Hm; rewrite <- (inv_holder _ _ _ V); apply Hmu; exact Hm).
  destruct o as [m|m|l k|l u|l]; inversion Hok; subst; clear Hok.
  - destruct (fMu s m) as [j|] eqn:Em; injection E as <- <-; [rewrite app_nil_r; exact V|].
    apply (inv_push os s tr i c q (ALock m) (fDs s) _ (Some m) K (fDs s) V Hq Hi).
    + cbn. rewrite <- (inv_holder _ _ _ V). exact Em.
    + intros l Hl; exact Hl.
    + intros j Hj m'. destruct (decide (m' = m)) as [->|Hne].
      * rewrite set_mu_same. split; [congruence|]. intros Hx. congruence.
      * rewrite set_mu_other by assumption. reflexivity.
    + intros j h s1 _ _ Hr. exact Hr.
    + intros m'. destruct (decide (m' = m)) as [->|Hne].
      * rewrite set_mu_same. split; auto.
      * rewrite set_mu_other by assumption. rewrite Hmu. split; congruence.
    + intros m'. rewrite holder_snoc. cbn. destruct (decide (m = m')) as [->|Hne].
      * apply set_mu_same.
      * rewrite set_mu_other by congruence. apply (inv_holder _ _ _ V).
    + match goal with H : forall s', rely None s0 s' -> _ |- _ => apply H; exact Hrel end.
    + apply rely_refl.
    + apply learned_app. exact HK.
  - injection E as <- <-.
    apply (inv_push os s tr i c q (AUnlock m) (fDs s) _ None K s0 V Hq Hi).
    + cbn. apply Hhold. reflexivity.
    + intros l Hl; exact Hl.
    + intros j Hj m'. destruct (decide (m' = m)) as [->|Hne].
      * rewrite set_mu_same. split; [discriminate|]. intros Hx.
        assert (fMu s m = Some i) by (apply Hmu; reflexivity). congruence.
      * rewrite set_mu_other by assumption. reflexivity.
    + intros j h s1 _ _ Hr. exact Hr.
    + intros m'. destruct (decide (m' = m)) as [->|Hne].
      * rewrite set_mu_same. split; discriminate.
      * rewrite set_mu_other by assumption. rewrite Hmu. split; congruence.
    + intros m'. rewrite holder_snoc. cbn. destruct (decide (m = m')) as [->|Hne].
      * apply set_mu_same.
      * rewrite set_mu_other by congruence. apply (inv_holder _ _ _ V).
    + assumption.
    + apply rely_weaken in Hrel. exact Hrel.
    + apply learned_app. exact HK.
  - injection E as <- <-.
    apply (inv_push os s tr i _ q (ARead l) (fDs s) _ h (learn h (fDs s) K) (fDs s) V Hq Hi).
    + exists h, K. auto.
    + intros l' Hl; exact Hl.
    + reflexivity.
    + intros j h' s1 _ _ Hr. exact Hr.
    + exact Hmu.
    + intros m'. rewrite holder_snoc. cbn. apply (inv_holder _ _ _ V).
    + match goal with H : forall s', rely h s0 s' -> _ |- _ => apply H; exact Hrel end.
    + apply rely_refl.
    + apply learned_learn; assumption.
  - injection E as <- <-.
    match goal with H : forall s', rely (Some m) s0 s' -> _ |- _ => destruct (H (fDs s) Hrel) as [Heff Hok] end.
    apply (inv_push os s tr i _ q (AWrite l) (u (fDs s)) _ (Some m) (learn (Some m) (u (fDs s)) K) (u (fDs s)) V Hq Hi).
    + exists K, m. auto 10.
    + apply Heff.
    + reflexivity.
    + intros j h' s1 Hj Hm Hr. apply rely_trans with (fDs s); [exact Hr|].
      apply effect_rely with m; [exact Heff|]. intros ->.
      assert (fMu s m = Some j) by (apply Hm; reflexivity).
      assert (fMu s m = Some i) by (apply Hmu; reflexivity). congruence.
    + exact Hmu.
    + intros m'. rewrite holder_snoc. cbn. apply (inv_holder _ _ _ V).
    + exact Hok.
    + apply rely_refl.
    + apply learned_learn; assumption.
  - injection E as <- <-.
    apply (inv_push os s tr i c q (AInit l) (fDs s) _ (Some m) K s0 V Hq Hi).
    + exists m. split; [assumption|]. split; [assumption|]. split; [apply Hhold; reflexivity|].
      cbn. match goal with H : forall s', rely _ s0 s' -> ~ _ |- _ => apply H; exact Hrel end.
    + intros l' Hl; exact Hl.
    + reflexivity.
    + intros j h' s1 _ _ Hr. exact Hr.
    + exact Hmu.
    + intros m'. rewrite holder_snoc. cbn. apply (inv_holder _ _ _ V).
    + assumption.
    + exact Hrel.
    + apply learned_app. exact HK.
Qed.

Lemma inv_run os is_ : forall s tr s' es, inv os s tr -> frun s is_ = (s', es) -> inv os s' (tr ++ es).
Proof.
  induction is_ as [|i is_ IH]; intros s tr s' es V E; cbn in E.
  - injection E as <- <-. rewrite app_nil_r. exact V.
  - destruct (fstep s i) as [s1 e1] eqn:E1. destruct (frun s1 is_) as [s2 e2] eqn:E2. injection E as <- <-.
    rewrite app_assoc. eapply IH; [|exact E2]. eapply inv_step; eassumption.
Qed.

(** ** Critical sections of one mutex are ordered *)
Section Order.
  Context (os : list dsop) (s : fsys) (tr : list ev) (V : inv os s tr).

  Lemma take_holder n m e : tr !! n = Some e -> holder m (take (S n) tr) = holder m (take n tr ++ [e]).
  Proof. intros H. rewrite (take_S_r _ _ _ H). reflexivity. Qed.

  Lemma holder_lost m i a b : (a <= b <= length tr)%nat -> holder m (take a tr) = Some i -> holder m (take b tr) <> Some i ->
    exists u e, (a <= u < b)%nat /\ tr !! u = Some e /\ evTid e = i /\ evAct e = AUnlock m.
  Proof.
    intros [Hab Hb] Ha. induction b as [|b IH]; intros Hn.
    { assert (a = 0%nat) as -> by lia. congruence. }
    destruct (decide (a = S b)) as [->|Hne]; [congruence|].
    destruct (decide (holder m (take b tr) = Some i)) as [Hs|Hs].
    2: { destruct IH as (u & e & Hu & Hx); [lia|lia|exact Hs|]. exists u, e. split; [lia|exact Hx]. }
    destruct (lookup_lt_is_Some_2 tr b) as [e He]; [lia|].
    rewrite (take_holder b m e He), holder_snoc, Hs in Hn.
    destruct (inv_just _ _ _ V b e He) as (o & _ & Hj). unfold just in Hj.
    destruct (evAct e) as [m'|m'|l|l|l] eqn:Ea; try congruence; destruct (decide (m' = m)) as [->|Hm]; try congruence.
    exists b, e. split; [lia|]. split; [exact He|]. split; [congruence|exact Ea].
  Qed.

  Lemma holder_got m j a b : (a <= b <= length tr)%nat -> holder m (take a tr) <> Some j -> holder m (take b tr) = Some j ->
    exists u e, (a <= u < b)%nat /\ tr !! u = Some e /\ evTid e = j /\ evAct e = ALock m.
  Proof.
    intros [Hab Hb] Ha. induction b as [|b IH]; intros Hn.
    { assert (a = 0%nat) as -> by lia. congruence. }
    destruct (decide (a = S b)) as [->|Hne]; [congruence|].
    destruct (decide (holder m (take b tr) = Some j)) as [Hs|Hs].
    1: { destruct IH as (u & e & Hu & Hx); [lia|lia|exact Hs|]. exists u, e. split; [lia|exact Hx]. }
    destruct (lookup_lt_is_Some_2 tr b) as [e He]; [lia|].
    rewrite (take_holder b m e He), holder_snoc in Hn.
    destruct (evAct e) as [m'|m'|l|l|l] eqn:Ea; try congruence; destruct (decide (m' = m)) as [->|Hm]; try congruence.
    exists b, e. split; [lia|]. split; [exact He|]. split; [congruence|exact Ea].
  Qed.

  Lemma sections_ordered m a b e f : tr !! a = Some e -> tr !! b = Some f -> (a < b)%nat -> evTid e <> evTid f ->
    holder m (take a tr) = Some (evTid e) -> holder m (take b tr) = Some (evTid f) -> evAct e <> AUnlock m -> hb tr a b.
  Proof.
    intros He Hf Hab Hne Ha Hb Hnu. pose proof (lookup_lt_Some _ _ _ Hf) as Hlen.
    destruct (holder_got m (evTid f) a b) as (l & g & Hl & Hg & Hg1 & Hg2); [lia|congruence|exact Hb|].
    destruct (holder_lost m (evTid e) a l) as (u & k & Hu & Hk & Hk1 & Hk2); [lia|exact Ha| |].
    { destruct (inv_just _ _ _ V l g Hg) as (o & _ & Hj). unfold just in Hj. rewrite Hg2 in Hj. congruence. }
    assert (a <> u) by (intros ->; congruence).
    apply hb_trans with u; [apply hb_po with e k; auto; lia|].
    apply hb_trans with l; [apply hb_sync with k g m; auto; lia|].
    apply hb_po with g f; auto; lia.
  Qed.

  (** An access to memory reached through its parent comes after it was made. *)
  Lemma made_before l m a b e f K : tr !! a = Some e -> tr !! b = Some f -> evTid e <> evTid f ->
    evAct e = AInit l -> parent l = Some m -> holder m (take a tr) = Some (evTid e) -> ~ present (evStore e) l ->
    learned (take b tr) (evTid f) K -> K l -> (a < b)%nat /\ hb tr a b.
  Proof.
    intros He Hf Hne Ha Hp Hh Hs HK Hl.
    destruct (HK l Hl) as (r & g & m' & Hr & Hg & Hp' & Hh' & Hs').
    assert (m' = m) as -> by congruence.
    apply lookup_take_Some in Hr as [Hr Hrb]. rewrite take_take, Nat.min_l in Hh' by lia.
    assert (a < r)%nat.
    { destruct (decide (r <= a)%nat); [|lia]. exfalso. apply Hs.
      eapply (inv_grow _ _ _ V r a); eassumption. }
    split; [lia|]. apply hb_trans with r.
    - apply sections_ordered with m e g; auto; congruence.
    - apply hb_po with g f; auto.
  Qed.

  Lemma race_kinds a b e f : race tr a b e f -> exists oe of, os !! evTid e = Some oe /\ os !! evTid f = Some of /\
    (pair_races oe of \/ pair_races of oe).
  Proof.
    intros (He & Hf & Hab & Hne & (l & w1 & w2 & H1 & H2 & Hw) & Hhb).
    destruct (inv_just _ _ _ V a e He) as (oe & Hoe & Je). destruct (inv_just _ _ _ V b f Hf) as (of & Hof & Jf).
    exists oe, of. split; [exact Hoe|]. split; [exact Hof|].
    unfold just in Je, Jf.
    destruct (evAct e) as [m1|m1|l1|l1|l1] eqn:Ee; try discriminate H1; injection H1 as -> <-;
      destruct (evAct f) as [m2|m2|l2|l2|l2] eqn:Ef; try discriminate H2; injection H2 as -> <-; try discriminate Hw; clear Hw.
    - (* read, write *)
      destruct Je as (h & K & Hr & HK & Hh). destruct Jf as (K' & m & Hwr & Hkn & Hgd & HK' & Hm).
      destruct Hr as [(Hk & Hn & Hg)|[(Hg & _)|[(t & p & Hls & Hl)|(Hsy & Hl)]]].
      + exfalso. apply Hhb. destruct h as [m0|]; [|congruence]. assert (m0 = m) as -> by congruence.
        apply sections_ordered with m e f; auto; congruence.
      + congruence.
      + left. left. exists t, p. split; [exact Hls|]. destruct Hl as [[-> _]|[n ->]]; [exact Hwr|destruct Hwr].
      + left. right. split; [exact Hsy|]. destruct Hl as [->|[[t ->]|[t [p ->]]]]; cbn in Hwr; tauto.
    - (* read, init *)
      destruct Je as (h & K & Hr & HK & Hh). destruct Jf as (m & Hmk & Hp & Hm & Hnp).
      assert (HKl : K l -> False).
      { intros Hl. destruct (made_before l m b a f e K) as [Hba _]; auto. lia. }
      destruct Hr as [([->|Hk] & Hn & Hg)|[(Hg & Hk)|[(t & p & Hls & Hl)|(Hsy & Hl)]]].
      + discriminate Hp.
      + contradiction.
      + contradiction.
      + left. left. exists t, p. split; [exact Hls|]. destruct Hl as [[-> Hk]|[n ->]]; [contradiction|exact Hmk].
      + left. right. split; [exact Hsy|]. destruct Hl as [->|[[t ->]|[t [p ->]]]]; cbn in Hmk; tauto.
    - (* write, read *)
      destruct Je as (K' & m & Hwr & Hkn & Hgd & HK' & Hm). destruct Jf as (h & K & Hr & HK & Hh).
      destruct Hr as [(Hk & Hn & Hg)|[(Hg & _)|[(t & p & Hls & Hl)|(Hsy & Hl)]]].
      + exfalso. apply Hhb. destruct h as [m0|]; [|congruence]. assert (m0 = m) as -> by congruence.
        apply sections_ordered with m e f; auto; congruence.
      + congruence.
      + right. left. exists t, p. split; [exact Hls|]. destruct Hl as [[-> _]|[n ->]]; [exact Hwr|destruct Hwr].
      + right. right. split; [exact Hsy|]. destruct Hl as [->|[[t ->]|[t [p ->]]]]; cbn in Hwr; tauto.
    - (* write, write *)
      destruct Je as (K' & m & Hwr & Hkn & Hgd & HK' & Hm). destruct Jf as (K & m' & Hwr' & Hkn' & Hgd' & HK & Hm').
      assert (m' = m) as -> by congruence. exfalso. apply Hhb. apply sections_ordered with m e f; auto; congruence.
    - (* write, init *)
      destruct Je as (K' & m & Hwr & Hkn & Hgd & HK' & Hm). destruct Jf as (m' & Hmk & Hp & Hm' & Hnp).
      destruct Hkn as [->|Hk]; [discriminate Hp|]. exfalso.
      destruct (made_before l m' b a f e K') as [Hba _]; auto. lia.
    - (* init, read *)
      destruct Je as (m & Hmk & Hp & Hm & Hnp). destruct Jf as (h & K & Hr & HK & Hh).
      assert (HKl : K l -> False).
      { intros Hl. apply Hhb. eapply (made_before l m a b e f K); eauto. }
      destruct Hr as [([->|Hk] & Hn & Hg)|[(Hg & Hk)|[(t & p & Hls & Hl)|(Hsy & Hl)]]].
      + discriminate Hp.
      + contradiction.
      + contradiction.
      + right. left. exists t, p. split; [exact Hls|]. destruct Hl as [[-> Hk]|[n ->]]; [contradiction|exact Hmk].
      + right. right. split; [exact Hsy|]. destruct Hl as [->|[[t ->]|[t [p ->]]]]; cbn in Hmk; tauto.
    - (* init, write *)
      destruct Je as (m & Hmk & Hp & Hm & Hnp). destruct Jf as (K' & m' & Hwr & Hkn & Hgd & HK' & Hm').
      destruct Hkn as [->|Hk]; [discriminate Hp|]. exfalso. apply Hhb. eapply (made_before l m a b e f K'); eauto.
    - (* init, init *)
      destruct Je as (m & Hmk & Hp & Hm & Hnp). destruct Jf as (m' & Hmk' & Hp' & Hm' & Hnp').
      assert (m' = m) as -> by congruence. exfalso. apply Hhb. apply sections_ordered with m e f; auto; congruence.
  Qed.
End Order.
