(** * RaceCode: the code of every operation keeps to the rules of [ok]. *)
From Verif Require Import Race RaceSpec StoreProofs RaceProofs.
From stdpp Require Import gmap.
Open Scope Z_scope.
Open Scope list_scope.

Lemma hasPart_lookup s t p : hasPart s t p = true <-> exists kp, lookupPart s t p = Some kp.
Proof. unfold hasPart. destruct (lookupPart s t p); naive_solver. Qed.
Lemma same_spec t p n q : same t p n q = true <-> t = n /\ p = q.
Proof. unfold same. rewrite andb_true_iff, bool_decide_eq_true, Z.eqb_eq. reflexivity. Qed.

(** ** Effects of the writes *)
Lemma eff_createTopic s t : effect MDs s (createTopic s t).
Proof.
  split.
  - intros [|n|n p|n p|n p|n p k]; cbn; unfold hasPart, recs_of; rewrite ?lookupPart_createTopic; auto.
    rewrite getTopic_createTopic. intros ->. apply orb_true_r.
  - intros [|n|n p] Hm; cbn; [congruence| |]; intros _; unfold hasPart, recs_of; intros; now rewrite lookupPart_createTopic.
Qed.
Lemma eff_createPartition s t p : getTopic s t = true -> effect (MTopic t) s (createPartition s t p).
Proof.
  intros Ht. split.
  - intros [|n|n q|n q|n q|n q k]; cbn; unfold hasPart, recs_of; rewrite ?getTopic_createPartition, ?lookupPart_createPartition by exact Ht;
      auto; destruct (lookupPart s n q); auto; try discriminate.
    destruct (same n q t p); cbn; auto.
  - intros [|n|n q] Hm; cbn.
    + intros n. apply getTopic_createPartition.
    + intros _ q. unfold hasPart. rewrite lookupPart_createPartition by exact Ht. destruct (lookupPart s n q); [reflexivity|].
      destruct (same n q t p) eqn:E; [|reflexivity]. apply same_spec in E as [-> ->]. congruence.
    + unfold hasPart, recs_of. rewrite lookupPart_createPartition by exact Ht. now destruct (lookupPart s n q).
Qed.
Lemma eff_updPart s t p f : (forall kp, zlen (pRecs kp) <= zlen (pRecs (f kp))) -> effect (MPart t p) s (updPart s t p f).
Proof.
  intros Hf. split.
  - intros [|n|n q|n q|n q|n q k]; cbn; unfold hasPart, recs_of; rewrite ?getTopic_updPart, ?lookupPart_updPart; auto;
      destruct (lookupPart s n q) as [kp|]; auto.
    destruct (same n q t p); auto. specialize (Hf kp). lia.
  - intros [|n|n q] Hm; cbn.
    + intros n. apply getTopic_updPart.
    + intros _ q. unfold hasPart. rewrite lookupPart_updPart. now destruct (lookupPart s n q).
    + intros _. unfold recs_of. rewrite lookupPart_updPart. destruct (lookupPart s n q); [|reflexivity].
      destruct (same n q t p) eqn:E; [|reflexivity]. apply same_spec in E as [-> ->]. congruence.
Qed.
Lemma eff_setOffset s t p g o : effect (MPart t p) s (setOffset s t p g o).
Proof. apply eff_updPart. intros kp. cbn. lia. Qed.
Lemma eff_postRecord s t p r : effect (MPart t p) s (postRecord s t p r).
Proof. apply eff_updPart. intros kp. cbn. unfold zlen. rewrite app_length. lia. Qed.

(** ** Pieces of code, as transformers of what is known *)
Definition ext (K K' : loc -> Prop) (s s' : store) : Prop := (forall l, K l -> K' l) /\ rely None s s'.
Lemma ext_refl K s : ext K K s s.
Proof. split; [auto|apply rely_refl]. Qed.
Lemma ext_trans K1 K2 K3 s1 s2 s3 : ext K1 K2 s1 s2 -> ext K2 K3 s2 s3 -> ext K1 K3 s1 s3.
Proof. intros [A1 R1] [A2 R2]. split; [auto|eapply rely_trans; eassumption]. Qed.

Definition hasT (t : bytes) (K : loc -> Prop) (s : store) : Prop := K (LParts t) /\ getTopic s t = true.
Definition hasP (t : bytes) (p : Z) (K : loc -> Prop) (s : store) : Prop :=
  K (LRecs t p) /\ K (LOffs t p) /\ K (LMade t p) /\ hasPart s t p = true.
Lemma hasT_ext t K K' s s' : ext K K' s s' -> hasT t K s -> hasT t K' s'.
Proof. intros [E [R _]] [H1 H2]. split; [auto|]. exact (R (LParts t) H2). Qed.
Lemma hasP_ext t p K K' s s' : ext K K' s s' -> hasP t p K s -> hasP t p K' s'.
Proof. intros [E [R _]] (H1 & H2 & H3 & H4). repeat split; auto. exact (R (LRecs t p) H4). Qed.

Definition okr (o : dsop) (R : (loc -> Prop) -> store -> Prop) (code : list mop) : Prop :=
  forall K s c, R K s -> (forall K' s', ext K K' s s' -> ok o None K' s' c) -> ok o None K s (code ++ c).
Definition stable (R : (loc -> Prop) -> store -> Prop) : Prop := forall K K' s s', ext K K' s s' -> R K s -> R K' s'.
Lemma okr_nil o R : okr o R [].
Proof. intros K s c _ H. apply H. apply ext_refl. Qed.
Lemma okr_app o R c1 c2 : stable R -> okr o R c1 -> okr o R c2 -> okr o R (c1 ++ c2).
Proof.
  intros S H1 H2 K s c HR H. rewrite <- app_assoc. apply H1; [exact HR|]. intros K' s' E.
  apply H2; [eapply S; eassumption|]. intros K'' s'' E'. apply H. eapply ext_trans; eassumption.
Qed.
Lemma okr_flat {A} o R (f : A -> list mop) l : stable R -> (forall x, In x l -> okr o R (f x)) -> okr o R (flat_map f l).
Proof.
  intros S. induction l as [|x l IH]; intros H; cbn; [apply okr_nil|].
  apply okr_app; [exact S|apply H; left; reflexivity|]. apply IH. intros y Hy. apply H. right. exact Hy.
Qed.
Definition any (K : loc -> Prop) (s : store) : Prop := True.
Lemma stable_any : stable any.
Proof. intros K K' s s' _ _. exact Logic.I. Qed.
Lemma stable_hasT t : stable (hasT t).
Proof. intros K K' s s'. apply hasT_ext. Qed.

Lemma learn_sub h s (K : loc -> Prop) l : K l -> learn h s K l.
Proof. left. assumption. Qed.
Lemma learn_ext h K s s1 s2 : rely None s s1 -> rely h s1 s2 -> ext K (learn h s2 K) s s2.
Proof.
  intros R1 R2. split; [apply learn_sub|]. eapply rely_trans; [exact R1|]. eapply rely_weaken; exact R2.
Qed.

(** createTopic *)
Lemma ok_createTopic o t K s c : makes o ->
  (forall K' s', ext K K' s s' -> hasT t K' s' -> ok o None K' s' c) -> ok o None K s (m_createTopic t ++ c).
Proof.
  intros Hm H. apply ok_lock. intros s1 R1. apply ok_read; [left; split; [left; reflexivity|split; [discriminate|reflexivity]]|].
  intros s2 R2. destruct (getTopic s2 t) eqn:E; cbn.
  - apply ok_unlock. apply H; [eapply learn_ext; eassumption|]. split; [|exact E].
    right. split; [discriminate|]. split; [reflexivity|exact E].
  - apply ok_init; [exact Hm|reflexivity| |].
    { intros s3 [_ Hk]. cbn in *. rewrite Hk, E. discriminate. }
    apply ok_write; [exact Hm|left; reflexivity|reflexivity|]. intros s3 R3. split; [apply eff_createTopic|].
    apply ok_unlock. assert (getTopic (createTopic s3 t) t = true) as G
      by (rewrite getTopic_createTopic, bool_decide_true by reflexivity; reflexivity).
    apply H.
    + split; [intros l Hl; left; left; exact Hl|].
      eapply rely_trans; [exact R1|]. eapply rely_trans; [eapply rely_weaken; exact R2|].
      eapply rely_trans; [eapply rely_weaken; exact R3|]. split; [apply eff_createTopic|exact Logic.I].
    + split; [|exact G]. right. split; [discriminate|]. split; [reflexivity|exact G].
Qed.

(** getTopic *)
Lemma ok_getTopic o t k K s c :
  (forall K' s' b, ext K K' s s' -> (b = true -> hasT t K' s') -> ok o None K' s' (k b ++ c)) ->
  ok o None K s (m_getTopic t k ++ c).
Proof.
  intros H. apply ok_lock. intros s1 R1. apply ok_read; [left; split; [left; reflexivity|split; [discriminate|reflexivity]]|].
  intros s2 R2. cbn. apply ok_unlock. apply H; [eapply learn_ext; eassumption|]. intros E. split; [|exact E].
  right. split; [discriminate|]. split; [reflexivity|exact E].
Qed.

(** createPartition *)
Lemma ok_createPartition o t p K s c : makes o -> hasT t K s ->
  (forall K' s', ext K K' s s' -> hasP t p K' s' -> ok o None K' s' c) -> ok o None K s (m_createPartition t p ++ c).
Proof.
  intros Hm [HK Ht] H. apply ok_lock. intros s1 R1.
  apply ok_read; [left; split; [right; exact HK|split; [discriminate|reflexivity]]|].
  intros s2 R2. destruct (hasPart s2 t p) eqn:E; cbn.
  - apply ok_unlock. apply H; [eapply learn_ext; eassumption|].
    repeat split; [..|exact E]; right; (split; [discriminate|]; split; [reflexivity|exact E]).
  - assert (Ht2 : getTopic s2 t = true).
    { apply (proj1 R2 (LParts t)). apply (proj1 R1 (LParts t)). exact Ht. }
    assert (Hno : forall s', rely (Some (MTopic t)) s2 s' -> ~ hasPart s' t p = true).
    { intros s3 [_ Hk]. cbn in Hk. rewrite Hk, E by exact Ht2. discriminate. }
    apply ok_init; [exact Hm|reflexivity|exact Hno|]. apply ok_init; [exact Hm|reflexivity|exact Hno|].
    apply ok_init; [exact Hm|reflexivity|exact Hno|].
    apply ok_write; [exact Hm|right; left; exact HK|reflexivity|]. intros s3 R3.
    assert (Ht3 : getTopic s3 t = true) by (apply (proj1 R3 (LParts t)); exact Ht2).
    split; [apply eff_createPartition; exact Ht3|].
    apply ok_unlock. assert (hasPart (createPartition s3 t p) t p = true) as G.
    { unfold hasPart. rewrite lookupPart_createPartition by exact Ht3. destruct (lookupPart s3 t p); [reflexivity|].
      rewrite (proj2 (same_spec t p t p)) by auto. reflexivity. }
    apply H.
    + split; [intros l Hl; left; left; exact Hl|].
      eapply rely_trans; [exact R1|]. eapply rely_trans; [eapply rely_weaken; exact R2|].
      eapply rely_trans; [eapply rely_weaken; exact R3|]. split; [apply eff_createPartition; exact Ht3|exact Logic.I].
    + repeat split; [..|exact G]; right; (split; [discriminate|]; split; [reflexivity|exact G]).
Qed.

(** getPartition *)
Lemma ok_getPartition o t p k K s c : hasT t K s ->
  (forall K' s' b, ext K K' s s' -> (b = true -> hasP t p K' s') -> ok o None K' s' (k b ++ c)) ->
  ok o None K s (m_getPartition t p k ++ c).
Proof.
  intros [HK Ht] H. apply ok_lock. intros s1 R1.
  apply ok_read; [left; split; [right; exact HK|split; [discriminate|reflexivity]]|].
  intros s2 R2. cbn. apply ok_unlock. apply H; [eapply learn_ext; eassumption|]. intros E.
  repeat split; [..|exact E]; right; (split; [discriminate|]; split; [reflexivity|exact E]).
Qed.

(** postRecord *)
Lemma okr_postRecord o t p r : posts o t p -> okr o (hasP t p) (m_postRecord t p r).
Proof.
  intros Hm K s c (H1 & H2 & H3 & H4) H. apply ok_lock. intros s1 R1.
  apply ok_read; [left; split; [right; exact H1|split; [discriminate|reflexivity]]|].
  intros s2 R2. cbn.
  assert (Hp2 : hasPart s2 t p = true).
  { apply (proj1 R2 (LRecs t p)). apply (proj1 R1 (LRecs t p)). exact H4. }
  apply ok_init; [exact Hm|reflexivity| |].
  { intros s3 [_ Hk]. cbn in *. rewrite Hk by exact Hp2. lia. }
  apply ok_write; [exact Hm|right; left; exact H1|reflexivity|]. intros s3 R3. split; [apply eff_postRecord|].
  apply ok_unlock. apply H. split; [intros l Hl; left; left; exact Hl|].
  eapply rely_trans; [exact R1|]. eapply rely_trans; [eapply rely_weaken; exact R2|].
  eapply rely_trans; [eapply rely_weaken; exact R3|]. split; [apply eff_postRecord|exact Logic.I].
Qed.

(** A critical section on the offsets of a partition that reads, and may write. *)
Lemma okr_offsets (o : dsop) (t : bytes) (p : Z) (k : store -> bool) (g : bytes) (x : Z) : okr o (hasP t p)
  [MLock (MPart t p); Rd (LOffs t p) (fun s => if k s then [Wr (LOffs t p) (fun s => setOffset s t p g x)] else []);
   MUnlock (MPart t p)].
Proof.
  intros K s c (H1 & H2 & H3 & H4) H. apply ok_lock. intros s1 R1.
  apply ok_read; [left; split; [right; exact H2|split; [discriminate|reflexivity]]|].
  intros s2 R2. destruct (k s2); cbn.
  - apply ok_write; [exact Logic.I|right; left; exact H2|reflexivity|]. intros s3 R3. split; [apply eff_setOffset|].
    apply ok_unlock. apply H. split; [intros l Hl; left; left; exact Hl|].
    eapply rely_trans; [exact R1|]. eapply rely_trans; [eapply rely_weaken; exact R2|].
    eapply rely_trans; [eapply rely_weaken; exact R3|]. split; [apply eff_setOffset|exact Logic.I].
  - apply ok_unlock. apply H. eapply learn_ext; eassumption.
Qed.
Lemma okr_groupOffset o t p g : okr o (hasP t p) (m_groupCommittedOffset t p g).
Proof.
  intros K s c (H1 & H2 & H3 & H4) H. apply ok_lock. intros s1 R1.
  apply ok_read; [left; split; [right; exact H2|split; [discriminate|reflexivity]]|].
  intros s2 R2. destruct (offs_of s2 t p g); cbn.
  - apply ok_unlock. apply H. eapply learn_ext; eassumption.
  - apply ok_write; [exact Logic.I|right; left; exact H2|reflexivity|]. intros s3 R3. split; [apply eff_setOffset|].
    apply ok_unlock. apply H. split; [intros l Hl; left; left; exact Hl|].
    eapply rely_trans; [exact R1|]. eapply rely_trans; [eapply rely_weaken; exact R2|].
    eapply rely_trans; [eapply rely_weaken; exact R3|]. split; [apply eff_setOffset|exact Logic.I].
Qed.
Lemma okr_setOffset o (t : bytes) (p : Z) (g : bytes) (x : Z) : okr o (hasP t p)
  [MLock (MPart t p); Wr (LOffs t p) (fun s => setOffset s t p g x); MUnlock (MPart t p)].
Proof.
  intros K s c (H1 & H2 & H3 & H4) H. apply ok_lock. intros s1 R1. cbn.
  apply ok_write; [exact Logic.I|right; exact H2|reflexivity|]. intros s3 R3. split; [apply eff_setOffset|].
  apply ok_unlock. apply H. split; [intros l Hl; left; exact Hl|].
  eapply rely_trans; [exact R1|]. eapply rely_trans; [eapply rely_weaken; exact R3|]. split; [apply eff_setOffset|exact Logic.I].
Qed.

(** A single read of memory known. *)
Lemma okr_read (o : dsop) (R : (loc -> Prop) -> store -> Prop) l : (forall K s, R K s -> may_read o None K l) -> okr o R [Rd l (fun _ => [])].
Proof.
  intros Hr K s c HR H. apply ok_read; [apply (Hr K s HR)|]. intros s' R'. cbn. apply H.
  split; [apply learn_sub|exact R'].
Qed.

(** ** The operations *)
Lemma okr_call w c : okr (DCall w c) any (m_call w c).
Proof.
  destruct c as [t p k v h ts|ts p|t p g x]; cbn [m_call].
  - assert (posts (DCall w (CallPost t p k v h ts)) t (swrap 32 p)) as Hp by (exists w, p, k, v, h, ts; auto).
    assert (makes (DCall w (CallPost t p k v h ts))) as Hm by (left; exists t, (swrap 32 p); exact Hp).
    intros K s c _ H. rewrite <- app_assoc. apply ok_createTopic; [exact Hm|]. intros K1 s1 E1 T1.
    rewrite <- app_assoc. apply ok_createPartition; [exact Hm|exact T1|]. intros K2 s2 E2 P2.
    apply okr_postRecord; [exact Hp|exact P2|]. intros K3 s3 E3. apply H.
    eapply ext_trans; [exact E1|]. eapply ext_trans; eassumption.
  - apply okr_flat; [apply stable_any|]. intros t Ht K s c _ H. rewrite <- app_assoc.
    assert (makes (DCall w (CallCreate ts p))) as Hm.
    { right. destruct ts as [|t0 ts]; [destruct Ht|]. exists w, t0, ts, p. reflexivity. }
    apply ok_createTopic; [exact Hm|]. intros K1 s1 E1 T1.
    apply ok_createPartition; [exact Hm|exact T1|]. intros K2 s2 E2 P2. apply H. eapply ext_trans; eassumption.
  - intros K s c _ H. apply ok_getTopic. intros K1 s1 b E1 T1. destruct b; [|apply H; exact E1].
    apply ok_getPartition; [apply T1; reflexivity|]. intros K2 s2 b E2 P2.
    assert (ext K K2 s s2) as E by (eapply ext_trans; eassumption).
    destruct b; [|apply H; exact E]. apply okr_setOffset; [apply P2; reflexivity|].
    intros K3 s3 E3. apply H. eapply ext_trans; eassumption.
Qed.

Lemma okr_commit rq : okr (DCommit rq) any (m_commit rq).
Proof.
  apply okr_flat; [apply stable_any|]. intros [t ps] _ K s c _ H. apply ok_getTopic. intros K1 s1 b E1 T1.
  destruct b; [|apply H; exact E1].
  apply (okr_flat (DCommit rq) (hasT t)); [apply stable_hasT| |apply T1; reflexivity|].
  2: { intros K2 s2 E2. apply H. eapply ext_trans; eassumption. }
  intros q _ K2 s2 c2 T2 H2. apply ok_getPartition; [exact T2|]. intros K3 s3 b E3 P3.
  destruct b; [|apply H2; exact E3]. apply okr_offsets; [apply P3; reflexivity|].
  intros K4 s4 E4. apply H2. eapply ext_trans; eassumption.
Qed.

Lemma okr_list_scan rq t p T n : lists (DList rq) t p -> okr (DList rq) (hasP t p) (m_list_scan t p T n).
Proof.
  intros Hl. assert (S : stable (hasP t p)) by (intros K K' s s'; apply hasP_ext).
  induction n as [|i IH]; [apply okr_nil|]. intros K s c HP H. cbn.
  apply ok_read; [right; right; left; exists t, p; split; [exact Hl|left; split; [reflexivity|apply HP]]|].
  intros s1 R1. cbn. apply ok_read; [right; right; left; exists t, p; split; [exact Hl|right; eexists; reflexivity]|].
  intros s2 R2.
  assert (ext K (learn None s2 (learn None s1 K)) s s2) as E.
  { split; [intros l HK; left; left; exact HK|]. eapply rely_trans; eassumption. }
  destruct (rec_time s2 t p i <? T); [apply H; exact E|].
  apply IH; [eapply S; eassumption|]. intros K' s' E'. apply H. eapply ext_trans; eassumption.
Qed.

Lemma okr_list rq : okr (DList rq) any (m_list rq).
Proof.
  apply okr_flat; [apply stable_any|]. intros [t ps] Ht K s c _ H. apply ok_getTopic. intros K1 s1 b E1 T1.
  destruct b; [|apply H; exact E1].
  apply (okr_flat (DList rq) (hasT t)); [apply stable_hasT| |apply T1; reflexivity|].
  2: { intros K2 s2 E2. apply H. eapply ext_trans; eassumption. }
  cbn [snd fst]. intros q Hq K2 s2 c2 T2 H2.
  assert (Hl : lists (DList rq) t (lpIndex q)) by (exists rq, ps, q; auto).
  apply ok_getPartition; [exact T2|]. intros K3 s3 b E3 P3.
  destruct b; [|apply H2; exact E3]. specialize (P3 eq_refl).
  assert (forall K s, hasP t (lpIndex q) K s -> may_read (DList rq) None K (LRecs t (lpIndex q))) as Hr.
  { intros K' s' HP. right; right; left; exists t, (lpIndex q); split; [exact Hl|left; split; [reflexivity|apply HP]]. }
  destruct (lpTime q =? -1); [|destruct (lpTime q =? -2)].
  - apply (okr_read _ (hasP t (lpIndex q)) _ Hr); [exact P3|]. intros K4 s4 E4. apply H2. eapply ext_trans; eassumption.
  - apply ok_read; [apply (Hr K3 s3 P3)|]. intros s4 R4. cbn beta.
    assert (ext K3 (learn None s4 K3) s3 s4) as E4 by (split; [apply learn_sub|exact R4]).
    destruct (recs_of s4 t (lpIndex q)); [apply H2; eapply ext_trans; eassumption|].
    assert (P4 := hasP_ext _ _ _ _ _ _ E4 P3). apply ok_read; [apply (Hr _ s4 P4)|]. intros s5 R5. cbn.
    apply ok_read; [right; right; left; exists t, (lpIndex q); split; [exact Hl|right; eexists; reflexivity]|].
    intros s6 R6. cbn. apply H2. eapply ext_trans; [exact E3|]. eapply ext_trans; [exact E4|].
    split; [intros l9 HK; left; left; exact HK|]. eapply rely_trans; eassumption.
  - apply ok_read; [apply (Hr K3 s3 P3)|]. intros s4 R4. cbn beta.
    assert (ext K3 (learn None s4 K3) s3 s4) as E4 by (split; [apply learn_sub|exact R4]).
    apply okr_list_scan; [exact Hl|eapply hasP_ext; eassumption|]. intros K5 s5 E5. apply H2.
    eapply ext_trans; [exact E3|]. eapply ext_trans; eassumption.
Qed.

(** OffsetFetch *)
Definition hasAll (data : list (bytes * list Z)) (K : loc -> Prop) (s : store) : Prop :=
  forall t ps p, In (t, ps) data -> In p ps -> hasP t p K s.
Lemma hasAll_ext data K K' s s' : ext K K' s s' -> hasAll data K s -> hasAll data K' s'.
Proof. intros E H t ps p H1 H2. eapply hasP_ext; [exact E|]. eapply H; eassumption. Qed.
Lemma hasAll_add n p data K s : hasP n p K s -> hasAll data K s -> hasAll (add_data n p data) K s.
Proof.
  intros HP. induction data as [|[m l] data IH]; intros H; cbn.
  - intros t ps q [[= <- <-]|[]] [<-|[]]. exact HP.
  - destruct (beqb m n) eqn:E.
    + intros t ps q [[= <- <-]|Hin] Hq.
      * apply in_app_or in Hq as [Hq|[<-|[]]]; [eapply H; [left; reflexivity|exact Hq]|].
        apply bool_decide_eq_true in E. subst. exact HP.
      * eapply H; [right; exact Hin|exact Hq].
    + intros t ps q [[= <- <-]|Hin] Hq.
      * eapply H; [left; reflexivity|exact Hq].
      * eapply IH; [|exact Hin|exact Hq]. intros t' ps' q' H1 H2. eapply H; [right; exact H1|exact H2].
Qed.
Lemma pick_in {A} n (l : list A) x r : pick n l = Some (x, r) -> In x l /\ forall y, In y r -> In y l.
Proof.
  revert n x r. induction l as [|a l IH]; intros n x r; [destruct n; discriminate|]. destruct n; cbn.
  - intros [= <- <-]. split; [left; reflexivity|]. intros y Hy. right. exact Hy.
  - destruct (pick n l) as [[y r']|] eqn:E.
    + intros [= <- <-]. destruct (IH _ _ _ E) as [H1 H2]. split; [right; exact H1|].
      intros z [<-|Hz]; [left; reflexivity|right; apply H2; exact Hz].
    + intros [= <- <-]. split; [left; reflexivity|]. intros y Hy. right. exact Hy.
Qed.
Lemma shuffle_in {A} ch (l : list A) x : In x (shuffle ch l) -> In x l.
Proof.
  unfold shuffle. generalize (length l) at 1. intros n. revert ch l. induction n as [|n IH]; intros ch l; cbn; [intros []|].
  destruct (pick (hd 0%nat ch) l) as [[y r]|] eqn:E; [|intros []]. destruct (pick_in _ _ _ _ E) as [H1 H2].
  intros [<-|H]; [exact H1|]. apply H2. eapply IH. exact H.
Qed.

Lemma ok_offOpen rq ch c : forall ops kt data K s,
  (forall n, kt = Some n -> hasT n K s) -> hasAll data K s ->
  (forall K' s', ext K K' s s' -> ok (DOffset rq ch) None K' s' c) ->
  ok (DOffset rq ch) None K s (m_offOpen (oqGroup rq) ch ops kt data ++ c).
Proof.
  induction ops as [|[n|p] ops IH]; intros kt data K s Hk Hd H; cbn [m_offOpen].
  - apply (okr_flat (DOffset rq ch) (hasAll data)); [intros K1 K2 s1 s2; apply hasAll_ext| |exact Hd|exact H].
    intros [t p] Hin K1 s1 c1 HR H1. apply in_flat_map in Hin as ([t' ps] & Hin & Hp). cbn in Hp.
    apply in_map_iff in Hp as (p' & [= -> ->] & Hp). apply shuffle_in in Hin. assert (HP := HR _ _ _ Hin Hp).
    assert (forall K s, hasP t p K s -> may_read (DOffset rq ch) None K (LMade t p)) as Hr.
    { intros K' s' HP'. right. left. split; [reflexivity|apply HP']. }
    unfold m_offRead. cbn [fst snd].
    change (Rd (LMade t p) (fun _ => []) :: m_groupCommittedOffset t p (oqGroup rq) ++ [Rd (LMade t p) (fun _ => [])])
      with ([Rd (LMade t p) (fun _ => [])] ++ m_groupCommittedOffset t p (oqGroup rq) ++ [Rd (LMade t p) (fun _ => [])]).
    assert (stable (hasP t p)) as S by (intros K2 K3 s2 s3; apply hasP_ext).
    apply (okr_app _ (hasP t p)); [exact S|apply okr_read; exact Hr| |exact HP|exact H1].
    apply okr_app; [exact S|apply okr_groupOffset|apply okr_read; exact Hr].
  - apply ok_getTopic. intros K1 s1 b E1 T1. apply IH.
    + intros m Hm. destruct b; [|discriminate]. injection Hm as <-. apply T1. reflexivity.
    + eapply hasAll_ext; eassumption.
    + intros K2 s2 E2. apply H. eapply ext_trans; eassumption.
  - destruct kt as [n|].
    + apply ok_getPartition; [apply Hk; reflexivity|]. intros K1 s1 b E1 P1. apply IH.
      * intros m Hm. eapply hasT_ext; [exact E1|]. apply Hk. exact Hm.
      * destruct b; [apply hasAll_add; [apply P1; reflexivity|]|]; eapply hasAll_ext; eassumption.
      * intros K2 s2 E2. apply H. eapply ext_trans; eassumption.
    + apply IH; [discriminate|exact Hd|exact H].
Qed.

(** Fetch *)
Definition hasFds (fds : list fdata) (K : loc -> Prop) (s : store) : Prop :=
  forall fd t p, In fd fds -> fdKp fd = Some (t, p) -> hasP t p K s.
Lemma hasFds_ext fds K K' s s' : ext K K' s s' -> hasFds fds K s -> hasFds fds K' s'.
Proof. intros E H fd t p H1 H2. eapply hasP_ext; [exact E|]. eapply H; eassumption. Qed.

Lemma fetchOne_kp s fd fd' got : fetchOne s fd = Some (fd', got) -> fdKp fd' = fdKp fd.
Proof.
  unfold fetchOne. destruct (fdKp fd) as [[t p]|] eqn:Ek; [|intros [= <- <-]; exact Ek].
  destruct (lookupPart s t p) as [kp|]; [|intros [= <- <-]; exact Ek].
  destruct (fdOff fd <? zlen (pRecs kp)); [|intros [= <- <-]; exact Ek].
  destruct (fdOff fd <? 0); [discriminate|].
  destruct (nth_error (pRecs kp) (Z.to_nat (fdOff fd))); [|discriminate].
  destruct (appendMessage _ _ _); intros [= <- <-]; cbn; auto.
Qed.
Lemma fetchOne_got s fd fd' t p : fdKp fd = Some (t, p) -> fetchOne s fd = Some (fd', true) -> fdOff fd < zlen (recs_of s t p).
Proof.
  unfold fetchOne, recs_of. intros ->. destruct (lookupPart s t p) as [kp|]; [|discriminate].
  destruct (Z.ltb_spec (fdOff fd) (zlen (pRecs kp))); [auto|discriminate].
Qed.

Lemma ok_fetchOne o fd k K s : hasFds [fd] K s ->
  (forall K' s' fd', ext K K' s s' -> fdKp fd' = fdKp fd -> ok o None K' s' (k fd')) ->
  ok o None K s (m_fetchOne fd k).
Proof.
  intros Hd H. unfold m_fetchOne. destruct (fdKp fd) as [[t p]|] eqn:Ek; [|apply H; [apply ext_refl|exact Ek]].
  destruct (Hd fd t p) as (H1 & H2 & H3 & H4); [left; reflexivity|exact Ek|].
  apply ok_lock. intros s1 R1. apply ok_read; [left; split; [right; exact H1|split; [discriminate|reflexivity]]|].
  intros s2 R2. rewrite app_nil_r. destruct (fetchOne s2 fd) as [[fd' got]|] eqn:Ef; [|apply ok_nil].
  apply ok_unlock. assert (E2 : ext K (learn (Some (MPart t p)) s2 K) s s2) by (eapply learn_ext; eassumption).
  assert (fdKp fd' = Some (t, p)) as Ek' by (rewrite <- Ek; eapply fetchOne_kp; exact Ef).
  destruct got; [|apply H; [exact E2|exact Ek']].
  cbn. apply ok_read.
  { right. left. split; [reflexivity|]. right. split; [discriminate|]. split; [reflexivity|].
    cbn. eapply fetchOne_got; eassumption. }
  intros s3 R3. cbn. apply H; [|exact Ek']. eapply ext_trans; [exact E2|]. split; [apply learn_sub|exact R3].
Qed.
Lemma hasFds_app a b K s : hasFds (a ++ b) K s <-> hasFds a K s /\ hasFds b K s.
Proof.
  split.
  - intros H. split; intros fd t p Hi; apply H; apply in_or_app; auto.
  - intros [H1 H2] fd t p Hi. apply in_app_or in Hi as [Hi|Hi]; [exact (H1 fd t p Hi)|exact (H2 fd t p Hi)].
Qed.
Lemma ok_fetchRound o k : forall todo done K s, hasFds done K s -> hasFds todo K s ->
  (forall K' s' fds, ext K K' s s' -> hasFds fds K' s' -> ok o None K' s' (k fds)) ->
  ok o None K s (m_fetchRound todo done k).
Proof.
  induction todo as [|fd todo IH]; intros done K s Hd Ht H; cbn.
  - apply H; [apply ext_refl|exact Hd].
  - apply (hasFds_app [fd] todo) in Ht as [Hf Ht]. apply ok_fetchOne; [exact Hf|]. intros K1 s1 fd' E1 Hk. apply IH.
    + apply hasFds_app. split; [eapply hasFds_ext; eassumption|].
      intros g t p [<-|[]] Hg. eapply hasFds_ext; [exact E1|exact Hf|left; reflexivity|congruence].
    + eapply hasFds_ext; eassumption.
    + intros K2 s2 fds E2. apply H. eapply ext_trans; eassumption.
Qed.
Lemma ok_fetchScan o n : forall fds K s, hasFds fds K s -> ok o None K s (m_fetchScan n fds).
Proof.
  induction n as [|n IH]; intros fds K s Hd; cbn; [apply ok_nil|].
  apply ok_fetchRound; [intros fd t p []|exact Hd|]. intros K1 s1 fds1 E1 H1. apply IH. exact H1.
Qed.
Lemma ok_fetchOpen o n : forall ops kt fds K s, (forall t, kt = Some t -> hasT t K s) -> hasFds fds K s ->
  ok o None K s (m_fetchOpen n ops kt fds).
Proof.
  induction ops as [|[t|q] ops IH]; intros kt fds K s Hk Hd; cbn [m_fetchOpen].
  - apply ok_fetchScan. exact Hd.
  - rewrite <- (app_nil_r (m_getTopic _ _)). apply ok_getTopic. intros K1 s1 b E1 T1. rewrite app_nil_r. apply IH.
    + intros m Hm. destruct b; [|discriminate]. injection Hm as <-. apply T1. reflexivity.
    + eapply hasFds_ext; eassumption.
  - destruct kt as [t|].
    + rewrite <- (app_nil_r (m_getPartition _ _ _)). apply ok_getPartition; [apply Hk; reflexivity|].
      intros K1 s1 b E1 P1. rewrite app_nil_r. apply IH.
      * intros m Hm. eapply hasT_ext; [exact E1|]. apply Hk. exact Hm.
      * apply hasFds_app. split; [eapply hasFds_ext; eassumption|].
        intros g t' p [<-|[]] Hg. cbn in Hg. destruct b; [|discriminate]. injection Hg as <- <-. apply P1. reflexivity.
    + apply IH; [discriminate|]. apply hasFds_app. split; [exact Hd|]. intros g t' p [<-|[]] Hg. discriminate.
Qed.

(** SyncGroup *)
Lemma okr_sync ch chs : okr (DSync ch chs) any (m_sync ch chs).
Proof.
  assert (Sy : syncs (DSync ch chs)) by (exists ch, chs; reflexivity).
  intros K s c _ H. apply ok_read; [right; right; right; auto|]. intros s1 R1. cbn.
  apply ok_read; [right; right; right; auto|]. intros s2 R2.
  apply (okr_flat (DSync ch chs) any); [apply stable_any| |exact Logic.I|].
  - intros t _ K1 s3 c1 _ H1. apply ok_read; [right; right; right; split; [exact Sy|right; left; eauto]|].
    intros s4 R4. cbn. apply ok_read; [right; right; right; split; [exact Sy|right; left; eauto]|]. intros s5 R5.
    set (ps := match s5 !! t with Some kt => _ | None => _ end). clearbody ps.
    assert (okr (DSync ch chs) any (map (fun p => Rd (LMade t p) (fun _ => [])) ps)) as Hm.
    { induction ps as [|p ps IH]; cbn; [apply okr_nil|].
      apply (okr_app (DSync ch chs) any [Rd (LMade t p) (fun _ => [])]); [apply stable_any| |exact IH].
      apply okr_read. intros K2 s6 _. right; right; right. split; [exact Sy|right; right; eauto]. }
    apply Hm; [exact Logic.I|]. intros K2 s6 E2. apply H1. eapply ext_trans; [|exact E2].
    split; [intros l HK; left; left; exact HK|]. eapply rely_trans; eassumption.
  - intros K1 s3 E1. apply H. eapply ext_trans; [|exact E1].
    split; [intros l HK; left; left; exact HK|]. eapply rely_trans; eassumption.
Qed.

Lemma ok_code o s : ok o None (fun _ => False) s (dsop_code o).
Proof.
  assert (forall code, okr o any code -> ok o None (fun _ => False) s code) as Hx.
  { intros code H. rewrite <- (app_nil_r code). apply H; [exact Logic.I|]. intros K' s' _. apply ok_nil. }
  destruct o as [w c|rq n|rq|rq|rq ch|ch chs]; cbn [dsop_code].
  - apply Hx. apply okr_call.
  - apply ok_fetchOpen; [discriminate|]. intros fd t p [].
  - apply Hx. apply okr_commit.
  - apply Hx. apply okr_list.
  - rewrite <- (app_nil_r (m_offOpen _ _ _ _ _)). apply ok_offOpen; [discriminate|intros t ps p []|].
    intros K' s' _. apply ok_nil.
  - apply Hx. apply okr_sync.
Qed.

Lemma inv_init ds os : inv os (finit ds os) [].
Proof.
  split; cbn; try discriminate.
  - apply map_length.
  - intros i c o Hc Ho. rewrite list_lookup_fmap, Ho in Hc. injection Hc as <-.
    exists None, (fun _ => False), ds. split; [apply ok_code|]. split; [apply rely_refl|].
    split; [intros m; split; discriminate|]. intros l [].
  - reflexivity.
Qed.

(** Whatever runs at the same time: a race is between a ListOffsets and a post to
    the same partition, or between a SyncGroup and something that creates. *)
Theorem races_known ds os is_ s tr a b e f : frun (finit ds os) is_ = (s, tr) -> race tr a b e f ->
  exists o1 o2, os !! evTid e = Some o1 /\ os !! evTid f = Some o2 /\ (pair_races o1 o2 \/ pair_races o2 o1).
Proof.
  intros E H. eapply race_kinds; [|exact H]. exact (inv_run os is_ _ [] s tr (inv_init ds os) E).
Qed.
