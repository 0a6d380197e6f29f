(** * AtomServer: runs of critical sections are runs of Server.v. *)
From Verif Require Import ServerProofs Race AtomSpec AtomProofs.
From stdpp Require Import gmap.
Open Scope Z_scope.
Open Scope list_scope.

(** ** An operation as Server.v holds it, and its steps *)
Inductive pos := QA (a : athread) | QT (t : task) | QN.
Inductive lstep : store * pos -> store * pos -> Prop :=
| l_api ds a ds' a' w : swrap 64 w = w -> (forall i, exists os, astep i w ds a = (ds', a', os)) ->
    lstep (ds, QA a) (ds', QA a')
| l_task ds t ds' t' ch : (forall ty v, t <> TkRet ty v) ->
    (forall c e, exists os, tstep c e ch ds t = TCont ds' t' os) -> lstep (ds, QT t) (ds', QT t').

Definition at_place (s : sys) (p : place) (q : pos) : Prop :=
  match q, p with
  | QA a, PCall i => sThreads s !! i = Some a
  | QT t, PConn c => exists inb corr extra, sConns s !! c = Some (Conn inb (CBusy corr extra t))
  | QN, _ => True
  | _, _ => False
  end.

Lemma lstep_run s p ds' q q' : sCrash s = false -> at_place s p q -> lstep (sDs s, q) (ds', q') ->
  exists evs s', fst (run s evs) = s' /\ sCrash s' = false /\ sDs s' = ds' /\ at_place s' p q' /\
    forall p1 q1, p1 <> p -> at_place s p1 q1 -> at_place s' p1 q1.
Proof.
  intros Hc Hp H. inversion H as [ds a ds1 a' w Hw Ha|ds t ds1 t' ch Hn Ht]; subst.
  - destruct p as [i|c]; [|contradiction]. cbn in Hp. destruct (Ha i) as (os & E).
    exists [EvWall w; EvApi i]. eexists. split; [reflexivity|].
    cbn [run]. unfold step. rewrite Hc. cbn [sCrash sThreads sWall sDs]. rewrite Hp, Hw, E. cbn [fst sCrash sDs].
    split; [reflexivity|]. split; [reflexivity|]. split.
    + cbn. apply list_lookup_insert. eapply lookup_lt_Some. exact Hp.
    + intros [j|j] [a1|t1|] N; cbn; auto. intros H1. rewrite list_lookup_insert_ne by congruence. exact H1.
  - destruct p as [i|c]; [contradiction|]. cbn in Hp. destruct Hp as (inb & corr & extra & Hp).
    destruct (Ht c (env_of s)) as (os & E).
    exists [EvConn c ch]. eexists. split; [reflexivity|].
    cbn [run]. unfold step. rewrite Hc, Hp. unfold conn_step. cbn [cSt cIn].
    assert (match tstep c (env_of s) ch (sDs s) t with
            | TCont ds tk' os => (set_conn s c (Conn inb (CBusy corr extra tk')) ds, os)
            | TPanic => (crash s, [OCrash c]) end = (set_conn s c (Conn inb (CBusy corr extra t')) ds', os)) as E'
      by (rewrite E; reflexivity).
    destruct t; try (exfalso; eapply Hn; reflexivity); rewrite E'; cbn [fst];
      (split; [exact Hc|]; split; [reflexivity|]; split;
       [cbn; exists inb, corr, extra; apply list_lookup_insert; eapply lookup_lt_Some; exact Hp|
        intros [j|j] [a1|t1|] N; cbn; auto; intros (i1 & c1 & e1 & H1); exists i1, c1, e1;
        rewrite list_lookup_insert_ne by congruence; exact H1]).
Qed.

Lemma run_app s e1 : forall e2, fst (run s (e1 ++ e2)) = fst (run (fst (run s e1)) e2).
Proof.
  revert s. induction e1 as [|e e1 IH]; intros s e2; cbn [app run]; [reflexivity|].
  destruct (step s e) as [s1 o1]. specialize (IH s1 e2).
  destruct (run s1 (e1 ++ e2)) as [s2 o2]. destruct (run s1 e1) as [s3 o3]. cbn [fst] in *. exact IH.
Qed.
Lemma lsteps_run p x y : rtc lstep x y -> forall s, sCrash s = false -> sDs s = fst x -> at_place s p (snd x) ->
  exists evs s', fst (run s evs) = s' /\ sCrash s' = false /\ sDs s' = fst y /\ at_place s' p (snd y) /\
    forall p1 q1, p1 <> p -> at_place s p1 q1 -> at_place s' p1 q1.
Proof.
  induction 1 as [x|[ds q] [ds1 q1] z H1 H2 IH]; intros s Hc Hd Hp.
  - exists [], s. cbn. auto.
  - cbn [fst snd] in *. subst ds. destruct (lstep_run s p ds1 q q1 Hc Hp H1) as (e1 & s1 & R1 & C1 & D1 & P1 & F1).
    destruct (IH s1 C1 D1 P1) as (e2 & s2 & R2 & C2 & D2 & P2 & F2).
    exists (e1 ++ e2), s2. rewrite run_app, R1. repeat (split; [assumption|]).
    intros p2 q2 N H. apply F2, F1; assumption.
Qed.

(** ** Codes and positions *)
Definition tsOr (w : Z) (ts : option Z) : Z := match ts with Some x => x | None => w end.
Definition acode (w : Z) (a : athread) : list mop :=
  match a with
  | APostTopic t p k v h ts => m_call w (CallPost t p k v h ts)
  | APostPart t p k v h ts =>
      m_createPartition t (swrap 32 p) ++ m_postRecord t (swrap 32 p) (Rec 0 (tsOr w ts) k v h)
  | APostNow t p k v h ts => m_postRecord t (swrap 32 p) (Rec 0 (tsOr w ts) k v h)
  | APostRec t p r => m_postRecord t (swrap 32 p) r
  | ACreateTopic ts p => m_call w (CallCreate ts p)
  | ACreatePart t ts p => m_createPartition t (swrap 32 p) ++ m_call w (CallCreate ts p)
  | ASetTopic t p g o => m_call w (CallSet t p g o)
  | ASetPart t p g o =>
      m_getPartition t (swrap 32 p) (fun b => if b then
        [MLock (MPart t (swrap 32 p)); Wr (LOffs t (swrap 32 p)) (fun s => setOffset s t (swrap 32 p) g o);
         MUnlock (MPart t (swrap 32 p))] else [])
  | ASetWrite t p g o =>
      [MLock (MPart t (swrap 32 p)); Wr (LOffs t (swrap 32 p)) (fun s => setOffset s t (swrap 32 p) g o);
       MUnlock (MPart t (swrap 32 p))]
  | AReturned => []
  end.

Definition ctopics (g : bytes) (tps : list (topic_req commit_part)) : list mop :=
  flat_map (fun tp => m_getTopic (fst tp) (fun b => if b then flat_map (m_commit1 g (fst tp)) (snd tp) else [])) tps.
Definition ccode (g : bytes) (kt : option bytes) (ps : list commit_part) (tps : list (topic_req commit_part)) : list mop :=
  (match kt with Some n => flat_map (m_commit1 g n) ps | None => [] end) ++ ctopics g tps.
Definition cpend (g n : bytes) (p : commit_part) : list mop :=
  [MLock (MPart n (cpIndex p));
   Rd (LOffs n (cpIndex p)) (fun s =>
     if default 0 (offs_of s n (cpIndex p) g) <? cpOffset p
     then [Wr (LOffs n (cpIndex p)) (fun s => setOffset s n (cpIndex p) g (cpOffset p))] else []);
   MUnlock (MPart n (cpIndex p))].
Definition pairs (data : list (bytes * list Z)) : list (bytes * Z) := flat_map (fun e => map (pair (fst e)) (snd e)) data.
Definition rcode (g : bytes) (n : bytes) (ps : list Z) (data : list (bytes * list Z)) : list mop :=
  flat_map (m_offRead g) (map (pair n) ps) ++ flat_map (m_offRead g) (pairs data).
Definition made (ds : store) (data : list (bytes * list Z)) : Prop :=
  Forall (fun tp => hasPart ds (fst tp) (snd tp) = true) (pairs data).

Inductive lk (ds : store) : dsop -> pos -> list mop -> Prop :=
| lk_call w c a : swrap 64 w = w -> lk ds (DCall w c) (QA a) (acode w a)
| lk_commit rq ps tps kt acc :
    lk ds (DCommit rq) (QT (TkCommit rq (map WPart ps ++ plan tps) kt None acc)) (ccode (cqGroup rq) kt ps tps)
| lk_pend rq p n ps tps acc :
    lk ds (DCommit rq) (QT (TkCommit rq (map WPart ps ++ plan tps) (Some n) (Some p) acc))
       (cpend (cqGroup rq) n p ++ ccode (cqGroup rq) (Some n) ps tps)
| lk_cret rq t v : lk ds (DCommit rq) (QT (TkRet t v)) []
| lk_open rq ch ops kt data : made ds data ->
    lk ds (DOffset rq ch) (QT (TkOffOpen rq ops kt data)) (m_offOpen (oqGroup rq) ch ops kt data)
| lk_read rq ch n ps data acc : made ds ((n, ps) :: data) ->
    lk ds (DOffset rq ch) (QT (TkOffRead rq (map WPart ps ++ plan data) (Some n) acc)) (rcode (oqGroup rq) n ps data)
| lk_reada rq ch n p ps data acc : made ds ((n, p :: ps) :: data) ->
    lk ds (DOffset rq ch) (QT (TkOffRead rq (map WPart (p :: ps) ++ plan data) (Some n) acc))
       (m_groupCommittedOffset n p (oqGroup rq) ++ [Rd (LMade n p) (fun _ => [])] ++ rcode (oqGroup rq) n ps data)
| lk_readb rq ch n p ps data acc : made ds ((n, ps) :: data) ->
    lk ds (DOffset rq ch) (QT (TkOffRead rq (map WPart ps ++ plan data) (Some n) acc))
       ([Rd (LMade n p) (fun _ => [])] ++ rcode (oqGroup rq) n ps data)
| lk_oret rq ch t v : lk ds (DOffset rq ch) (QT (TkRet t v)) []
| lk_fetch rq n c : lk ds (DFetch rq n) QN c
| lk_list rq c : lk ds (DList rq) QN c
| lk_sync ch chs c : lk ds (DSync ch chs) QN c.

Lemma made_mono ds ds' data : gro ds ds' -> made ds data -> made ds' data.
Proof. intros G H. eapply Forall_impl; [exact H|]. intros [t p]. apply G. Qed.
Lemma lk_mono ds ds' o q c : gro ds ds' -> lk ds o q c -> lk ds' o q c.
Proof. intros G H. inversion H; subst; try (econstructor; eauto using made_mono). Qed.

(** ** Sections, computed *)
Ltac sinv := repeat match goal with H : section _ (_ :: _) _ _ |- _ => inversion H; subst; clear H; cbn in * end.
Lemma sec_createTopic s t c s' c' : section s (tl (m_createTopic t ++ c)) s' c' -> s' = createTopic s t /\ c' = c.
Proof.
  cbn. intros H. inversion H as [|s0 l k c0 s1 c1 H1| |]; subst. destruct (getTopic s t) eqn:E; cbn in *; sinv; auto.
  split; [|reflexivity]. unfold getTopic in E. unfold createTopic. destruct (_ !! t); congruence.
Qed.
Lemma sec_createPartition s t p c s' c' : section s (tl (m_createPartition t p ++ c)) s' c' -> s' = createPartition s t p /\ c' = c.
Proof.
  cbn. intros H. inversion H as [|s0 l k c0 s1 c1 H1| |]; subst. destruct (hasPart s t p) eqn:E; cbn in *; sinv; auto.
  split; [|reflexivity]. unfold hasPart, lookupPart in E. unfold createPartition.
  destruct (_ !! t) as [kt|]; [destruct (kt !! p); congruence|congruence].
Qed.
Lemma sec_get (l : loc) (m : mutex) (k : store -> list mop) s c s' c' :
  section s (Rd l (fun s => MUnlock m :: k s) :: c) s' c' -> s' = s /\ c' = k s ++ c.
Proof. intros H. sinv. auto. Qed.
Lemma sec_postRecord s t p r c s' c' : section s (tl (m_postRecord t p r ++ c)) s' c' -> s' = postRecord s t p r /\ c' = c.
Proof. cbn. intros H. sinv. auto. Qed.
Lemma sec_gco s t p g c s' c' : section s (tl (m_groupCommittedOffset t p g ++ c)) s' c' ->
  hasPart s t p = true -> s' = touchGroup s t p g /\ c' = c.
Proof.
  cbn. intros H Hp. inversion H as [|s0 l k c0 s1 c1 H1| |]; subst. unfold touchGroup. unfold offs_of in *. unfold hasPart in Hp.
  destruct (lookupPart s t p) as [kp|]; [|discriminate]. destruct (pOffs kp !! g); cbn in *; sinv; auto.
Qed.
Lemma upd_none s t p f : lookupPart s t p = None -> updPart s t p f = s.
Proof. unfold lookupPart, updPart. destruct (s !! t) as [kt|]; [|reflexivity]. intros ->. reflexivity. Qed.
Lemma sec_commit s n p g c s' c' : section s (tl (cpend g n p ++ c)) s' c' ->
  s' = commitOffset s n (cpIndex p) g (cpOffset p) /\ c' = c.
Proof.
  cbn. intros H. inversion H as [|s0 l k c0 s1 c1 H1| |]; subst. unfold commitOffset, offsetOf. unfold offs_of in *.
  destruct (lookupPart s n (cpIndex p)) as [kp|] eqn:E.
  - destruct (pOffs kp !! g) as [o|]; cbn in *; destruct (_ <? _); cbn in *; sinv; auto.
  - cbn in *. destruct (_ <? _); cbn in *; sinv; auto. split; [|reflexivity]. apply upd_none. exact E.
Qed.
Lemma sec_set s t p g o c s' c' :
  section s (Wr (LOffs t p) (fun s => setOffset s t p g o) :: MUnlock (MPart t p) :: c) s' c' ->
  s' = setOffset s t p g o /\ c' = c.
Proof. intros H. sinv. auto. Qed.

(** ** One section or read of an operation is some steps of it in Server.v *)
Lemma api1 w ds a ds' a' : swrap 64 w = w -> (forall i, exists os, astep i w ds a = (ds', a', os)) -> rtc lstep (ds, QA a) (ds', QA a').
Proof. intros Hw H. apply rtc_once. eapply l_api; eassumption. Qed.
Lemma task1 ch ds t ds' t' : (forall ty v, t <> TkRet ty v) ->
  (forall c e, exists os, tstep c e ch ds t = TCont ds' t' os) -> rtc lstep (ds, QT t) (ds', QT t').
Proof. intros Hn H. apply rtc_once. eapply l_task; eassumption. Qed.

(** The step of a thread, on its own code. *)
Inductive one : store -> list mop -> store -> list mop -> Prop :=
| one_sec s m c s' c' : section s c s' c' -> one s (MLock m :: c) s' c'
| one_read s l k c : one s (Rd l k :: c) s (k s ++ c).

Lemma one_nil s s' c' : ~ one s [] s' c'.
Proof. intros H. inversion H. Qed.
Lemma one_Rd s (l : loc) k c s' c' : one s (Rd l k :: c) s' c' -> s' = s /\ c' = k s ++ c.
Proof. intros H. inversion H; subst. auto. Qed.
Lemma one_createTopic s t c s' c' : one s (m_createTopic t ++ c) s' c' -> s' = createTopic s t /\ c' = c.
Proof. intros H. inversion H; subst. eapply sec_createTopic. eassumption. Qed.
Lemma one_createPartition s t p c s' c' : one s (m_createPartition t p ++ c) s' c' -> s' = createPartition s t p /\ c' = c.
Proof. intros H. inversion H; subst. eapply sec_createPartition. eassumption. Qed.
Lemma one_postRecord s t p r c s' c' : one s (m_postRecord t p r ++ c) s' c' -> s' = postRecord s t p r /\ c' = c.
Proof. intros H. inversion H; subst. eapply sec_postRecord. eassumption. Qed.
Lemma one_gco s t p g c s' c' : one s (m_groupCommittedOffset t p g ++ c) s' c' -> hasPart s t p = true ->
  s' = touchGroup s t p g /\ c' = c.
Proof. intros H. inversion H; subst. eapply sec_gco. eassumption. Qed.
Lemma one_commit s n p g c s' c' : one s (cpend g n p ++ c) s' c' ->
  s' = commitOffset s n (cpIndex p) g (cpOffset p) /\ c' = c.
Proof. intros H. inversion H; subst. eapply sec_commit. eassumption. Qed.
Lemma one_getTopic s t k c s' c' : one s (m_getTopic t k ++ c) s' c' -> s' = s /\ c' = k (getTopic s t) ++ c.
Proof. intros H. inversion H; subst. eapply (sec_get LTopics MDs (fun s => k (getTopic s t))). eassumption. Qed.
Lemma one_getPartition s t p k c s' c' : one s (m_getPartition t p k ++ c) s' c' -> s' = s /\ c' = k (hasPart s t p) ++ c.
Proof. intros H. inversion H; subst. eapply (sec_get (LParts t) (MTopic t) (fun s => k (hasPart s t p))). eassumption. Qed.
Lemma nil_app (c : list mop) : c = c ++ []. Proof. symmetry. apply app_nil_r. Qed.

Lemma one_api w ds a ds' c' : swrap 64 w = w -> one ds (acode w a) ds' c' ->
  exists a', rtc lstep (ds, QA a) (ds', QA a') /\ c' = acode w a'.
Proof.
  intros Hw H. destruct a as [t p k v h ts|t p k v h ts|t p k v h ts|t p r|ts p|t ts p|t p g o|t p g o|t p g o|].
  - apply one_createTopic in H as [-> ->]. exists (APostPart t p k v h ts). split; [|reflexivity].
    eapply (api1 w); [exact Hw|]. intros i. eexists. reflexivity.
  - apply one_createPartition in H as [-> ->]. exists (APostNow t p k v h ts). split; [|reflexivity].
    eapply (api1 w); [exact Hw|]. intros i. eexists. reflexivity.
  - cbn [acode] in H. rewrite (nil_app (m_postRecord _ _ _)) in H. apply one_postRecord in H as [-> ->].
    exists AReturned. split; [|reflexivity]. etransitivity; eapply (api1 w); try exact Hw; intros i; eexists; reflexivity.
  - cbn [acode] in H. rewrite (nil_app (m_postRecord _ _ _)) in H. apply one_postRecord in H as [-> ->].
    exists AReturned. split; [|reflexivity]. eapply (api1 w); [exact Hw|]. intros i. eexists. reflexivity.
  - destruct ts as [|t ts]; [inversion H|]. cbn [acode m_call flat_map] in H. rewrite <- app_assoc in H.
    apply one_createTopic in H as [-> ->]. exists (ACreatePart t ts p). split; [|reflexivity].
    eapply (api1 w); [exact Hw|]. intros i. eexists. reflexivity.
  - apply one_createPartition in H as [-> ->]. exists (ACreateTopic ts p). split; [|reflexivity].
    eapply (api1 w); [exact Hw|]. intros i. eexists. reflexivity.
  - cbn [acode m_call] in H. rewrite (nil_app (m_getTopic _ _)) in H. apply one_getTopic in H as [-> ->]. rewrite app_nil_r.
    exists (if getTopic ds t then ASetPart t p g o else AReturned). split.
    + eapply (api1 w); [exact Hw|]. intros i. cbn [astep]. destruct (getTopic ds t); eexists; reflexivity.
    + destruct (getTopic ds t); reflexivity.
  - cbn [acode] in H. rewrite (nil_app (m_getPartition _ _ _)) in H. apply one_getPartition in H as [-> ->]. rewrite app_nil_r.
    exists (if hasPart ds t (swrap 32 p) then ASetWrite t p g o else AReturned). split.
    + eapply (api1 w); [exact Hw|]. intros i. cbn [astep]. destruct (hasPart ds t (swrap 32 p)); eexists; reflexivity.
    + destruct (hasPart ds t (swrap 32 p)); reflexivity.
  - cbn [acode] in H. inversion H as [s0 m0 c0 s1 c1 HS|]; subst. apply sec_set in HS as [-> ->]. exists AReturned. split; [|reflexivity].
    eapply (api1 w); [exact Hw|]. intros i. eexists. reflexivity.
  - inversion H.
Qed.

(** An unknown topic: its partitions are answered without looking. *)
Lemma commit_skip rq ds ops : forall ps acc, exists acc',
  rtc lstep (ds, QT (TkCommit rq (map WPart ps ++ ops) None None acc)) (ds, QT (TkCommit rq ops None None acc')).
Proof.
  induction ps as [|p ps IH]; intros acc; cbn [map app]; [exists acc; reflexivity|].
  destruct (IH (add_last (cpIndex p, 3) acc)) as (acc' & H). exists acc'. etransitivity; [|exact H].
  eapply (task1 (Ch [] [])); [discriminate|]. intros c e. eexists. reflexivity.
Qed.
Lemma one_topics rq ds tps kt acc ds' c' : one ds (ctopics (cqGroup rq) tps) ds' c' ->
  exists t', rtc lstep (ds, QT (TkCommit rq (plan tps) kt None acc)) (ds', QT t') /\ lk ds' (DCommit rq) (QT t') c'.
Proof.
  destruct tps as [|[n ps] tps]; intros H; [inversion H|].
  unfold ctopics in H. cbn [flat_map fst snd] in H. apply one_getTopic in H as [-> ->].
  eexists. split.
  - unfold plan. cbn [flat_map fst snd app]. eapply (task1 (Ch [] [])); [discriminate|]. intros c e. eexists. reflexivity.
  - pose proof (lk_commit ds rq ps tps (if getTopic ds n then Some n else None) (acc ++ [(n, [])])) as L.
    unfold ccode in L. destruct (getTopic ds n); exact L.
Qed.
Lemma one_commits rq ds ps tps kt acc ds' c' : one ds (ccode (cqGroup rq) kt ps tps) ds' c' ->
  exists t', rtc lstep (ds, QT (TkCommit rq (map WPart ps ++ plan tps) kt None acc)) (ds', QT t') /\
    lk ds' (DCommit rq) (QT t') c'.
Proof.
  unfold ccode. intros H. destruct kt as [n|].
  - destruct ps as [|p ps]; [apply one_topics; exact H|].
    cbn [flat_map] in H. rewrite <- app_assoc in H. unfold m_commit1 in H. apply one_getPartition in H as [-> ->].
    destruct (hasPart ds n (cpIndex p)) eqn:E; cbn [map app].
    + eexists. split; [|apply lk_pend].
      eapply (task1 (Ch [] [])); [discriminate|]. intros c e. eexists. cbn [tstep]. rewrite E. reflexivity.
    + eexists. split; [|apply (lk_commit ds rq ps tps (Some n))].
      eapply (task1 (Ch [] [])); [discriminate|]. intros c e. eexists. cbn [tstep]. rewrite E. reflexivity.
  - destruct (commit_skip rq ds (plan tps) ps acc) as (acc' & S1).
    destruct (one_topics rq ds tps None acc' ds' c' H) as (t' & S2 & L).
    exists t'. split; [etransitivity; eassumption|exact L].
Qed.

(** The topics of an OffsetFetch reply are opened without looking. *)
Lemma made_cons ds n ps data : made ds ((n, ps) :: data) <->
  Forall (fun p => hasPart ds n p = true) ps /\ made ds data.
Proof.
  unfold made, pairs. cbn [flat_map fst snd]. rewrite Forall_app, Forall_map. reflexivity.
Qed.
Lemma made_perm ds (l l' : list (bytes * list Z)) : l ≡ₚ l' -> made ds l -> made ds l'.
Proof.
  intros P. unfold made, pairs. apply Forall_Permutation; [reflexivity|].
  induction P as [|x l l' P IH|x y l|l l' l'' P1 IH1 P2 IH2]; cbn [flat_map].
  - reflexivity.
  - apply Permutation_app_head. exact IH.
  - rewrite !app_assoc. apply Permutation_app_tail. apply Permutation_app_comm.
  - etransitivity; eassumption.
Qed.
Lemma made_add ds n p : forall data, hasPart ds n p = true -> made ds data -> made ds (add_data n p data).
Proof.
  intros data Hp. induction data as [|[n' l] data IH]; intros H; cbn [add_data].
  - apply made_cons. split; [constructor; [exact Hp|constructor]|constructor].
  - apply made_cons in H as [H1 H2]. destruct (beqb n' n) eqn:E.
    + apply bool_decide_eq_true in E. subst n'. apply made_cons. split; [|exact H2]. apply Forall_app. auto.
    + apply made_cons. auto.
Qed.

Ltac quiet := eapply (task1 (Ch [] [])); [discriminate|]; intros ? ?; eexists; cbn [tstep app map]; reflexivity.
Lemma one_readTopics rq ch ds : forall data kt acc ds' c', made ds data ->
  one ds (flat_map (m_offRead (oqGroup rq)) (pairs data)) ds' c' ->
  exists t', rtc lstep (ds, QT (TkOffRead rq (plan data) kt acc)) (ds', QT t') /\ lk ds' (DOffset rq ch) (QT t') c'.
Proof.
  induction data as [|[n ps] data IH]; intros kt acc ds' c' Hm H; [inversion H|].
  pose proof Hm as Hm0. apply made_cons in Hm as [Hps Hm].
  unfold plan. cbn [flat_map fst snd app].
  assert (rtc lstep (ds, QT (TkOffRead rq (WTopic n :: map WPart ps ++ plan data) kt acc))
            (ds, QT (TkOffRead rq (map WPart ps ++ plan data) (Some n) (acc ++ [(n, [])])))) as S1 by quiet.
  destruct ps as [|p ps].
  - destruct (IH (Some n) (acc ++ [(n, [])]) ds' c' Hm H) as (t' & S2 & L). exists t'. split; [|exact L].
    etransitivity; [exact S1|exact S2].
  - unfold pairs in H. cbn [flat_map fst snd map app] in H. apply one_Rd in H as [-> ->]. cbn [app].
    eexists. split; [exact S1|]. unfold fst, snd. rewrite <- !app_assoc.
    pose proof (lk_reada ds rq ch n p ps data (acc ++ [(n, [])]) Hm0) as L.
    unfold rcode in L. rewrite flat_map_app. exact L.
Qed.
Lemma one_reads rq ch ds n ps data acc ds' c' : made ds ((n, ps) :: data) -> one ds (rcode (oqGroup rq) n ps data) ds' c' ->
  exists t', rtc lstep (ds, QT (TkOffRead rq (map WPart ps ++ plan data) (Some n) acc)) (ds', QT t') /\
    lk ds' (DOffset rq ch) (QT t') c'.
Proof.
  intros Hm H. destruct ps as [|p ps].
  - apply one_readTopics; [|exact H]. apply made_cons in Hm. apply Hm.
  - unfold rcode in H. cbn [flat_map map app] in H. apply one_Rd in H as [-> ->]. cbn [app].
    eexists. split; [reflexivity|]. unfold fst, snd. rewrite <- !app_assoc.
    exact (lk_reada ds rq ch n p ps data acc Hm).
Qed.
Lemma one_open rq ch ds : forall ops kt data ds' c', made ds data ->
  one ds (m_offOpen (oqGroup rq) ch ops kt data) ds' c' ->
  exists t', rtc lstep (ds, QT (TkOffOpen rq ops kt data)) (ds', QT t') /\ lk ds' (DOffset rq ch) (QT t') c'.
Proof.
  induction ops as [|[n|p] ops IH]; intros kt data ds' c' Hm H; cbn [m_offOpen] in H.
  - destruct (one_readTopics rq ch ds (shuffle ch data) None [] ds' c') as (t' & S & L); [|exact H|].
    + eapply made_perm; [apply shuffle_perm|exact Hm].
    + exists t'. split; [|exact L]. etransitivity; [|exact S].
      eapply (task1 (Ch ch [])); [discriminate|]. intros c e. eexists. reflexivity.
  - rewrite (nil_app (m_getTopic _ _)) in H. apply one_getTopic in H as [-> ->]. rewrite app_nil_r.
    eexists. split; [|apply lk_open; exact Hm]. quiet.
  - destruct kt as [n|].
    + rewrite (nil_app (m_getPartition _ _ _)) in H. apply one_getPartition in H as [-> ->]. rewrite app_nil_r.
      exists (TkOffOpen rq ops (Some n) (if hasPart ds n p then add_data n p data else data)). split; [|apply lk_open].
      * eapply (task1 (Ch [] [])); [discriminate|]. intros c e. exists []. cbn [tstep]. destruct (hasPart ds n p); reflexivity.
      * destruct (hasPart ds n p) eqn:E; [|exact Hm]. apply made_add; assumption.
    + destruct (IH None data ds' c' Hm H) as (t' & S & L). exists t'. split; [|exact L]. etransitivity; [|exact S]. quiet.
Qed.

Lemma touch_gro ds n p g : gro ds (touchGroup ds n p g).
Proof.
  unfold touchGroup. destruct (lookupPart ds n p); [|apply gro_refl]. destruct (_ !! g); [apply gro_refl|].
  apply (proj1 (eff_upd ds n p _)).
Qed.
Lemma lk_one ds o q c ds' c' : lk ds o q c -> q <> QN -> one ds c ds' c' ->
  exists q', rtc lstep (ds, q) (ds', q') /\ lk ds' o q' c' .
Proof.
  intros L Hq H. destruct L as [w c0 a Hw|rq ps tps kt acc|rq p n ps tps acc|rq t v|rq ch ops kt data Hm|rq ch n ps data acc Hm
    |rq ch n p ps data acc Hm|rq ch n p ps data acc Hm|rq ch t v|rq n c|rq c|ch chs c]; try congruence; try (inversion H; fail).
  - destruct (one_api w ds a ds' c' Hw H) as (a' & S & ->). exists (QA a'). split; [exact S|]. constructor. exact Hw.
  - destruct (one_commits rq ds ps tps kt acc ds' c' H) as (t' & S & L). eauto.
  - apply one_commit in H as [-> ->]. eexists. split; [|apply (lk_commit _ rq ps tps (Some n))].
    eapply (task1 (Ch [] [])); [discriminate|]. intros c e. eexists. reflexivity.
  - destruct (one_open rq ch ds ops kt data ds' c' Hm H) as (t' & S & L). eauto.
  - destruct (one_reads rq ch ds n ps data acc ds' c' Hm H) as (t' & S & L). eauto.
  - pose proof Hm as Hm0. apply made_cons in Hm as [Hps Hm]. inversion Hps as [|p0 ps0 Hp Hps']; subst.
    apply one_gco in H as [-> ->]; [|exact Hp].
    unfold hasPart in Hp. destruct (lookupPart ds n p) as [kp|] eqn:E; [|discriminate].
    eexists. split; [|apply (lk_readb _ rq ch n p ps data)].
    + eapply (task1 (Ch [] [])); [discriminate|]. intros c e. eexists. cbn [map app tstep]. rewrite E. reflexivity.
    + apply made_cons. split.
      * eapply Forall_impl; [exact Hps'|]. intros x. apply touch_gro.
      * eapply made_mono; [apply touch_gro|exact Hm].
  - cbn [app] in H. apply one_Rd in H as [-> ->]. cbn [app]. eexists. split; [reflexivity|]. constructor. exact Hm.
Qed.

(** Nothing left to do: the operation returns. *)
Definition ended (q : pos) : Prop :=
  match q with QA a => a = AReturned | QT (TkRet _ _) => True | QT _ => False | QN => True end.
Lemma read_end rq ds : forall data kt acc, pairs data = [] ->
  exists t', rtc lstep (ds, QT (TkOffRead rq (plan data) kt acc)) (ds, QT t') /\ ended (QT t').
Proof.
  induction data as [|[n ps] data IH]; intros kt acc H.
  - eexists. split; [|instantiate (1 := TkRet _ _); exact Logic.I]. quiet.
  - unfold pairs in H. cbn [flat_map fst snd] in H. apply app_eq_nil in H as [H1 H2].
    destruct ps; [|discriminate]. destruct (IH (Some n) (acc ++ [(n, [])]) H2) as (t' & S & E).
    exists t'. split; [|exact E]. etransitivity; [|exact S]. quiet.
Qed.
Lemma flat_nil g l : flat_map (m_offRead g) l = [] -> l = [].
Proof. destruct l; [reflexivity|discriminate]. Qed.
Lemma open_end rq ch ds : forall ops kt data, m_offOpen (oqGroup rq) ch ops kt data = [] ->
  exists t', rtc lstep (ds, QT (TkOffOpen rq ops kt data)) (ds, QT t') /\ ended (QT t').
Proof.
  induction ops as [|[n|p] ops IH]; intros kt data H; cbn [m_offOpen] in H.
  - apply flat_nil in H. destruct (read_end rq ds (shuffle ch data) None [] H) as (t' & S & E).
    exists t'. split; [|exact E]. etransitivity; [|exact S].
    eapply (task1 (Ch ch [])); [discriminate|]. intros c e. eexists. reflexivity.
  - discriminate.
  - destruct kt as [n|]; [discriminate|]. destruct (IH None data H) as (t' & S & E). exists t'. split; [|exact E].
    etransitivity; [|exact S]. quiet.
Qed.
Lemma lk_end ds o q : lk ds o q [] -> exists q', rtc lstep (ds, q) (ds, q') /\ ended q'.
Proof.
  intros L. remember [] as c eqn:Ec in L. destruct L as [w c0 a Hw|rq ps tps kt acc|rq p n ps tps acc|rq t v|rq ch ops kt data Hm|rq ch n ps data acc Hm
    |rq ch n p ps data acc Hm|rq ch n p ps data acc Hm|rq ch t v|rq n c|rq c|ch chs c];
    try discriminate; try (eexists; split; [reflexivity|exact Logic.I]).
  - destruct a as [| | | |ts p| | | | |]; try discriminate.
    + destruct ts; [|discriminate]. exists (QA AReturned). split; [|reflexivity].
      eapply (api1 w); [exact Hw|]. intros i. eexists. reflexivity.
    + exists (QA AReturned). split; reflexivity.
  - unfold ccode in Ec. apply app_eq_nil in Ec as [E1 E2]. destruct tps; [|discriminate].
    assert (forall kt acc, exists q', rtc lstep (ds, QT (TkCommit rq [] kt None acc)) (ds, q') /\ ended q') as Hend.
    { intros kt0 acc0. eexists. split; [|instantiate (1 := QT (TkRet _ _)); exact Logic.I]. quiet. }
    destruct kt as [n|].
    + destruct ps; [|discriminate]. apply Hend.
    + destruct (commit_skip rq ds (plan []) ps acc) as (acc' & S1). destruct (Hend None acc') as (q' & S2 & E).
      exists q'. split; [|exact E]. etransitivity; [exact S1|exact S2].
  - destruct (open_end rq ch ds ops kt data Ec) as (t' & S & E). eauto.
  - unfold rcode in Ec. apply app_eq_nil in Ec as [E1 E2]. apply flat_nil in E1. destruct ps; [|discriminate].
    apply flat_nil in E2. destruct (read_end rq ds data (Some n) acc E2) as (t' & S & E). eauto.
Qed.

(** ** Fetch, ListOffsets and SyncGroup leave the store alone *)
Inductive ro : list mop -> Prop :=
| ro_nil : ro []
| ro_lock m c : ro c -> ro (MLock m :: c)
| ro_unlock m c : ro c -> ro (MUnlock m :: c)
| ro_read l k c : (forall s, ro (k s ++ c)) -> ro (Rd l k :: c).
Lemma ro_section s c s' c' : section s c s' c' -> ro c -> s' = s /\ ro c'.
Proof.
  induction 1 as [s m c|s l k c s' c' _ IH|s l u c s' c' _ IH|s l c s' c' _ IH]; intros H; inversion H; subst; auto.
Qed.
Lemma ro_one s c s' c' : one s c s' c' -> ro c -> s' = s /\ ro c'.
Proof.
  intros H R. destruct H as [s m c s' c' HS|s l k c]; inversion R; subst; auto. eapply ro_section; eassumption.
Qed.
Lemma ro_getTopic t k c : (forall b, ro (k b ++ c)) -> ro (m_getTopic t k ++ c).
Proof. intros H. do 2 constructor. intros s. constructor. apply H. Qed.
Lemma ro_getPartition t p k c : (forall b, ro (k b ++ c)) -> ro (m_getPartition t p k ++ c).
Proof. intros H. do 2 constructor. intros s. constructor. apply H. Qed.
Lemma ro_flat {A} (f : A -> list mop) (l : list A) : (forall x c, ro c -> ro (f x ++ c)) -> forall c, ro c -> ro (flat_map f l ++ c).
Proof. intros Hf. induction l as [|x l IH]; intros c H; cbn; [exact H|]. rewrite <- app_assoc. auto. Qed.
Lemma ro_fetchOne fd k : (forall fd', ro (k fd')) -> ro (m_fetchOne fd k).
Proof.
  intros H. unfold m_fetchOne. destruct (fdKp fd) as [[t p]|]; [|apply H]. do 2 constructor. intros s. rewrite app_nil_r.
  destruct (fetchOne s fd) as [[fd' got]|]; [|constructor]. constructor. destruct got; cbn; [constructor; intros|]; apply H.
Qed.
Lemma ro_fetchRound todo : forall done k, (forall fds, ro (k fds)) -> ro (m_fetchRound todo done k).
Proof. induction todo as [|fd todo IH]; intros done k H; cbn; [apply H|]. apply ro_fetchOne. intros fd'. apply IH, H. Qed.
Lemma ro_fetchScan n : forall fds, ro (m_fetchScan n fds).
Proof. induction n as [|n IH]; intros fds; cbn; [constructor|]. apply ro_fetchRound, IH. Qed.
Lemma ro_fetchOpen n ops : forall kt fds, ro (m_fetchOpen n ops kt fds).
Proof.
  induction ops as [|[t|p] ops IH]; intros kt fds; cbn [m_fetchOpen].
  - apply ro_fetchScan.
  - rewrite (nil_app (m_getTopic _ _)). apply ro_getTopic. intros b. rewrite app_nil_r. apply IH.
  - destruct kt as [t|]; [|apply IH]. rewrite (nil_app (m_getPartition _ _ _)). apply ro_getPartition. intros b.
    rewrite app_nil_r. apply IH.
Qed.
Lemma ro_scan t p T n : forall c, ro c -> ro (m_list_scan t p T n ++ c).
Proof.
  induction n as [|n IH]; intros c H; cbn; [exact H|]. constructor. intros s1. constructor. intros s2.
  destruct (_ <? _); [exact H|]. apply IH, H.
Qed.
Lemma ro_list rq : ro (m_list rq).
Proof.
  unfold m_list. rewrite (nil_app (flat_map _ _)). apply ro_flat; [|constructor].
  intros [t ps] c H. cbn [fst snd]. apply ro_getTopic. intros b. destruct b; [|exact H].
  apply ro_flat; [|exact H]. clear c H. intros p c H. unfold m_list1. apply ro_getPartition. intros b.
  destruct b; [|exact H]. destruct (_ =? _); [|destruct (_ =? _)]; cbn [app].
  - constructor. intros s. exact H.
  - constructor. intros s. destruct (recs_of s t (lpIndex p)); cbn [app]; [exact H|]. constructor. intros s1. constructor. intros s2. exact H.
  - constructor. intros s. apply ro_scan, H.
Qed.
Lemma ro_sync ch chs : ro (m_sync ch chs).
Proof.
  unfold m_sync. constructor. intros s1. constructor. intros s2. apply ro_flat; [|constructor].
  intros t c H. unfold m_sync_topic. cbn [app]. constructor. intros s4. constructor. intros s5.
  generalize (match s5 !! t with Some kt => shuffle (chs t) (map fst (map_to_list kt)) | None => [] end). intros ps.
  induction ps as [|p ps IH]; cbn [map app]; [exact H|]. constructor. intros s6. exact IH.
Qed.

(** ** All operations together *)
Lemma after_det m c c1 s s' c' : after m c c1 -> section s c s' c' -> s' = s /\ c' = c1.
Proof. induction 1; intros H1; inversion H1; subst; auto. Qed.
Lemma insec_section (P : Prop) s c s' c' : section s c s' c' -> forall m, insec P m s c -> gro s s' /\ good P s' c'.
Proof.
  induction 1 as [s m c|s l k c s' c' _ IH|s l u c s' c' HS IH|s l c s' c' _ IH]; intros m0 H.
  - inversion H; subst. split; [apply gro_refl|assumption].
  - inversion H as [| |m1 s1 l1 k1 c1 _ Hc| |]; subst. apply (IH m0). apply Hc, rel_refl.
  - inversion H as [| | | |m1 s1 l1 u1 c1 c2 Hu Ha Hg]; subst. destruct (after_det _ _ _ _ _ _ Ha HS) as [-> ->].
    split; [apply (Hu s (rel_refl _ _))|]. apply Hg, rel_refl.
  - inversion H; subst. apply (IH m0). assumption.
Qed.
Lemma good_one (P : Prop) s c s' c' : one s c s' c' -> good P s c -> gro s s' /\ good P s' c'.
Proof.
  intros H G. destruct H as [s m c s' c' HS|s l k c]; inversion G as [|s1 l1 k1 c1 Hr|s1 m1 c1 Hl]; subst.
  - eapply insec_section; [exact HS|]. apply Hl, gro_refl.
  - split; [apply gro_refl|]. apply Hr, gro_refl.
Qed.
Lemma bstep_one x y : bstep x y -> exists i c c', snd x !! i = Some c /\ one (fst x) c (fst y) c' /\ snd y = <[i := c']> (snd x).
Proof.
  intros H. destruct H as [s th i m c s' c' Hi HS|s th i l k c Hi]; exists i; eexists _, _; (split; [exact Hi|]); (split; [|reflexivity]); constructor.
  exact HS.
Qed.

Definition glob (os : list dsop) (ps : list place) (ds : store) (th : list (list mop)) (S : sys) : Prop :=
  length th = length os /\ sDs S = ds /\ sCrash S = false /\
  forall j o c p, os !! j = Some o -> th !! j = Some c -> ps !! j = Some p ->
    good (fetches_negative o) ds c /\ exists q, at_place S p q /\ lk ds o q c /\ (q = QN -> ro c).

Lemma glob_step os ps x y S : NoDup ps -> length ps = length os -> bstep x y -> glob os ps (fst x) (snd x) S ->
  exists evs, glob os ps (fst y) (snd y) (fst (run S evs)).
Proof.
  intros ND Hps HB (HL & HD & HC & HT). destruct (bstep_one _ _ HB) as (i & c & c' & Hi & HO & ->).
  pose proof (lookup_lt_Some _ _ _ Hi) as Hlt.
  destruct (lookup_lt_is_Some_2 os i) as [o Ho]; [lia|]. destruct (lookup_lt_is_Some_2 ps i) as [p Hp]; [lia|].
  destruct (HT i o c p Ho Hi Hp) as (Hg & q & Ha & Hl & Hr).
  destruct (good_one _ _ _ _ _ HO Hg) as [G Hg'].
  assert (exists evs S' q', fst (run S evs) = S' /\ sCrash S' = false /\ sDs S' = fst y /\ at_place S' p q' /\
            lk (fst y) o q' c' /\ (q' = QN -> ro c') /\
            forall p1 q1, p1 <> p -> at_place S p1 q1 -> at_place S' p1 q1) as (evs & S' & q' & R & C' & D' & A' & L' & Q' & F').
  { assert (q = QN \/ q <> QN) as [->|Hq'] by (destruct q; [right|right|left]; congruence).
    - destruct (ro_one _ _ _ _ HO (Hr eq_refl)) as [E R]. rewrite E.
      exists [], S, QN. cbn. repeat (split; [assumption || reflexivity || exact Logic.I|]).
      inversion Hl; subst; (split; [constructor|]); auto.
    - destruct (lk_one _ _ _ _ _ _ Hl Hq' HO) as (q' & ST & L').
      destruct (lsteps_run p _ _ ST S HC HD Ha) as (evs & S' & R & C' & D' & A' & F').
      exists evs, S', q'. repeat (split; [assumption|]). split; [|exact F'].
      intros ->. exfalso. inversion L'; subst; inversion Hl; subst; congruence. }
  exists evs. rewrite R. split; [rewrite insert_length; exact HL|]. split; [exact D'|]. split; [exact C'|].
  intros j o1 c1 p1 Ho1 Hc1 Hp1. destruct (decide (j = i)) as [->|N].
  - rewrite list_lookup_insert in Hc1 by exact Hlt. simplify_eq. split; [exact Hg'|]. exists q'. auto.
  - rewrite list_lookup_insert_ne in Hc1 by congruence. destruct (HT j o1 c1 p1 Ho1 Hc1 Hp1) as (Hg1 & q1 & Ha1 & Hl1 & Hr1).
    split; [eapply good_mono; eassumption|]. exists q1. split; [|split; [eapply lk_mono; eassumption|exact Hr1]].
    apply F'; [|exact Ha1]. intros ->. apply N. eapply NoDup_lookup; eassumption.
Qed.
Lemma glob_run os ps x y : NoDup ps -> length ps = length os -> brun x y -> forall S, glob os ps (fst x) (snd x) S ->
  exists evs, glob os ps (fst y) (snd y) (fst (run S evs)).
Proof.
  intros ND Hps. induction 1 as [x|x y z H1 H2 IH]; intros S HG.
  - exists []. exact HG.
  - destruct (glob_step os ps x y S ND Hps H1 HG) as (e1 & G1). destruct (IH _ G1) as (e2 & G2).
    exists (e1 ++ e2). rewrite run_app. exact G2.
Qed.

Lemma glob_init os ps S : sCrash S = false ->
  (forall w c, In (DCall w c) os -> swrap 64 w = w) ->
  (forall j o p, os !! j = Some o -> ps !! j = Some p -> starts_at S o p) ->
  glob os ps (sDs S) (map dsop_code os) S.
Proof.
  intros HC HW HP. split; [apply map_length|]. split; [reflexivity|]. split; [exact HC|].
  intros j o c p Ho Hc Hp. rewrite list_lookup_fmap, Ho in Hc. injection Hc as <-. split; [apply good_dsop|].
  specialize (HP j o p Ho Hp). destruct o as [w c|rq n|rq|rq|rq ch|ch chs]; cbn [starts_at] in HP.
  - destruct p as [i|i]; [|contradiction]. exists (QA (startCall c)). split; [exact HP|]. split; [|discriminate].
    replace (dsop_code (DCall w c)) with (acode w (startCall c)) by (destruct c; reflexivity).
    constructor. apply (HW w c). apply elem_of_list_In. eapply elem_of_list_lookup_2. exact Ho.
  - exists QN. split; [exact Logic.I|]. split; [constructor|]. intros _. apply ro_fetchOpen.
  - destruct p as [i|i]; [contradiction|]. exists (QT (TkCommit rq (plan (cqTopics rq)) None None [])). split; [exact HP|]. split; [|discriminate].
    exact (lk_commit (sDs S) rq [] (cqTopics rq) None []).
  - exists QN. split; [exact Logic.I|]. split; [constructor|]. intros _. apply ro_list.
  - destruct p as [i|i]; [contradiction|]. exists (QT (TkOffOpen rq (plan (oqTopics rq)) None [])). split; [exact HP|]. split; [|discriminate].
    constructor. constructor.
  - exists QN. split; [exact Logic.I|]. split; [constructor|]. intros _. apply ro_sync.
Qed.

(** The finished ones return, one after the other. *)
Definition done_at (os : list dsop) (ps : list place) (th : list (list mop)) (S : sys) (j : nat) : Prop :=
  forall o p, os !! j = Some o -> ps !! j = Some p -> th !! j = Some [] -> exists q, at_place S p q /\ ended q /\ lk (sDs S) o q [].
Lemma lsteps_kind x y : rtc lstep x y ->
  match snd x, snd y with QA _, QA _ | QT _, QT _ | QN, QN => True | _, _ => False end.
Proof.
  induction 1 as [x|x y z H1 H2 IH]; [destruct (snd x); exact Logic.I|]. destruct H1; exact IH.
Qed.
Lemma lk_end_lk ds o q : lk ds o q [] -> exists q', rtc lstep (ds, q) (ds, q') /\ ended q' /\ lk ds o q' [].
Proof.
  intros L. destruct (lk_end ds o q L) as (q' & S & E). exists q'. split; [exact S|]. split; [exact E|].
  apply lsteps_kind in S. cbn [snd] in S.
  inversion L; subst; repeat match goal with H : _ = [] |- _ => rewrite H end; destruct q' as [a'|t'|]; try contradiction; cbn in E;
    try (subst a'; match goal with H : swrap 64 ?w = _ |- lk _ (DCall _ ?c) _ _ => exact (lk_call ds w c AReturned H) end);
    try (destruct t'; try contradiction); constructor.
Qed.
Lemma finish_all os ps th : NoDup ps -> length ps = length os -> length th = length os ->
  forall n S, glob os ps (sDs S) th S -> (n <= length os)%nat -> (forall j, (j < n)%nat -> done_at os ps th S j) ->
  exists evs, let S' := fst (run S evs) in sDs S' = sDs S /\ sCrash S' = false /\ forall j, (j < length os)%nat -> done_at os ps th S' j.
Proof.
  intros ND Hps Hth. intros n. remember (length os - n)%nat as k eqn:Ek. revert n Ek.
  induction k as [|k IH]; intros n Ek S HG Hn HD.
  - exists []. cbn. split; [reflexivity|]. split; [apply HG|]. intros j Hj. apply HD. lia.
  - assert (exists evs, let S1 := fst (run S evs) in glob os ps (sDs S1) th S1 /\ sDs S1 = sDs S /\
              forall j, (j < Datatypes.S n)%nat -> done_at os ps th S1 j) as (e1 & G1 & D1 & E1).
    { destruct (lookup_lt_is_Some_2 os n) as [o Ho]; [lia|]. destruct (lookup_lt_is_Some_2 ps n) as [p Hp]; [lia|].
      destruct (lookup_lt_is_Some_2 th n) as [c Hc]; [lia|].
      destruct c as [|x c].
      2:{ exists []. cbn. split; [exact HG|]. split; [reflexivity|]. intros j Hj. destruct (decide (j = n)) as [->|N].
          - intros o1 p1 _ _ E. congruence.
          - apply HD. lia. }
      destruct HG as (HL & _ & HC & HT). destruct (HT n o [] p Ho Hc Hp) as (Hg & q & Ha & Hl & Hr).
      destruct (lk_end_lk _ _ _ Hl) as (q' & ST & En & Hl').
      destruct (lsteps_run p _ _ ST S HC eq_refl Ha) as (evs & S' & R & C' & D' & A' & F').
      cbn [fst snd] in D', A'. exists evs. cbn zeta. rewrite R. split; [|split].
      - split; [exact HL|]. split; [reflexivity|]. split; [exact C'|]. intros j o1 c1 p1 Ho1 Hc1 Hp1. rewrite D'.
        destruct (decide (j = n)) as [->|N].
        + assert (o1 = o) as -> by congruence. assert (c1 = []) as -> by congruence. assert (p1 = p) as -> by congruence.
          split; [exact Hg|]. exists q'. split; [exact A'|]. split; [exact Hl'|]. intros ->. constructor.
        + destruct (HT j o1 c1 p1 Ho1 Hc1 Hp1) as (Hg1 & q1 & Ha1 & Hl1 & Hr1).
          split; [exact Hg1|]. exists q1. split; [|auto]. apply F'; [|exact Ha1]. intros ->. apply N. eapply NoDup_lookup; eassumption.
      - exact D'.
      - intros j Hj o1 p1 Ho1 Hp1 Hc1. rewrite D'. destruct (decide (j = n)) as [->|N].
        + assert (o1 = o) as -> by congruence. assert (p1 = p) as -> by congruence. exists q'. auto.
        + destruct (HD j ltac:(lia) o1 p1 Ho1 Hp1 Hc1) as (q1 & Ha1 & En1 & Hl1). exists q1. split; [|auto].
          apply F'; [|exact Ha1]. intros ->. apply N. eapply NoDup_lookup; eassumption. }
    destruct (IH (Datatypes.S n) ltac:(lia) _ G1 ltac:(lia) E1) as (e2 & D2 & C2 & E2).
    exists (e1 ++ e2). cbn zeta. rewrite run_app. split; [congruence|]. split; [exact C2|exact E2].
Qed.

Theorem server_reaches S ps os is_ s tr :
  frun (finit (sDs S) os) is_ = (s, tr) -> sCrash S = false ->
  (forall w c, In (DCall w c) os -> swrap 64 w = w) ->
  NoDup ps -> length ps = length os ->
  (forall j o p, os !! j = Some o -> ps !! j = Some p -> starts_at S o p) ->
  exists evs, let S' := fst (run S evs) in
    sDs S' = fDs s /\ sCrash S' = false /\
    forall j o p, os !! j = Some o -> ps !! j = Some p ->
      fTh s !! j = Some [] -> (forall m, fMu s m <> Some j) -> ends_at S' o p.
Proof.
  intros H HC HW ND Hps HP. destruct (sections_atomic _ _ _ _ _ H) as (th & B & HT).
  destruct (glob_run os ps _ _ ND Hps B S (glob_init os ps S HC HW HP)) as (e1 & G1). cbn [fst snd] in G1.
  destruct (finish_all os ps th ND Hps (proj1 G1) 0 (fst (run S e1))) as (e2 & D2 & C2 & E2).
  - destruct G1 as (A1 & A2 & A3). rewrite A2. split; [exact A1|]. split; [exact A2|exact A3].
  - lia.
  - intros j Hj. lia.
  - exists (e1 ++ e2). cbn zeta. rewrite run_app. split; [rewrite D2; apply G1|]. split; [exact C2|].
    intros j o p Ho Hp Hf Hm. destruct (E2 j) with (o := o) (p := p) as (q & Ha & En & Hl); try assumption.
    + eapply lookup_lt_Some. exact Ho.
    + rewrite HT by exact Hm. exact Hf.
    + inversion Hl; subst; cbn [ends_at at_place] in *; try exact Logic.I.
      * destruct p; [|contradiction]. cbn in En. subst. exact Ha.
      * contradiction.
      * destruct p; [contradiction|]. destruct Ha as (inb & corr & extra & Ha). eauto 8.
      * contradiction.
      * contradiction.
      * destruct p; [contradiction|]. destruct Ha as (inb & corr & extra & Ha). eauto 8.
Qed.
