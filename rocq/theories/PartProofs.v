(** * PartProofs: partition numbers of API calls count modulo 2^32 *)
From Verif Require Export PartSpec ServerProofs Demo.
From stdpp Require Import gmap list.
Open Scope Z_scope.
Open Scope list_scope.

Lemma swrap32_same p q : swrap 32 p = swrap 32 q <-> same_number p q.
Proof.
  unfold same_number, swrap. change (2 ^ (32 - 1)) with 2147483648. change (2 ^ 32) with 4294967296.
  pose proof (Z.div_mod (p + 2147483648) 4294967296 ltac:(lia)) as Hp.
  pose proof (Z.div_mod (q + 2147483648) 4294967296 ltac:(lia)) as Hq. split.
  - intros E. exists ((q + 2147483648) / 4294967296 - (p + 2147483648) / 4294967296). lia.
  - intros [k ->]. replace (p + k * 4294967296 + 2147483648) with (p + 2147483648 + k * 4294967296) by lia.
    now rewrite Z.mod_add by lia.
Qed.

(** Threads that differ only in congruent partition numbers. *)
Inductive rthread : athread -> athread -> Prop :=
| rt_1 t p q k v h ts : swrap 32 p = swrap 32 q -> rthread (APostTopic t p k v h ts) (APostTopic t q k v h ts)
| rt_2 t p q k v h ts : swrap 32 p = swrap 32 q -> rthread (APostPart t p k v h ts) (APostPart t q k v h ts)
| rt_3 t p q k v h ts : swrap 32 p = swrap 32 q -> rthread (APostNow t p k v h ts) (APostNow t q k v h ts)
| rt_4 t p q r : swrap 32 p = swrap 32 q -> rthread (APostRec t p r) (APostRec t q r)
| rt_5 ts p q : swrap 32 p = swrap 32 q -> rthread (ACreateTopic ts p) (ACreateTopic ts q)
| rt_6 t ts p q : swrap 32 p = swrap 32 q -> rthread (ACreatePart t ts p) (ACreatePart t ts q)
| rt_7 t p q g o : swrap 32 p = swrap 32 q -> rthread (ASetTopic t p g o) (ASetTopic t q g o)
| rt_8 t p q g o : swrap 32 p = swrap 32 q -> rthread (ASetPart t p g o) (ASetPart t q g o)
| rt_9 t p q g o : swrap 32 p = swrap 32 q -> rthread (ASetWrite t p g o) (ASetWrite t q g o)
| rt_10 : rthread AReturned AReturned.
Lemma rthread_astep i w ds a b : rthread a b ->
  let '(ds1, a', o1) := astep i w ds a in let '(ds2, b', o2) := astep i w ds b in
  ds1 = ds2 /\ rthread a' b' /\ o1 = o2.
Proof.
  destruct 1 as [t p q k v h ts E|t p q k v h ts E|t p q k v h ts E|t p q r E|ts p q E|t ts p q E|t p q g o E|t p q g o E|t p q g o E|];
    cbn [astep]; rewrite ?E; try (repeat split; now constructor).
  - destruct ts; repeat split; now constructor.
  - destruct (getTopic ds t); repeat split; now constructor.
  - destruct (hasPart ds t (swrap 32 q)); repeat split; now constructor.
Qed.
Lemma renumbered_start c c' : renumbered c c' -> rthread (startCall c) (startCall c').
Proof. destruct 1 as [t p q k v h ts E|ts p q E|t p q g o E]; apply swrap32_same in E; now constructor. Qed.

Definition with_threads (s : sys) (l : list athread) : sys :=
  Sys (sDs s) (sConns s) l (sMono s) (sWall s) (sCancel s) (sCrash s) (sPort s) (sVers s).
Definition rsys (s1 s2 : sys) : Prop := exists l, s2 = with_threads s1 l /\ Forall2 rthread (sThreads s1) l.
Lemma rsys_refl_like s l : Forall2 rthread (sThreads s) l -> rsys s (with_threads s l).
Proof. intros H. exists l. auto. Qed.
Lemma conn_step_threads s l c ch k : fst (conn_step (with_threads s l) c ch k) = with_threads (fst (conn_step s c ch k)) l /\
  snd (conn_step (with_threads s l) c ch k) = snd (conn_step s c ch k) /\ sThreads (fst (conn_step s c ch k)) = sThreads s.
Proof.
  unfold conn_step. change (env_of (with_threads s l)) with (env_of s). cbn [sCancel sPort sDs with_threads].
  destruct (cSt k) as [| |corr extra tk|[|b bs]|]; try (repeat split; reflexivity).
  - destruct (getMessage (cIn k)); [destruct (sCancel s); repeat split| |repeat split].
    destruct (beginRequest (sPort s) msg) as [[[? ?] ?]|]; repeat split.
  - destruct tk; try (destruct (tstep c (env_of s) ch (sDs s) _); repeat split; reflexivity).
    destruct (finishRequest corr extra t v); repeat split.
Qed.
Lemma rstep s1 s2 e1 e2 : rsys s1 s2 -> renumbered_ev e1 e2 ->
  rsys (fst (step s1 e1)) (fst (step s2 e2)) /\ snd (step s1 e1) = snd (step s2 e2).
Proof.
  intros (l & -> & Hl) He.
  assert (K : forall s, sThreads s = sThreads s1 -> rsys s (with_threads s l)) by (intros s E; exists l; rewrite E; auto).
  unfold step. cbn [sCrash with_threads]. destruct (sCrash s1) eqn:Ecr; [split; [apply K|]; reflexivity|].
  destruct He as [ev|c c' Hc Hok Hok'].
  - destruct ev as [cl|j| |d chh|d chunk|d|d|d|d gone|d|w| |].
    + destruct (call_ok cl); [|split; [apply K|]; reflexivity]. split; [|reflexivity].
      exists (l ++ [startCall cl]). split; [reflexivity|]. cbn. apply Forall2_app; [assumption|]. constructor; [|constructor].
      destruct cl; constructor; reflexivity.
    + cbn [sThreads with_threads sWall sDs]. destruct (sThreads s1 !! j) as [a|] eqn:Ea.
      * destruct (Forall2_lookup_l _ _ _ _ _ Hl Ea) as (b & Eb & Hab). rewrite Eb.
        pose proof (rthread_astep j (sWall s1) (sDs s1) a b Hab) as H.
        destruct (astep j (sWall s1) (sDs s1) a) as [[ds1 a'] o1]. destruct (astep j (sWall s1) (sDs s1) b) as [[ds2 b'] o2].
        destruct H as (-> & Hab' & ->). split; [|reflexivity]. exists (<[j := b']> l). split; [reflexivity|]. cbn. now apply Forall2_insert.
      * pose proof (Forall2_length _ _ _ Hl) as Hlen. apply lookup_ge_None in Ea. rewrite (proj2 (lookup_ge_None l j)) by lia. split; [apply K|]; reflexivity.
    + cbn. destruct (sCancel s1); (split; [|reflexivity]); [now apply K|]. exists l. auto.
    + cbn [sConns with_threads]. destruct (sConns s1 !! d) as [k|]; [|split; [apply K|]; reflexivity].
      destruct (conn_step_threads s1 l d chh k) as (E1 & E2 & E3). rewrite E1, E2. split; [now apply K|reflexivity].
    + cbn. destruct (sConns s1 !! d) as [[inb []]|]; try (split; [now apply K|reflexivity]).
      destruct (_ && _); (split; [|reflexivity]); [exists l; auto|now apply K].
    + cbn. destruct (sConns s1 !! d) as [[inb []]|]; (split; [|reflexivity]); now apply K.
    + cbn. destruct (sConns s1 !! d) as [[inb []]|]; (split; [|reflexivity]); now apply K.
    + cbn. destruct (sConns s1 !! d) as [[inb []]|]; (split; [|reflexivity]); now apply K.
    + cbn. destruct (sConns s1 !! d) as [[inb []]|]; try (split; [now apply K|reflexivity]).
      destruct gone; (split; [|reflexivity]); exists l; auto.
    + split; [|reflexivity]. exists l; auto.
    + cbn. split; [|reflexivity]. exists l; auto.
    + split; [|reflexivity]. exists l; auto.
    + cbn. destruct (forallb closed (sConns s1)); (split; [|reflexivity]); [exists l; auto|now apply K].
  - rewrite Hok, Hok'. split; [|reflexivity]. exists (l ++ [startCall c']). split; [reflexivity|]. cbn.
    apply Forall2_app; [assumption|]. constructor; [now apply renumbered_start|constructor].
Qed.
Lemma rrun e1 e2 : Forall2 renumbered_ev e1 e2 -> forall s1 s2, rsys s1 s2 ->
  rsys (fst (run s1 e1)) (fst (run s2 e2)) /\ snd (run s1 e1) = snd (run s2 e2).
Proof.
  induction 1 as [|x y e1 e2 Hxy _ IH]; intros s1 s2 Hs; [auto|]. cbn [run].
  destruct (rstep _ _ _ _ Hs Hxy) as [H1 H2]. destruct (step s1 x) as [s1' o1], (step s2 y) as [s2' o2]. cbn [fst snd] in *. subst o2.
  destruct (IH _ _ H1) as [H3 H4]. destruct (run s1' e1) as [t1 q1], (run s2' e2) as [t2 q2]. cbn [fst snd] in *. now rewrite H4.
Qed.
Theorem numbers_wrap port ch e1 e2 : Forall2 renumbered_ev e1 e2 ->
  snd (run (init port ch) e1) = snd (run (init port ch) e2).
Proof. intros H. apply (rrun _ _ H). exists []. split; [reflexivity|constructor]. Qed.
(** Other numbers are told apart. *)
Lemma create_trace port ch t p : call_ok (CallCreate [t] p) = true ->
  snd (run (init port ch) [EvCall (CallCreate [t] p); EvApi 0; EvApi 0; EvApi 0]) = [OTopic 0 t; OMade 0 t (swrap 32 p); OReturn 0].
Proof. intros H. unfold run, step. cbn [sCrash init]. rewrite H. reflexivity. Qed.
Theorem numbers_differ port ch t p q : all_bytes t = true -> int64 p = true -> int64 q = true ->
  snd (run (init port ch) [EvCall (CallCreate [t] p); EvApi 0; EvApi 0; EvApi 0]) =
  snd (run (init port ch) [EvCall (CallCreate [t] q); EvApi 0; EvApi 0; EvApi 0]) -> same_number p q.
Proof.
  intros Ht Hp Hq. rewrite !create_trace by (cbn; now rewrite Ht, ?Hp, ?Hq). intros E. apply swrap32_same. congruence.
Qed.

(** A record posted to partition [p], one to partition 0, both fetched. *)
Definition part_demo (p : Z) : list event :=
  [EvCall (CallPost topicA p (Some [1]) (Some [2]) [] (Some 5)); EvApi 0; EvApi 0; EvApi 0; EvApi 0;
   EvCall (CallPost topicA 0 None (Some [3]) [] (Some 6)); EvApi 1; EvApi 1; EvApi 1; EvApi 1; EvAccept; EvConn 0 ch0;
   EvRecv 0 (w_frame (w_request 1 2 8 clientA (w_fetch_req (-1) 0 1 [(topicA, [(0, 0, 1000)])])))] ++
  repeat (EvConn 0 ch0) 40.
