(** * IdleProofs: a Read that times out is not noticed *)
From Verif Require Export IdleSpec ServerProofs.
From stdpp Require Import gmap list.
Open Scope Z_scope.
Open Scope list_scope.

(** Connection [k] has come back from a Read that timed out; [k'] has not. *)
Definition lagC (k k' : conn) : Prop :=
  (k = k' \/ (cSt k = CLoop /\ cIn k' = cIn k /\ cSt k' = CRead)) /\
  (cSt k' = CRead -> getMessage (cIn k') = GNone).
Record lag (s t : sys) : Prop := {
  lg_ds : sDs t = sDs s; lg_th : sThreads t = sThreads s; lg_mono : sMono t = sMono s; lg_wall : sWall t = sWall s;
  lg_can : sCancel t = sCancel s; lg_cr : sCrash t = sCrash s; lg_port : sPort t = sPort s; lg_vers : sVers t = sVers s;
  lg_conns : Forall2 lagC (sConns s) (sConns t) }.

Lemma lag_closed l l' : Forall2 lagC l l' -> forallb closed l' = forallb closed l.
Proof.
  induction 1 as [|k k' l l' [[->|(H1 & _ & H2)] _] _ IH]; cbn [forallb]; [reflexivity|now rewrite IH|].
  unfold closed at 1 3. now rewrite H1, H2.
Qed.
Lemma lag_same c k k' s t ds : lag s t -> lagC k k' -> lag (set_conn s c k ds) (set_conn t c k' ds).
Proof.
  intros [] H. unfold set_conn. constructor; cbn; try assumption; try reflexivity.
  now apply Forall2_insert.
Qed.
Lemma lag_eq k : cSt k <> CRead -> lagC k k.
Proof. intros H. split; [now left|]. intros E. now destruct H. Qed.
Lemma lag_crash s t : lag s t -> lag (crash s) (crash t).
Proof. intros []. unfold crash. now constructor. Qed.

(** What a step without a time-out comes to. *)
Definition follows (t : sys) (ev : event) (e : list event) : Prop :=
  (e = [] /\ elsewhere [ev] = []) \/ (e = [ev] /\ forall c, ev <> EvTimeout c) \/
  (exists c x t1 t2, e = [EvTimeout c; EvConn c x] /\ elsewhere [ev] = [] /\ sCancel t = true /\
    step t (EvTimeout c) = (t1, []) /\ step t1 (EvConn c x) = (t2, [OClosed c])).

Lemma run1 s e s' o : step s e = (s', o) -> run s [e] = (s', o).
Proof. intros H. cbn. rewrite H. now rewrite app_nil_r. Qed.
Lemma follow_same t ev s' os t' : (forall c, ev <> EvTimeout c) -> step t ev = (t', os) -> lag s' t' ->
  exists e t', run t e = (t', os) /\ lag s' t' /\ follows t ev e.
Proof. intros N H L. exists [ev], t'. split; [now apply run1|]. split; [exact L|]. right; left. now split. Qed.
Lemma follow_none s t ev : elsewhere [ev] = [] -> lag s t ->
  exists e t', run t e = (t', []) /\ lag s t' /\ follows t ev e.
Proof. intros N L. exists [], t. split; [reflexivity|]. split; [exact L|]. left. now split. Qed.

Lemma lag_conn_same s t c x k : lag s t -> sConns s !! c = Some k -> sConns t !! c = Some k -> cSt k <> CRead ->
  lag (fst (conn_step s c x k)) (fst (conn_step t c x k)) /\ snd (conn_step t c x k) = snd (conn_step s c x k).
Proof.
  intros L Hs Ht N. pose proof L as [E1 E2 E3 E4 E5 E6 E7 E8 EC]. unfold conn_step, env_of. rewrite E1, E3, E4, E5, E7, E8.
  destruct (cSt k) as [| |corr extra tk|[|b bs]|] eqn:S.
  - destruct (getMessage (cIn k)) as [|msg rest|] eqn:G.
    + destruct (sCancel s); cbn [fst snd]; (split; [|reflexivity]); apply lag_same; try assumption; [apply lag_eq; discriminate|].
      split; [now left|]. now intros _.
    + destruct (beginRequest (sPort s) msg) as [[[corr extra] tk]|]; cbn [fst snd]; (split; [|reflexivity]); [|now apply lag_crash].
      apply lag_same; [assumption|]. apply lag_eq. discriminate.
    + cbn [fst snd]. split; [now apply lag_crash|reflexivity].
  - now destruct N.
  - assert (G : forall r, lag (fst match r with TCont ds tk' os => (set_conn s c (Conn (cIn k) (CBusy corr extra tk')) ds, os) | TPanic => (crash s, [OCrash c]) end)
        (fst match r with TCont ds tk' os => (set_conn t c (Conn (cIn k) (CBusy corr extra tk')) ds, os) | TPanic => (crash t, [OCrash c]) end) /\
        snd match r with TCont ds tk' os => (set_conn t c (Conn (cIn k) (CBusy corr extra tk')) ds, os) | TPanic => (crash t, [OCrash c]) end =
        snd match r with TCont ds tk' os => (set_conn s c (Conn (cIn k) (CBusy corr extra tk')) ds, os) | TPanic => (crash s, [OCrash c]) end).
    { intros [ds tk' os|]; cbn [fst snd]; (split; [|reflexivity]); [apply lag_same; [assumption|]; apply lag_eq; discriminate|now apply lag_crash]. }
    destruct tk; try apply G.
    destruct (finishRequest corr extra t0 v); cbn [fst snd]; (split; [|reflexivity]); [apply lag_same; [assumption|]; apply lag_eq; discriminate|now apply lag_crash].
  - cbn [fst snd]. split; [|reflexivity]. apply lag_same; [assumption|]. apply lag_eq. discriminate.
  - cbn [fst snd]. split; [|reflexivity]. apply lag_same; [assumption|]. apply lag_eq. destruct bs; discriminate.
  - cbn [fst snd]. now split.
Qed.

Lemma lag_lookup s t c : lag s t ->
  (sConns s !! c = None /\ sConns t !! c = None) \/
  (exists k k', sConns s !! c = Some k /\ sConns t !! c = Some k' /\ lagC k k').
Proof.
  intros L. pose proof (lg_conns _ _ L) as H. destruct (sConns s !! c) as [k|] eqn:E.
  - right. destruct (Forall2_lookup_l _ _ _ _ _ H E) as (k' & E' & K). now exists k, k'.
  - left. split; [reflexivity|]. apply lookup_ge_None. rewrite <- (Forall2_length _ _ _ H). now apply lookup_ge_None.
Qed.

Lemma set_same s c k : sConns s !! c = Some k -> set_conn s c k (sDs s) = s.
Proof. intros H. unfold set_conn. rewrite list_insert_id by assumption. now destruct s. Qed.

Lemma lag_step s t ev s' os : lag s t -> step s ev = (s', os) ->
  exists e t', run t e = (t', os) /\ lag s' t' /\ follows t ev e.
Proof.
  intros L. pose proof L as [E1 E2 E3 E4 E5 E6 E7 E8 EC]. unfold step. destruct (sCrash s) eqn:CR.
  { intros [= <- <-]. destruct ev as [c|i| |c x|c b|c|c|c|c g|d|w| |]; try (apply follow_none; [reflexivity|assumption]);
      (eapply follow_same; [discriminate|unfold step; rewrite E6, ?CR; reflexivity|assumption]). }
  destruct ev as [c|i| |c x|c b|c|c|c|c g|d|w| |].
  - destruct (call_ok c) eqn:O; intros [= <- <-].
    + eapply follow_same; [discriminate|unfold step; rewrite E6, ?CR, O; reflexivity|].
      constructor; cbn; try assumption; congruence.
    + eapply follow_same; [discriminate|unfold step; rewrite E6, ?CR, O; reflexivity|exact L].
  - destruct (sThreads s !! i) as [a|] eqn:T.
    + destruct (astep i (sWall s) (sDs s) a) as [[ds a'] o] eqn:A. intros [= <- <-].
      eapply follow_same; [discriminate|unfold step; rewrite E6, ?CR, E2, T, E4, E1, A; reflexivity|].
      constructor; cbn; try assumption; try reflexivity; congruence.
    + intros [= <- <-]. eapply follow_same; [discriminate|unfold step; rewrite E6, ?CR, E2, T; reflexivity|exact L].
  - destruct (sCancel s) eqn:C; intros [= <- <-].
    + eapply follow_same; [discriminate|unfold step; rewrite E6, ?CR, E5; reflexivity|exact L].
    + eapply follow_same; [discriminate|unfold step; rewrite E6, ?CR, E5; reflexivity|].
      constructor; cbn; try assumption; try congruence. apply Forall2_app; [assumption|]. constructor; [|constructor]. apply lag_eq. discriminate.
  - destruct (lag_lookup s t c L) as [[H1 H2]|(k & k' & H1 & H2 & K)].
    { rewrite H1. intros [= <- <-]. now apply follow_none. }
    rewrite H1. destruct K as [[<-|(K1 & K2 & K3)] KG].
    + destruct (cSt k) eqn:S; cycle 1.
      { unfold conn_step. rewrite S. intros [= <- <-]. now apply follow_none. }
      all: assert (N : cSt k <> CRead) by (rewrite S; discriminate);
        destruct (lag_conn_same s t c x k L H1 H2 N) as [G1 G2]; destruct (conn_step s c x k) as [s1 o1]; intros [= <- <-];
        (eapply follow_same; [discriminate|unfold step; rewrite E6, ?CR, H2; rewrite (surjective_pairing (conn_step t c x k)), G2; reflexivity|exact G1]).
    + destruct k as [inb st], k' as [inb' st']. cbn [cIn cSt] in *. subst. specialize (KG eq_refl).
      unfold conn_step. cbn [cSt cIn]. rewrite KG. destruct (sCancel s) eqn:C; intros [= <- <-].
      * assert (S1 : step t (EvTimeout c) = (set_conn t c (Conn inb CLoop) (sDs t), [])).
        { unfold step. now rewrite E6, ?CR, H2. }
        assert (S2 : step (set_conn t c (Conn inb CLoop) (sDs t)) (EvConn c x) =
          (set_conn t c (Conn inb CClosed) (sDs t), [OClosed c])).
        { unfold step. cbn [sCrash set_conn sConns]. rewrite E6, ?CR. rewrite list_lookup_insert by (now apply lookup_lt_Some in H2).
          unfold conn_step. cbn [cSt cIn]. rewrite KG. unfold set_conn. cbn. rewrite E5, list_insert_insert. reflexivity. }
        exists [EvTimeout c; EvConn c x], (set_conn t c (Conn inb CClosed) (sDs t)). split.
        { cbn [run]. rewrite S1, S2. reflexivity. }
        split. { rewrite E1. apply lag_same; [assumption|]. apply lag_eq. discriminate. }
        right; right. exists c, x, (set_conn t c (Conn inb CLoop) (sDs t)), (set_conn t c (Conn inb CClosed) (sDs t)).
        split; [reflexivity|]. split; [reflexivity|]. split; [exact E5|]. now split.
      * apply follow_none; [reflexivity|]. rewrite <- (set_same t c _ H2), E1. apply lag_same; [assumption|].
        split; [now left|]. now intros _.
  - destruct (lag_lookup s t c L) as [[H1 H2]|(k & k' & H1 & H2 & K)].
    { rewrite H1. intros [= <- <-]. now apply follow_none. }
    rewrite H1. destruct K as [[<-|(K1 & K2 & K3)] KG].
    + destruct k as [inb st]. cbn [cIn cSt] in *. destruct st; try (intros [= <- <-]; now apply follow_none).
      destruct ((0 <? zlen b) && (zlen b <=? 8192) && all_bytes b) eqn:V; intros [= <- <-]; [|now apply follow_none].
      eapply follow_same; [discriminate|unfold step; rewrite E6, ?CR, H2, V, E1; reflexivity|]. apply lag_same; [assumption|]. apply lag_eq. discriminate.
    + destruct k as [inb st]. cbn [cIn cSt] in *. subst. intros [= <- <-]. now apply follow_none.
  - destruct (lag_lookup s t c L) as [[H1 H2]|(k & k' & H1 & H2 & K)].
    { rewrite H1. intros [= <- <-]. now apply follow_none. }
    rewrite H1. destruct K as [[<-|(K1 & K2 & K3)] KG].
    + destruct k as [inb st]. cbn [cIn cSt] in *. destruct st; try (intros [= <- <-]; now apply follow_none).
      intros [= <- <-]. apply follow_none; [reflexivity|]. rewrite <- (set_same t c _ H2), E1. apply lag_same; [assumption|].
      split; [|exact KG]. right. now split.
    + destruct k as [inb st]. cbn [cIn cSt] in *. subst. intros [= <- <-]. now apply follow_none.
  - destruct (lag_lookup s t c L) as [[H1 H2]|(k & k' & H1 & H2 & K)].
    { rewrite H1. intros [= <- <-]. now apply follow_none. }
    rewrite H1. destruct K as [[<-|(K1 & K2 & K3)] KG].
    + destruct k as [inb st]. cbn [cIn cSt] in *. destruct st; try (intros [= <- <-]; now apply follow_none).
      intros [= <- <-]. eapply follow_same; [discriminate|unfold step; rewrite E6, ?CR, H2, E1; reflexivity|]. apply lag_same; [assumption|]. apply lag_eq. discriminate.
    + destruct k as [inb st]. cbn [cIn cSt] in *. subst. intros [= <- <-]. now apply follow_none.
  - destruct (lag_lookup s t c L) as [[H1 H2]|(k & k' & H1 & H2 & K)].
    { rewrite H1. intros [= <- <-]. now apply follow_none. }
    rewrite H1. destruct K as [[<-|(K1 & K2 & K3)] KG].
    + destruct k as [inb st]. cbn [cIn cSt] in *. destruct st; try (intros [= <- <-]; now apply follow_none).
      intros [= <- <-]. eapply follow_same; [discriminate|unfold step; rewrite E6, ?CR, H2; reflexivity|]. now apply lag_crash.
    + destruct k as [inb st]. cbn [cIn cSt] in *. subst. intros [= <- <-]. now apply follow_none.
  - destruct (lag_lookup s t c L) as [[H1 H2]|(k & k' & H1 & H2 & K)].
    { rewrite H1. intros [= <- <-]. now apply follow_none. }
    rewrite H1. destruct K as [[<-|(K1 & K2 & K3)] KG].
    + destruct k as [inb st]. cbn [cIn cSt] in *. destruct st; try (intros [= <- <-]; now apply follow_none).
      destruct g; intros [= <- <-]; (eapply follow_same; [discriminate|unfold step; rewrite E6, ?CR, H2, ?E1; reflexivity|]).
      * apply lag_same; [assumption|]. apply lag_eq. discriminate.
      * now apply lag_crash.
    + destruct k as [inb st]. cbn [cIn cSt] in *. subst. intros [= <- <-]. now apply follow_none.
  - intros [= <- <-]. eapply follow_same; [discriminate|unfold step; rewrite E6, ?CR; reflexivity|]. constructor; cbn; try assumption; congruence.
  - intros [= <- <-]. eapply follow_same; [discriminate|unfold step; rewrite E6, ?CR; reflexivity|]. constructor; cbn; try assumption; congruence.
  - intros [= <- <-]. eapply follow_same; [discriminate|unfold step; rewrite E6, ?CR; reflexivity|]. constructor; cbn; try assumption; congruence.
  - destruct (forallb closed (sConns s)) eqn:F; intros [= <- <-].
    + eapply follow_same; [discriminate|unfold step; rewrite E6, ?CR, (lag_closed _ _ EC), F; reflexivity|]. constructor; cbn; try assumption; congruence.
    + eapply follow_same; [discriminate|unfold step; rewrite E6, ?CR, (lag_closed _ _ EC), F; reflexivity|exact L].
Qed.

Lemma elsewhere_app a b : elsewhere (a ++ b) = elsewhere a ++ elsewhere b.
Proof. apply List.filter_app. Qed.
Lemma follows_elsewhere t ev e : follows t ev e -> elsewhere e = elsewhere [ev].
Proof. intros [[-> H]|[[-> _]|(c & x & t1 & t2 & -> & H & _)]]; [symmetry; exact H|reflexivity|symmetry; exact H]. Qed.

Lemma follows_close port ch evs t os ev e : run (init port ch) evs = (t, os) ->
  only_to_close port ch evs -> follows t ev e -> only_to_close port ch (evs ++ e).
Proof.
  intros R O F A c B E.
  assert (D : (exists B0, evs = A ++ EvTimeout c :: B0 /\ B = B0 ++ e) \/ (exists A1, A = evs ++ A1 /\ e = A1 ++ EvTimeout c :: B)).
  { symmetry in E. apply app_eq_inv in E as [(k & E1 & E2)|(k & E1 & E2)].
    - right. exists k. now split.
    - destruct k as [|y k]; cbn in E2.
      + right. exists []. rewrite app_nil_r in E1. rewrite app_nil_r. split; [now symmetry|]. now symmetry.
      + injection E2 as <- ->. left. now exists k. }
  destruct D as [(B0 & E1 & ->)|(A1 & -> & E2)].
  - destruct (O _ _ _ E1) as (H1 & x & B' & s & s' & -> & H2 & H3). split; [exact H1|].
    exists x, (B' ++ e), s, s'. now split.
  - destruct F as [[-> _]|[[-> N]|(c' & x & t1 & t2 & -> & _ & C & S1 & S2)]].
    + now destruct A1.
    + destruct A1 as [|? [|]]; [|discriminate|discriminate]. injection E2 as -> _. now destruct (N c).
    + destruct A1 as [|? [|? [|]]]; try discriminate. injection E2 as -> <-. rewrite app_nil_r.
      rewrite R. cbn [snd]. split; [rewrite <- (i_cancel _ _ _ _ (init_run_inv _ _ _ _ _ R)); exact C|].
      exists x, [], t1, t2. split; [reflexivity|]. split; [|exact S2].
      rewrite (run_snoc _ _ _ _ _ _ _ R S1). now rewrite app_nil_r.
Qed.

Theorem idle_unnoticed port ch evs s os : run (init port ch) evs = (s, os) ->
  exists evs' s', run (init port ch) evs' = (s', os) /\ sDs s' = sDs s /\ elsewhere evs' = elsewhere evs /\
    only_to_close port ch evs'.
Proof.
  enough (G : forall evs s os, run (init port ch) evs = (s, os) ->
    exists evs' s', run (init port ch) evs' = (s', os) /\ lag s s' /\ elsewhere evs' = elsewhere evs /\ only_to_close port ch evs').
  { intros H. destruct (G _ _ _ H) as (e & s' & H1 & H2 & H3). exists e, s'. split; [exact H1|]. split; [apply H2|exact H3]. }
  clear. induction evs as [|ev evs IH] using rev_ind; intros s os H.
  - injection H as <- <-. exists [], (init port ch). split; [reflexivity|]. split; [|split; [reflexivity|]].
    + constructor; try reflexivity. constructor.
    + intros A c B E. now destruct A.
  - apply run_snoc_inv in H as (s1 & o1 & o2 & H1 & H2 & ->). destruct (IH _ _ H1) as (e1 & t1 & R1 & L1 & W1 & O1).
    destruct (lag_step _ _ _ _ _ L1 H2) as (e2 & t2 & R2 & L2 & F). exists (e1 ++ e2), t2.
    split; [now apply (run_trans _ _ _ _ _ _ _ R1 R2)|]. split; [exact L2|].
    split; [now rewrite !elsewhere_app, W1, (follows_elsewhere _ _ _ F)|]. now apply (follows_close _ _ _ _ _ _ _ R1 O1 F).
Qed.
