(** * ServerProofs: invariants of all runs *)
From Verif Require Export StoreProofs.
From Coq Require Import Permutation.
From stdpp Require Import gmap list.
Open Scope Z_scope.
Open Scope list_scope.

Lemma Forall_mono {A} (P Q : A -> Prop) l : (forall x, P x -> Q x) -> Forall P l -> Forall Q l.
Proof. induction 2; auto. Qed.

(** ** Iteration orders *)
Lemma pick_perm {A} n (l : list A) x r : pick n l = Some (x, r) -> Permutation l (x :: r).
Proof.
  revert l x r. induction n as [|n IH]; intros [|y l] x r; cbn; try discriminate.
  - intros [= -> ->]. reflexivity.
  - destruct (pick n l) as [[z r']|] eqn:E.
    + intros [= -> <-]. rewrite (IH _ _ _ E). apply perm_swap.
    + intros [= -> ->]. reflexivity.
Qed.
Lemma pick_some {A} n (l : list A) : l <> [] -> exists x r, pick n l = Some (x, r).
Proof.
  revert l. induction n as [|n IH]; intros [|y l] H; try congruence; cbn; [eauto|].
  destruct (pick n l) as [[z r']|]; eauto.
Qed.
Lemma shuffle_n_perm {A} n ch (l : list A) : length l = n -> Permutation l (shuffle_n n ch l).
Proof.
  revert ch l. induction n as [|n IH]; intros ch l H; cbn.
  - now destruct l.
  - destruct l as [|y l]; [discriminate|].
    destruct (pick_some (hd 0%nat ch) (y :: l)) as (x & r & E); [discriminate|]. rewrite E.
    pose proof (pick_perm _ _ _ _ E) as P. rewrite P. constructor. apply IH.
    apply Permutation_length in P. cbn in *. lia.
Qed.
Lemma shuffle_perm {A} ch (l : list A) : Permutation l (shuffle ch l).
Proof. now apply shuffle_n_perm. Qed.
Lemma pick_mid {A} (a : list A) x b : pick (length a) (a ++ x :: b) = Some (x, a ++ b).
Proof. induction a as [|y a IH]; cbn; [reflexivity|]. now rewrite IH. Qed.
(** Every order is a possible one. *)
Lemma shuffle_n_any {A} n (l l' : list A) : length l = n -> Permutation l l' ->
  exists ch, shuffle_n n ch l = l'.
Proof.
  revert l l'. induction n as [|n IH]; intros l l' Hn P.
  - destruct l; [|discriminate]. apply Permutation_nil in P. subst. now exists [].
  - destruct l' as [|x l']; [apply Permutation_sym, Permutation_nil in P; now subst|].
    assert (Hx : In x l) by (apply Permutation_in with (x :: l'); [now symmetry|now left]).
    apply in_split in Hx as (a & b & ->).
    assert (P' : Permutation (a ++ b) l').
    { apply Permutation_cons_inv with x. now rewrite <- P, Permutation_middle. }
    destruct (IH (a ++ b) l') as [ch Hch]; [|assumption|].
    { rewrite app_length in *. cbn in Hn. lia. }
    exists (length a :: ch). cbn. now rewrite pick_mid, Hch.
Qed.
Lemma shuffle_any {A} (l l' : list A) : Permutation l l' -> exists ch, shuffle ch l = l'.
Proof. now apply shuffle_n_any. Qed.

(** ** Runs *)
Lemma run_app s e1 e2 :
  run s (e1 ++ e2) = (fst (run (fst (run s e1)) e2), snd (run s e1) ++ snd (run (fst (run s e1)) e2)).
Proof.
  revert s. induction e1 as [|ev e1 IH]; intros s; cbn.
  - now destruct (run s e2).
  - destruct (step s ev) as [s1 o1]. rewrite IH. destruct (run s1 e1) as [s2 o2]. cbn.
    now rewrite app_assoc.
Qed.
Lemma run_snoc s evs ev s1 o1 s2 o2 :
  run s evs = (s1, o1) -> step s1 ev = (s2, o2) -> run s (evs ++ [ev]) = (s2, o1 ++ o2).
Proof. intros H1 H2. rewrite run_app, H1. cbn. rewrite H2. cbn. now rewrite app_nil_r. Qed.
Lemma run_snoc_inv s evs ev s' os : run s (evs ++ [ev]) = (s', os) ->
  exists s1 o1 o2, run s evs = (s1, o1) /\ step s1 ev = (s', o2) /\ os = o1 ++ o2.
Proof.
  rewrite run_app. destruct (run s evs) as [s1 o1] eqn:E. cbn.
  destruct (step s1 ev) as [s2 o2] eqn:E2. cbn. rewrite app_nil_r.
  intros [= <- <-]. now exists s1, o1, o2.
Qed.
Lemma run_app_inv s e1 e2 s' os : run s (e1 ++ e2) = (s', os) ->
  exists s1 o1 o2, run s e1 = (s1, o1) /\ run s1 e2 = (s', o2) /\ os = o1 ++ o2.
Proof.
  rewrite run_app. destruct (run s e1) as [s1 o1]. cbn. destruct (run s1 e2) as [s2 o2] eqn:E2. cbn.
  intros [= <- <-]. now exists s1, o1, o2.
Qed.
Lemma run_trans s e1 s1 o1 e2 s2 o2 :
  run s e1 = (s1, o1) -> run s1 e2 = (s2, o2) -> run s (e1 ++ e2) = (s2, o1 ++ o2).
Proof. intros H1 H2. rewrite run_app, H1. cbn. now rewrite H2. Qed.

Lemma step_crashed s ev : sCrash s = true -> step s ev = (s, []).
Proof. unfold step. now intros ->. Qed.
Lemma run_crashed s evs : sCrash s = true -> run s evs = (s, []).
Proof. intros H. induction evs as [|ev evs IH]; cbn; [reflexivity|]. now rewrite step_crashed, IH. Qed.

(** ** Handlers hold only pointers that lead somewhere *)
Definition kt_ok (ds : store) (kt : option bytes) : Prop := forall n, kt = Some n -> getTopic ds n = true.
Definition fd_ok (ds : store) (fd : fdata) : Prop :=
  forall t p, fdKp fd = Some (t, p) -> hasPart ds t p = true.
Fixpoint ops_ok (ds : store) (kt : option bytes) (ops : list (wop Z)) : Prop :=
  match ops with
  | [] => True
  | WTopic n :: ops' => ops_ok ds (Some n) ops'
  | WPart p :: ops' => (exists n, kt = Some n /\ hasPart ds n p = true) /\ ops_ok ds kt ops'
  end.
Definition task_ok (ds : store) (tk : task) : Prop :=
  match tk with
  | TkFetchOpen _ _ kt fds => kt_ok ds kt /\ Forall (fd_ok ds) fds
  | TkFetchScan _ _ _ _ d t => Forall (fd_ok ds) d /\ Forall (fd_ok ds) t
  | TkFetchPoll _ _ fds | TkFetchSleep _ _ _ fds => Forall (fd_ok ds) fds
  | TkCommit _ _ kt pend _ =>
      kt_ok ds kt /\ forall p, pend = Some p -> exists n, kt = Some n /\ hasPart ds n (cpIndex p) = true
  | TkList _ _ kt pend _ =>
      kt_ok ds kt /\ forall p, pend = Some p -> exists n, kt = Some n /\ hasPart ds n (lpIndex p) = true
  | TkOffOpen _ _ kt data =>
      kt_ok ds kt /\ forall n l p, In (n, l) data -> In p l -> hasPart ds n p = true
  | TkOffRead _ ops kt _ => ops_ok ds kt ops
  | TkRet _ _ | TkVersions | TkSync => True
  end.

Lemma kt_ok_grows ds ds' kt : grows ds ds' -> kt_ok ds kt -> kt_ok ds' kt.
Proof. intros [H _] Hk n Hn. auto. Qed.
Lemma fd_ok_grows ds ds' fd : grows ds ds' -> fd_ok ds fd -> fd_ok ds' fd.
Proof. intros [_ H] Hk t p Hn. auto. Qed.
Lemma fds_ok_grows ds ds' fds : grows ds ds' -> Forall (fd_ok ds) fds -> Forall (fd_ok ds') fds.
Proof. intros H. apply Forall_mono. intros fd. now apply fd_ok_grows. Qed.
Lemma ops_ok_grows ds ds' kt ops : grows ds ds' -> ops_ok ds kt ops -> ops_ok ds' kt ops.
Proof.
  intros [H1 H2]. revert kt. induction ops as [|[n|p] ops IH]; cbn; intros kt; auto.
  intros [(n & Hn & Hp) Ho]. split; eauto.
Qed.
Lemma task_ok_grows ds ds' tk : grows ds ds' -> task_ok ds tk -> task_ok ds' tk.
Proof.
  intros G. destruct tk; cbn; auto.
  - intros [? ?]. eauto using kt_ok_grows, fds_ok_grows.
  - intros [? ?]. eauto using kt_ok_grows, fds_ok_grows.
  - eauto using kt_ok_grows, fds_ok_grows.
  - eauto using kt_ok_grows, fds_ok_grows.
  - intros [H1 H2]. split; [eauto using kt_ok_grows|]. intros p Hp.
    destruct (H2 p Hp) as (n & ? & ?). exists n. split; [assumption|]. now apply G.
  - intros [H1 H2]. split; [eauto using kt_ok_grows|]. intros p Hp.
    destruct (H2 p Hp) as (n & ? & ?). exists n. split; [assumption|]. now apply G.
  - intros [H1 H2]. split; [eauto using kt_ok_grows|]. intros n l p Hn Hp. apply G. eauto.
  - now apply ops_ok_grows.
Qed.

Lemma add_data_in name pi data n l p :
  In (n, l) (add_data name pi data) -> In p l ->
  (n = name /\ p = pi) \/ exists l', In (n, l') data /\ In p l'.
Proof.
  induction data as [|[n' l'] data IH]; cbn.
  - intros [[= <- <-]|[]]. intros [<-|[]]. now left.
  - unfold beqb. destruct (bool_decide_reflect (n' = name)) as [->|Hne].
    + intros [[= <- <-]|Hin] Hp.
      * apply in_app_iff in Hp as [Hp|[<-|[]]]; [|now left]. right. exists l'. auto.
      * right. exists l. auto.
    + intros [[= <- <-]|Hin] Hp.
      * right. exists l'. auto.
      * destruct (IH Hin Hp) as [?|(l'' & ? & ?)]; [now left|]. right. exists l''. auto.
Qed.

Lemma plan_cons {P} (t : topic_req P) ts : plan (t :: ts) = WTopic (fst t) :: map WPart (snd t) ++ plan ts.
Proof. reflexivity. Qed.

Lemma ops_ok_parts ds n l ops :
  (forall p, In p l -> hasPart ds n p = true) -> ops_ok ds (Some n) ops -> ops_ok ds (Some n) (map WPart l ++ ops).
Proof.
  intros Hl Ho. induction l as [|p l IH]; [assumption|]. cbn. split.
  - exists n. split; [reflexivity|]. apply Hl. now left.
  - apply IH. intros q Hq. apply Hl. now right.
Qed.
Lemma ops_ok_plan ds (data : list (topic_req Z)) kt :
  (forall n l p, In (n, l) data -> In p l -> hasPart ds n p = true) -> ops_ok ds kt (plan data).
Proof.
  revert kt. induction data as [|[n l] data IH]; intros kt H; [exact I|].
  rewrite plan_cons. cbn [fst snd ops_ok]. apply ops_ok_parts.
  - intros p Hp. eapply H; [now left|assumption].
  - apply IH. intros. eapply H; [right|]; eassumption.
Qed.

Lemma fetchOne_kp ds fd fd' b : fetchOne ds fd = Some (fd', b) -> fdKp fd' = fdKp fd.
Proof.
  unfold fetchOne. destruct (fdKp fd) as [[t p]|] eqn:E; [|now intros [= <- _]].
  destruct (lookupPart ds t p); [|now intros [= <- _]].
  destruct (_ <? _); [|now intros [= <- _]].
  destruct (_ <? _); [discriminate|].
  destruct (nth_error _ _); [|discriminate].
  destruct (appendMessage _ _ _); intros [= <- _]; [reflexivity|assumption].
Qed.

Lemma fetchFinish_inv ds rq fds ds' tk' o : fetchFinish ds rq fds = TCont ds' tk' o ->
  ds' = ds /\ o = [] /\ exists v, fetchReply rq fds = Some v /\ tk' = TkRet tFetchResp v.
Proof. unfold fetchFinish. destruct (fetchReply rq fds); [|discriminate]. intros [= <- <- <-]. eauto. Qed.

Lemma getTopic_if ds n : kt_ok ds (if getTopic ds n then Some n else None).
Proof. intros m. destruct (getTopic ds n) eqn:E; [|discriminate]. now intros [= <-]. Qed.

(** One step of a handler keeps all this, and the store is described by the
    trace afterwards too. *)
Lemma tstep_ok os c e ch ds tk ds' tk' o :
  store_ok os ds -> task_ok ds tk -> tstep c e ch ds tk = TCont ds' tk' o ->
  store_ok (os ++ o) ds' /\ task_ok ds' tk' /\ grows ds ds'.
Proof.
  intros Hs Hk H.
  assert (Hsn : store_ok (os ++ []) ds) by now rewrite app_nil_r.
  pose proof (grows_refl ds) as Hg.
  destruct tk; cbn [tstep task_ok] in *.
  - injection H as <- <- <-. auto.
  - injection H as <- <- <-. auto.
  - destruct (syncReply _ _ _); [|discriminate]. injection H as <- <- <-. auto.
  - destruct Hk as [Hkt Hfd]. destruct ops as [|[n|p] ops].
    + injection H as <- <- <-. cbn. auto.
    + injection H as <- <- <-. cbn. auto using getTopic_if.
    + injection H as <- <- <-. cbn. split_and!; auto.
      apply Forall_app. split; [assumption|]. constructor; [|constructor].
      intros t q. cbn. destruct kt as [m|]; [|discriminate].
      destruct (hasPart ds m (fpIndex p)) eqn:E; [|discriminate]. now intros [= <- <-].
  - destruct Hk as [Hd Ht]. destruct todo as [|fd todo].
    + destruct more.
      * injection H as <- <- <-. cbn. auto.
      * destruct (_ || _).
        -- apply fetchFinish_inv in H as (-> & -> & v & _ & ->). cbn. auto.
        -- injection H as <- <- <-. cbn. auto.
    + destruct (fetchOne ds fd) as [[fd' got]|] eqn:E; [|discriminate].
      injection H as <- <- <-. cbn. inversion Ht as [|? ? Hfd Ht']; subst. split_and!; auto.
      apply Forall_app. split; [assumption|]. constructor; [|constructor].
      intros t q. rewrite (fetchOne_kp _ _ _ _ E). apply Hfd.
  - destruct (eCancel e).
    + apply fetchFinish_inv in H as (-> & -> & v & _ & ->). cbn. auto.
    + injection H as <- <- <-. cbn. auto.
  - destruct (_ <=? _); injection H as <- <- <-; cbn; auto.
  - destruct Hk as [Hkt Hp]. destruct pend as [p|].
    + destruct (Hp p eq_refl) as (n & -> & Hpart). injection H as <- <- <-. cbn.
      pose proof (grows_commit ds n (cpIndex p) (cqGroup rq) (cpOffset p)) as G.
      split_and!; try apply G; try discriminate.
      * now apply store_ok_commit.
      * eapply kt_ok_grows; eauto.
    + destruct ops as [|[n|p] ops].
      * injection H as <- <- <-. cbn. auto.
      * injection H as <- <- <-. cbn. split_and!; auto using getTopic_if; discriminate.
      * destruct kt as [n|]; [destruct (hasPart ds n (cpIndex p)) eqn:E|].
        -- injection H as <- <- <-. cbn. split_and!; auto. intros p' [= <-]. eauto.
        -- injection H as <- <- <-. cbn. split_and!; auto; discriminate.
        -- injection H as <- <- <-. cbn. split_and!; auto; discriminate.
  - destruct Hk as [Hkt Hp]. destruct pend as [p|].
    + destruct (Hp p eq_refl) as (n & -> & Hpart). injection H as <- <- <-. cbn.
      split_and!; auto; discriminate.
    + destruct ops as [|[n|p] ops].
      * injection H as <- <- <-. cbn. auto.
      * injection H as <- <- <-. cbn. split_and!; auto using getTopic_if; discriminate.
      * destruct kt as [n|]; [destruct (hasPart ds n (lpIndex p)) eqn:E|].
        -- injection H as <- <- <-. cbn. split_and!; auto. intros p' [= <-]. eauto.
        -- injection H as <- <- <-. cbn. split_and!; auto; discriminate.
        -- injection H as <- <- <-. cbn. split_and!; auto; discriminate.
  - destruct Hk as [Hkt Hd]. destruct ops as [|[n|p] ops].
    + injection H as <- <- <-. cbn. split_and!; auto.
      apply ops_ok_plan. intros n l p Hn Hp. apply (Hd n l p); [|assumption].
      eapply Permutation_in; [symmetry; apply shuffle_perm|eassumption].
    + injection H as <- <- <-. cbn. split_and!; auto using getTopic_if.
    + destruct kt as [n|]; [destruct (hasPart ds n p) eqn:E|].
      * injection H as <- <- <-. cbn. split_and!; auto.
        intros n' l p' Hn Hp. destruct (add_data_in _ _ _ _ _ _ Hn Hp) as [[-> ->]|(l' & ? & ?)]; eauto.
      * injection H as <- <- <-. cbn. auto.
      * injection H as <- <- <-. cbn. auto.
  - destruct ops as [|[n|p] ops].
    + injection H as <- <- <-. cbn. auto.
    + injection H as <- <- <-. cbn. auto.
    + cbn in Hk. destruct Hk as [(n & -> & Hpart) Hops].
      destruct (lookupPart ds n p); [|discriminate]. injection H as <- <- <-. cbn.
      pose proof (grows_touch ds n p (oqGroup rq)) as G. rewrite app_nil_r. split.
      { now apply store_ok_touch. } split; [|assumption].
      eapply ops_ok_grows; eauto.
Qed.

(** The same for calls of the API. *)
Definition thread_ok (ds : store) (a : athread) : Prop :=
  match a with
  | APostPart t _ _ _ _ _ | ACreatePart t _ _ | ASetPart t _ _ _ => getTopic ds t = true
  | APostNow t p _ _ _ _ | APostRec t p _ | ASetWrite t p _ _ => hasPart ds t (swrap 32 p) = true
  | _ => True
  end.
Lemma thread_ok_grows ds ds' a : grows ds ds' -> thread_ok ds a -> thread_ok ds' a.
Proof. intros [G1 G2]. destruct a; cbn; auto. Qed.

Lemma hasPart_createPartition ds t p : getTopic ds t = true -> hasPart (createPartition ds t p) t p = true.
Proof.
  intros H. unfold hasPart. rewrite lookupPart_createPartition by assumption.
  rewrite same_refl. now destruct (lookupPart ds t p).
Qed.
Lemma neutral_return i : Forall neutral [OReturn i].
Proof. repeat constructor. Qed.

Lemma astep_ok os i w ds a ds' a' o :
  store_ok os ds -> thread_ok ds a -> astep i w ds a = (ds', a', o) ->
  store_ok (os ++ o) ds' /\ thread_ok ds' a' /\ grows ds ds'.
Proof.
  intros Hs Ha H. pose proof (grows_refl ds) as Hg.
  destruct a; cbn [astep thread_ok] in *.
  - injection H as <- <- <-. cbn [thread_ok]. split_and!; [now apply store_ok_topic| |apply grows_createTopic].
    now rewrite getTopic_createTopic, bool_decide_true.
  - injection H as <- <- <-. cbn [thread_ok]. split_and!; [now apply store_ok_made| |apply grows_createPartition].
    now apply hasPart_createPartition.
  - injection H as <- <- <-. rewrite app_nil_r. cbn [thread_ok]. auto.
  - injection H as <- <- <-. split_and!; [|exact I|apply grows_updPart].
    change [OPosted i t (swrap 32 p) r; OReturn i] with ([OPosted i t (swrap 32 p) r] ++ [OReturn i]).
      rewrite app_assoc. apply store_ok_neutral; [apply neutral_return|]. now apply store_ok_post.
  - destruct ts as [|t ts]; injection H as <- <- <-.
    + cbn [thread_ok]. split_and!; auto; apply store_ok_neutral; auto using neutral_return.
    + cbn [thread_ok]. split_and!; [now apply store_ok_topic| |apply grows_createTopic].
      now rewrite getTopic_createTopic, bool_decide_true.
  - injection H as <- <- <-. cbn [thread_ok]. split_and!; [now apply store_ok_made|exact I|apply grows_createPartition].
  - destruct (getTopic ds t) eqn:E; injection H as <- <- <-; cbn [thread_ok].
    + rewrite app_nil_r. auto.
    + split_and!; auto; apply store_ok_neutral; auto using neutral_return.
  - destruct (hasPart ds t _) eqn:E; injection H as <- <- <-; cbn [thread_ok].
    + rewrite app_nil_r. auto.
    + split_and!; auto; apply store_ok_neutral; auto using neutral_return.
  - injection H as <- <- <-. split_and!; [|exact I|apply grows_updPart].
    change [OSet i t (swrap 32 p) g o0; OReturn i] with ([OSet i t (swrap 32 p) g o0] ++ [OReturn i]).
      rewrite app_assoc. apply store_ok_neutral; [apply neutral_return|]. now apply store_ok_set.
  - injection H as <- <- <-. rewrite app_nil_r. cbn [thread_ok]. auto.
Qed.

(** ** The invariant of all runs *)
Definition conn_ok (ds : store) (k : conn) : Prop :=
  match cSt k with CBusy _ _ tk => task_ok ds tk | _ => True end.

(** Strings, keys and values are bytes; time does not run backwards. *)
Definition obs_bytes (o : obs) : Prop :=
  match o with
  | OTopic _ t => all_bytes t = true
  | OPosted _ t _ r => all_bytes t = true /\ obytes (rKey r) = true /\ obytes (rVal r) = true
  | OClock d => 0 <= d
  | _ => True
  end.
Definition thread_bytes (a : athread) : Prop :=
  match a with
  | APostTopic t _ k v _ _ | APostPart t _ k v _ _ | APostNow t _ k v _ _ =>
      all_bytes t = true /\ obytes k = true /\ obytes v = true
  | APostRec t _ r => all_bytes t = true /\ obytes (rKey r) = true /\ obytes (rVal r) = true
  | ACreateTopic ts _ | ACreatePart _ ts _ => Forall (fun t => all_bytes t = true) ts
  | _ => True
  end.
Lemma startCall_bytes c : call_ok c = true -> thread_bytes (startCall c).
Proof.
  destruct c; cbn; [|intros H|trivial].
  - intros H. apply andb_true_iff in H as [H _]. apply andb_true_iff in H as [H _]. apply andb_true_iff in H as [H H3].
    apply andb_true_iff in H as [H1 H2]. auto.
  - apply andb_true_iff in H as [H _]. apply Forall_forall. intros x Hx. rewrite forallb_forall in H. apply H. now apply elem_of_list_In.
Qed.
Lemma astep_bytes i w ds a ds' a' o : thread_bytes a -> astep i w ds a = (ds', a', o) ->
  thread_bytes a' /\ Forall obs_bytes o.
Proof.
  destruct a; cbn; intros Ha H.
  1-4: injection H as <- <- <-; cbn; split; [tauto|]; repeat constructor; tauto.
  - destruct ts as [|t ts]; injection H as <- <- <-; cbn; [repeat constructor|].
    inversion Ha; subst. split; [assumption|]. repeat constructor; assumption.
  - injection H as <- <- <-. cbn. split; [assumption|]. repeat constructor.
  - destruct (getTopic ds t); injection H as <- <- <-; cbn; repeat constructor.
  - destruct (hasPart ds t _); injection H as <- <- <-; cbn; repeat constructor.
  - injection H as <- <- <-. cbn. repeat constructor.
  - injection H as <- <- <-. cbn. repeat constructor.
Qed.

Record inv (port : Z) (vers : gmap Z vrange) (os : list obs) (s : sys) : Prop := {
  i_store : store_ok os (sDs s);
  i_conns : Forall (conn_ok (sDs s)) (sConns s);
  i_threads : Forall (thread_ok (sDs s)) (sThreads s);
  i_tbytes : Forall thread_bytes (sThreads s);
  i_obytes : Forall obs_bytes os;
  i_now : sMono s = tr_now os;
  i_wall : sWall s = tr_wall os;
  i_cancel : sCancel s = tr_cancelled os;
  i_crash : sCrash s = crashed os;
  i_port : sPort s = port;
  i_vers : sVers s = vers
}.

(** Observations without effect on clock, cancellation and crash. *)
Definition quiet (o : obs) : Prop :=
  match o with OClock _ | OWall _ | OCancel | ORestart | OCrash _ => False | _ => True end.
Lemma quiet_now os l : Forall quiet l -> tr_now (os ++ l) = tr_now os.
Proof.
  intros H. unfold tr_now. rewrite fold_left_app. generalize (fold_left (fun n o => match o with OClock d => n + d | _ => n end) os 0).
  induction H as [|o l Ho _ IH]; [reflexivity|]. intros z. destruct o; try contradiction; exact (IH z).
Qed.
Lemma quiet_wall os l : Forall quiet l -> tr_wall (os ++ l) = tr_wall os.
Proof.
  intros H. unfold tr_wall. rewrite fold_left_app. generalize (fold_left (fun n o => match o with OWall w => w | _ => n end) os 0).
  induction H as [|o l Ho _ IH]; [reflexivity|]. intros z. destruct o; try contradiction; exact (IH z).
Qed.
Lemma quiet_cancelled os l : Forall quiet l -> tr_cancelled (os ++ l) = tr_cancelled os.
Proof.
  intros H. unfold tr_cancelled. rewrite fold_left_app.
  generalize (fold_left (fun b o => match o with OCancel => true | ORestart => false | _ => b end) os false).
  induction H as [|o l Ho _ IH]; [reflexivity|]. intros z. destruct o; try contradiction; exact (IH z).
Qed.
Lemma quiet_crashed os l : Forall quiet l -> crashed (os ++ l) = crashed os.
Proof.
  intros H. rewrite crashed_app. replace (crashed l) with false; [apply orb_false_r|].
  induction H as [|o l Ho _ IH]; [reflexivity|]. destruct o; try contradiction; exact IH.
Qed.
Lemma crash_now os l c : Forall quiet l -> tr_now (os ++ l ++ [OCrash c]) = tr_now os.
Proof. intros H. rewrite app_assoc. unfold tr_now at 1. rewrite fold_left_app. now apply (quiet_now os l). Qed.

Lemma tstep_quiet c e ch ds tk ds' tk' o : tstep c e ch ds tk = TCont ds' tk' o -> Forall quiet o.
Proof.
  assert (F : forall rq fds, fetchFinish ds rq fds = TCont ds' tk' o -> Forall quiet o).
  { intros rq fds H. apply fetchFinish_inv in H as (_ & -> & _). constructor. }
  destruct tk; cbn; intros H;
  repeat match type of H with
  | context [match ?x with _ => _ end] => destruct x; try discriminate
  end; try (injection H as _ _ <-; repeat constructor); eauto.
Qed.
Lemma tstep_bytes c e ch ds tk ds' tk' o : tstep c e ch ds tk = TCont ds' tk' o -> Forall obs_bytes o.
Proof.
  assert (F : forall rq fds, fetchFinish ds rq fds = TCont ds' tk' o -> Forall obs_bytes o).
  { intros rq fds H. apply fetchFinish_inv in H as (_ & -> & _). constructor. }
  destruct tk; cbn; intros H;
  repeat match type of H with
  | context [match ?x with _ => _ end] => destruct x; try discriminate
  end; try (injection H as _ _ <-; repeat constructor); eauto.
Qed.
Lemma astep_quiet i w ds a ds' a' o : astep i w ds a = (ds', a', o) -> Forall quiet o.
Proof.
  destruct a; cbn; intros H;
  repeat match type of H with
  | context [match ?x with _ => _ end] => destruct x; try discriminate
  end; injection H as _ _ <-; repeat constructor.
Qed.

Lemma Forall_insert_conn (P : conn -> Prop) l i x : Forall P l -> P x -> Forall P (<[i := x]> l).
Proof. apply Forall_insert. Qed.

(** Changing one connection (and the store) quietly. *)
Lemma inv_set_conn port vers os s c k ds o :
  inv port vers os s -> store_ok (os ++ o) ds -> grows (sDs s) ds -> conn_ok ds k -> Forall quiet o ->
  Forall obs_bytes o ->
  inv port vers (os ++ o) (set_conn s c k ds).
Proof.
  intros [] Hs G Hk Hq Hb. split; cbn.
  - assumption.
  - apply Forall_insert; [|assumption]. revert i_conns0. apply Forall_mono.
    intros k' H. unfold conn_ok in *. destruct (cSt k'); auto. eapply task_ok_grows; eauto.
  - revert i_threads0. apply Forall_mono. intros a. now apply thread_ok_grows.
  - assumption.
  - apply Forall_app; auto.
  - now rewrite quiet_now.
  - now rewrite quiet_wall.
  - now rewrite quiet_cancelled.
  - now rewrite quiet_crashed.
  - assumption.
  - assumption.
Qed.
Lemma neutral_bytes l : Forall neutral l -> Forall quiet l -> Forall obs_bytes l.
Proof. induction 1 as [|o l Ho _ IH]; intros Hq; inversion Hq; subst; constructor; auto. now destruct o. Qed.
Lemma inv_conn port vers os s c k o :
  inv port vers os s -> conn_ok (sDs s) k -> Forall quiet o -> Forall neutral o ->
  inv port vers (os ++ o) (set_conn s c k (sDs s)).
Proof.
  intros H Hk Hq Hn. apply inv_set_conn; auto using grows_refl, neutral_bytes.
  apply store_ok_neutral; [assumption|apply H].
Qed.
Lemma inv_crash port vers os s l c :
  inv port vers os s -> Forall quiet l -> Forall neutral l -> inv port vers (os ++ l ++ [OCrash c]) (crash s).
Proof.
  intros [] Hq Hn. rewrite app_assoc. split; cbn; auto.
  - apply store_ok_neutral; [repeat constructor|]. now apply store_ok_neutral.
  - rewrite !Forall_app. split_and!; auto using neutral_bytes. repeat constructor.
  - rewrite <- app_assoc. now rewrite crash_now.
  - unfold tr_wall. rewrite fold_left_app. cbn. fold (tr_wall (os ++ l)). now rewrite quiet_wall.
  - unfold tr_cancelled. rewrite fold_left_app. cbn. fold (tr_cancelled (os ++ l)). now rewrite quiet_cancelled.
  - rewrite crashed_app. cbn. now rewrite orb_true_r.
Qed.
Lemma inv_crash1 port vers os s c : inv port vers os s -> inv port vers (os ++ [OCrash c]) (crash s).
Proof. intros H. apply (inv_crash port vers os s [] c H); constructor. Qed.

Lemma inv_nil port vers os s : inv port vers os s -> inv port vers (os ++ []) s.
Proof. now rewrite app_nil_r. Qed.

Lemma startApi_ok a port body rest tk ds : startApi a port body = Some (rest, tk) -> task_ok ds tk.
Proof.
  assert (W : forall A t f (k : A -> option task),
    (forall x tk, k x = Some tk -> task_ok ds tk) ->
    with_req t f body k = Some (rest, tk) -> task_ok ds tk).
  { intros A t f k Hk. unfold with_req. destruct (readRequest t body) as [[v r]|]; [|discriminate].
    destruct (f v); [|discriminate]. destruct (k _) eqn:E; [|discriminate]. intros [= _ <-]. eauto. }
  destruct a; cbn [startApi]; try (apply W; intros x tk'; intros [= <-]; cbn; auto).
  - repeat split; auto; discriminate.
  - apply W. intros x tk'. destruct (x =? 0); [|discriminate]. now intros [= <-].
  - intros [= _ <-]. exact I.
  - repeat split; auto; discriminate.
  - repeat split; auto; discriminate.
  - repeat split; auto; discriminate.
Qed.
Lemma beginRequest_ok port msg corr extra tk ds : beginRequest port msg = Some (corr, extra, tk) -> task_ok ds tk.
Proof.
  unfold beginRequest. intros H.
  repeat match type of H with
  | context [match startApi ?a ?p ?b with _ => _ end] => destruct (startApi a p b) as [[r t]|] eqn:E; try discriminate
  | context [match ?x with _ => _ end] => destruct x; try discriminate
  end. injection H as _ _ <-. eapply startApi_ok; eassumption.
Qed.

Lemma conn_step_inv port vers os s c ch k s' o :
  inv port vers os s -> sConns s !! c = Some k -> conn_step s c ch k = (s', o) -> inv port vers (os ++ o) s'.
Proof.
  intros Hi Hk H. assert (Hko : conn_ok (sDs s) k).
  { pose proof (i_conns _ _ _ _ Hi) as F. rewrite Forall_lookup in F. eauto. }
  unfold conn_step in H. destruct k as [inb st]. cbn [cSt cIn] in *.
  destruct st as [| |corr extra tk|chunks|].
  - destruct (getMessage inb) as [|msg rest|].
    + destruct (sCancel s); injection H as <- <-; apply inv_conn; auto; repeat constructor.
    + destruct (beginRequest (sPort s) msg) as [[[corr extra] tk]|] eqn:E.
      * injection H as <- <-. apply inv_conn; [assumption| |repeat constructor|repeat constructor].
        cbn. eapply beginRequest_ok; eassumption.
      * injection H as <- <-. apply (inv_crash port vers os s [OFrame c msg] c Hi); repeat constructor.
    + injection H as <- <-. now apply inv_crash1.
  - injection H as <- <-. now apply inv_nil.
  - cbn in Hko.
    assert (G : match tstep c (env_of s) ch (sDs s) tk with
      | TCont ds tk' os => (set_conn s c (Conn inb (CBusy corr extra tk')) ds, os)
      | TPanic => (crash s, [OCrash c]) end = (s', o) -> inv port vers (os ++ o) s').
    { destruct (tstep c (env_of s) ch (sDs s) tk) as [ds tk' o'|] eqn:E.
      - intros [= <- <-]. destruct (tstep_ok os _ _ _ _ _ _ _ _ (i_store _ _ _ _ Hi) Hko E) as (H1 & H2 & H3).
        apply inv_set_conn; auto; [eapply tstep_quiet; eassumption|eapply tstep_bytes; eassumption].
      - intros [= <- <-]. now apply inv_crash1. }
    destruct tk; auto.
    destruct (finishRequest corr extra t v); injection H as <- <-.
    + apply inv_conn; auto; constructor.
    + now apply inv_crash1.
  - destruct chunks as [|b bs]; injection H as <- <-; apply inv_conn; auto; try (repeat constructor).
    now destruct bs.
  - injection H as <- <-. now apply inv_nil.
Qed.

Lemma step_inv port vers os s ev s' o :
  inv port vers os s -> step s ev = (s', o) -> inv port vers (os ++ o) s'.
Proof.
  intros Hi H. unfold step in H. destruct (sCrash s) eqn:Hc.
  { injection H as <- <-. now apply inv_nil. }
  destruct ev.
  - destruct (call_ok c) eqn:Hcall; injection H as <- <-; apply inv_nil; [|assumption].
    destruct Hi. split; cbn; auto; try congruence.
    + apply Forall_app. split; [assumption|]. constructor; [|constructor]. now destruct c.
    + apply Forall_app. split; [assumption|]. constructor; [|constructor]. now apply startCall_bytes.
  - destruct (sThreads s !! i) as [a|] eqn:Ea.
    + destruct (astep i (sWall s) (sDs s) a) as [[ds a'] os'] eqn:E. injection H as <- <-.
      assert (Ha : thread_ok (sDs s) a).
      { pose proof (i_threads _ _ _ _ Hi) as F. rewrite Forall_lookup in F. eauto. }
      destruct (astep_ok os _ _ _ _ _ _ _ (i_store _ _ _ _ Hi) Ha E) as (H1 & H2 & G).
      assert (Hab : thread_bytes a).
      { pose proof (i_tbytes _ _ _ _ Hi) as F. rewrite Forall_lookup in F. eauto. }
      destruct (astep_bytes _ _ _ _ _ _ _ Hab E) as [B1 B2].
      pose proof (astep_quiet _ _ _ _ _ _ _ E) as Q. destruct Hi. split; cbn; auto; try congruence.
      * revert i_conns0. apply Forall_mono. intros k H. unfold conn_ok in *. destruct (cSt k); auto. eapply task_ok_grows; eauto.
      * apply Forall_insert; [|assumption]. revert i_threads0. apply Forall_mono. intros b. now apply thread_ok_grows.
      * now apply Forall_insert.
      * apply Forall_app; auto.
      * now rewrite quiet_now.
      * now rewrite quiet_wall.
      * now rewrite quiet_cancelled.
      * rewrite quiet_crashed; congruence.
    + injection H as <- <-. now apply inv_nil.
  - destruct (sCancel s) eqn:Ec; injection H as <- <-; apply inv_nil; [assumption|].
    destruct Hi. split; cbn; auto; try congruence.
    apply Forall_app. split; [assumption|]. constructor; [exact I|constructor].
  - destruct (sConns s !! c) as [k|] eqn:Ek.
    + eapply conn_step_inv; eassumption.
    + injection H as <- <-. now apply inv_nil.
  - destruct (sConns s !! c) as [[inb []]|] eqn:Ek; try (injection H as <- <-; now apply inv_nil).
    destruct (_ && _); injection H as <- <-; [|now apply inv_nil].
    apply inv_conn; auto; repeat constructor.
  - destruct (sConns s !! c) as [[inb []]|] eqn:Ek; injection H as <- <-; try now apply inv_nil.
    apply inv_conn; auto; repeat constructor.
  - destruct (sConns s !! c) as [[inb []]|] eqn:Ek; injection H as <- <-; try now apply inv_nil.
    apply inv_conn; auto; repeat constructor.
  - destruct (sConns s !! c) as [[inb []]|] eqn:Ek; injection H as <- <-; try now apply inv_nil.
    now apply inv_crash1.
  - destruct (sConns s !! c) as [[inb []]|] eqn:Ek; try (injection H as <- <-; now apply inv_nil).
    destruct gone; injection H as <- <-; [|now apply inv_crash1].
    apply inv_conn; auto; repeat constructor.
  - injection H as <- <-. destruct Hi. split; cbn; auto; try congruence.
    + apply store_ok_neutral; [repeat constructor|assumption].
    + apply Forall_app; split; [assumption|]. constructor; [cbn; lia|constructor].
    + unfold tr_now. rewrite fold_left_app. cbn. now rewrite i_now0.
    + unfold tr_wall. rewrite fold_left_app. cbn. now rewrite i_wall0.
    + unfold tr_cancelled. rewrite fold_left_app. cbn. now rewrite i_cancel0.
    + rewrite crashed_app. cbn. rewrite orb_false_r. congruence.
  - injection H as <- <-. destruct Hi. split; cbn; auto; try congruence.
    + apply store_ok_neutral; [repeat constructor|assumption].
    + apply Forall_app; split; [assumption|repeat constructor].
    + unfold tr_now. rewrite fold_left_app. cbn. now rewrite i_now0.
    + unfold tr_wall. rewrite fold_left_app. reflexivity.
    + unfold tr_cancelled. rewrite fold_left_app. cbn. now rewrite i_cancel0.
    + rewrite crashed_app. cbn. rewrite orb_false_r. congruence.
  - injection H as <- <-. destruct Hi. split; cbn; auto; try congruence.
    + apply store_ok_neutral; [repeat constructor|assumption].
    + apply Forall_app; split; [assumption|repeat constructor].
    + unfold tr_now. rewrite fold_left_app. cbn. now rewrite i_now0.
    + unfold tr_wall. rewrite fold_left_app. cbn. now rewrite i_wall0.
    + unfold tr_cancelled. now rewrite fold_left_app.
    + rewrite crashed_app. cbn. rewrite orb_false_r. congruence.
  - destruct (forallb closed (sConns s)); injection H as <- <-; [|now apply inv_nil].
    destruct Hi. split; cbn; auto; try congruence.
    + apply store_ok_neutral; [repeat constructor|assumption].
    + apply Forall_app; split; [assumption|repeat constructor].
    + unfold tr_now. rewrite fold_left_app. cbn. now rewrite i_now0.
    + unfold tr_wall. rewrite fold_left_app. cbn. now rewrite i_wall0.
    + unfold tr_cancelled. now rewrite fold_left_app.
    + rewrite crashed_app. cbn. rewrite orb_false_r. congruence.
Qed.

Lemma init_inv port ch : inv port (initApiVersions ch) [] (init port ch).
Proof. split; cbn; auto. apply store_ok_init. Qed.

Lemma run_inv port vers s A evs s' B :
  inv port vers A s -> run s evs = (s', B) -> inv port vers (A ++ B) s'.
Proof.
  revert s' B. induction evs as [|ev evs IH] using rev_ind; intros s' B Hi H.
  - injection H as <- <-. now apply inv_nil.
  - apply run_snoc_inv in H as (s1 & o1 & o2 & H1 & H2 & ->). rewrite app_assoc.
    eapply step_inv; eauto.
Qed.
Lemma init_run_inv port ch evs s os :
  run (init port ch) evs = (s, os) -> inv port (initApiVersions ch) os s.
Proof. intros H. apply (run_inv _ _ _ [] _ _ _ (init_inv port ch) H). Qed.
