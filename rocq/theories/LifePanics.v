(** * LifePanics: which calls panic, and when *)
From Verif Require Export LifeWait.
From stdpp Require Import gmap list.
From Coq Require Import ZifyBool.
Open Scope Z_scope.
Open Scope list_scope.

(** ** The lane *)
Lemma lane_some s A : lreach s A -> hLane (lG s) = None <-> forall i g, ~ In (LLane i g) A.
Proof.
  revert s A. apply (lreach_ind (fun s A => hLane (lG s) = None <-> forall i g, ~ In (LLane i g) A)); [split; [intros _ i g []|reflexivity]|].
  intros s A e s' o R I IH H.
  assert (Hs : hLane (lG s') = hLane (lG s) /\ (forall i g, ~ In (LLane i g) o) \/ hLane (lG s') <> None /\ exists i g, In (LLane i g) o).
  { apply lstep_cases in H as [[-> ->]|[(p & -> & -> & _)|[(cl & -> & _ & -> & ->)|[(-> & _ & -> & ->)|(i0 & x & k & o' & c0 & -> & _ & Hi0 & [(h & pre & sp & wk & Hx & ->)|(pre & p & Hx & -> & ->)])]]]]; cbn [lT lG] in *.
    - left. split; [reflexivity|intros i g []].
    - left. split; [reflexivity|]. intros i g [E|[]]; discriminate E.
    - left. split; [reflexivity|]. intros i g [E|[]]; discriminate E.
    - left. split; [now destruct (lG s)|]. intros i g [].
    - destruct (lG s) as [? ? ? ? ? ? ? ? la ? ? ? ? ?]. destruct o'; cbn in Hx; exec_cases Hx k; injection Hx as <- <- <- <- <-; cbn;
        try (right; split; [discriminate|eauto]; fail); left; try destruct w; (split; [cbn; congruence|]); intros i' g' Hin; try contradiction; destruct Hin as [E|[]]; discriminate E.
    - left. split; [reflexivity|]. intros i g [E|[]]; discriminate E. }
  destruct Hs as [[-> Hn]|[Hl (i & g & Hin)]].
  - rewrite IH. split; intros Hi i g Hin; [apply in_app_or in Hin as [Hin|Hin]; [now apply (Hi i g)|now apply (Hn i g)]|apply (Hi i g); apply in_or_app; auto].
  - split; [contradiction|]. intros Hi. exfalso. apply (Hi i g). apply in_or_app. auto.
Qed.
(** A Start that is about to make the lane. *)
Definition lane_ahead (c : list op) : bool :=
  match c with ClearServer :: ClearStopped :: NewLane :: _ | ClearStopped :: NewLane :: _ | NewLane :: _ => true | _ => false end.
Definition laned (s : lsys) : Prop := hLane (lG s) <> None \/ exists j t, lT s !! j = Some t /\ lane_ahead (gCode t) = true.
Lemma ahead_cs k c : In c (codes k) -> lane_ahead c = true -> in_cs c = true.
Proof.
  intros H Ha. codes_check (fun c => implb (lane_ahead c) (in_cs c)) H. rewrite Ha in H. exact H.
Qed.
Lemma exec_lane h i k o x h' pre sp wk os : exec h i k o x = Next h' pre sp wk os -> hLane h <> None \/ o = NewLane -> hLane h' <> None.
Proof. intros H Hl. destruct h. destruct o; cbn in H; exec_cases H k; injection H as <- <- <- <- <-; try destruct w; cbn in *; destruct Hl; congruence. Qed.
Lemma laned_step s e s' o : linv s -> lstep s e = (s', o) -> laned s -> laned s'.
Proof.
  intros I H HL.
  apply lstep_cases in H as [[-> ->]|[(p & -> & -> & _)|[(cl & -> & _ & -> & ->)|[(-> & _ & -> & ->)|(i0 & x & k & o' & c0 & -> & _ & Hi0 & [(h & pre & sp & wk & Hx & ->)|(pre & p & Hx & -> & ->)])]]]]; cbn [lT lG] in *; unfold laned in *; cbn [lT lG] in *; auto.
  - destruct HL as [?|(j & t & Hj & Ht)]; [auto|]. right. exists j, t. split; [now apply lookup_app_l_Some|assumption].
  - destruct (lG s). exact HL.
  - destruct HL as [Hl|(j & t & Hj & Ht)]; [left; eapply exec_lane; eauto|].
    destruct (decide (j = i0)) as [->|Hne].
    + rewrite Hi0 in Hj. injection Hj as <-. cbn [gCode] in Ht. destruct o'; try discriminate Ht.
      * right. cbn in Hx. injection Hx as <- <- <- <- <-. cbn [app wake]. exists i0, (Gor k c0). rewrite app_nil_r. split; [apply list_lookup_insert; eapply lookup_lt_Some; eassumption|].
        destruct c0 as [|[] [|[] ?]]; try discriminate Ht. reflexivity.
      * right. cbn in Hx. injection Hx as <- <- <- <- <-. cbn [app wake]. exists i0, (Gor k c0). rewrite app_nil_r. split; [apply list_lookup_insert; eapply lookup_lt_Some; eassumption|].
        destruct c0 as [|[] ?]; try discriminate Ht. reflexivity.
      * left. eapply exec_lane; eauto.
    + right. destruct (after_other i0 (Gor k (pre ++ c0)) wk sp _ _ _ Hj Hne) as (u & Hu & Hk & Hw). exists j, u. split; [assumption|].
      destruct Hw as [[-> _]|(w & c' & _ & E & _)]; [assumption|]. rewrite E in Ht. discriminate Ht.
  - destruct HL as [?|(j & t & Hj & Ht)]; [auto|]. right. exists j, t. split; [|assumption]. rewrite list_lookup_insert_ne; [assumption|]. intros <-.
    rewrite Hi0 in Hj. injection Hj as <-. cbn in Ht. destruct o'; try discriminate Ht; discriminate Hx.
Qed.
(** Calls of RequestStop that found the server started. *)
Definition past (t : gor) : bool :=
  match gKind t with KCall CFinish => false | KCall _ => existsb (fun o => bool_decide (o = CancelFn)) (gCode t) | _ => false end.
Definition past2 (t : gor) : bool :=
  past t && match gCode t with CloseL :: _ | Unlock :: _ | CancelFn :: _ => true | _ => false end.
Lemma past_spec cl c : In c (call_codes cl) -> past (Gor (KCall cl) c) = true ->
  match c with
  | o :: c' => o = CancelFn /\ past (Gor (KCall cl) c') = false \/
     (o <> SwapStarted /\ o <> LoadStarted /\ past (Gor (KCall cl) c') = true /\ (past2 (Gor (KCall cl) c') = true -> o = Lock \/ past2 (Gor (KCall cl) (o :: c')) = true))
  | [] => False end.
Proof.
  intros H Hp.
  apply (call_check (fun c => implb (past (Gor (KCall cl) c)) (match c with
     | o :: c' => bool_decide (o = CancelFn) && negb (past (Gor (KCall cl) c')) || (negb (bool_decide (o = SwapStarted)) && negb (bool_decide (o = LoadStarted)) && past (Gor (KCall cl) c')
       && implb (past2 (Gor (KCall cl) c')) (bool_decide (o = Lock) || past2 (Gor (KCall cl) (o :: c')))) | [] => false end))) in H.
  - rewrite Hp in H. cbn [implb] in H. destruct c as [|o c']; [discriminate H|]. apply orb_true_iff in H as [H|H].
    + apply andb_true_iff in H as [H1 H2]. apply bool_decide_eq_true in H1. apply negb_true_iff in H2. auto.
    + right. repeat (apply andb_true_iff in H as [H ?]). apply negb_true_iff, bool_decide_eq_false in H, H2. repeat split; auto.
      intros E. rewrite E in H0. cbn in H0. apply orb_true_iff in H0 as [H0|H0]; [apply bool_decide_eq_true in H0|]; auto.
  - destruct cl; intros []; vm_compute; reflexivity.
Qed.
Record lanes (s : lsys) : Prop := {
  n_up : hStarted (lG s) = true -> laned s;
  n_past : forall i t, lT s !! i = Some t -> past t = true -> laned s;
  n_past2 : forall i t, lT s !! i = Some t -> past2 t = true -> hLane (lG s) <> None
}.
Lemma swap_ahead k c : In (SwapStarted :: c) (codes k) -> lane_ahead c = true.
Proof. intros H. codes_check (fun c => match c with SwapStarted :: c' => lane_ahead c' | _ => true end) H. exact H. Qed.
Lemma past_pre h i cl o x h' pre sp wk os c : exec h i (KCall cl) o x = Next h' pre sp wk os -> past (Gor (KCall cl) (pre ++ c)) = true ->
  past (Gor (KCall cl) (o :: c)) = true \/ (o = LoadStarted /\ hStarted h = true).
Proof.
  intros H Hp. destruct o; cbn in H; exec_cases H (KCall cl); injection H as <- <- <- <- <-; auto; left; unfold past in *; cbn [gKind gCode] in *; destruct cl; auto;
    cbn in Hp |- *; rewrite ?Hp, ?orb_true_r; auto.
Qed.
Lemma past2_pre h i cl o x h' pre sp wk os c : exec h i (KCall cl) o x = Next h' pre sp wk os -> past2 (Gor (KCall cl) (pre ++ c)) = true ->
  In (o :: c) (call_codes cl) -> past (Gor (KCall cl) (o :: c)) = true /\ past2 (Gor (KCall cl) c) = true.
Proof.
  intros H Hp Hin. destruct pre as [|o' pre].
  - cbn [app] in Hp. split; [|assumption]. destruct (past_pre _ _ _ _ _ _ _ _ _ _ c H) as [?|[-> _]]; [unfold past2 in Hp; now apply andb_true_iff in Hp as [? _]|assumption|].
    exfalso. unfold past2 in Hp. apply andb_true_iff in Hp as [Hp1 Hp2]. apply (call_check (fun c => match c with LoadStarted :: Ret :: _ | LoadStarted :: Wait _ :: _ | LoadStarted :: Lock :: _ => true | LoadStarted :: _ => false | _ => true end)) in Hin.
    + destruct c as [|[] ?]; try discriminate Hin; discriminate Hp2.
    + intros []; vm_compute; reflexivity.
  - exfalso. destruct o; cbn in H; exec_cases H (KCall cl); injection H; intros; subst; unfold past2 in Hp; apply andb_true_iff in Hp as [Hp1 Hp2]; discriminate Hp2.
Qed.
Lemma lanes_init : lanes linit.
Proof. split; [discriminate| |]; intros i t H; discriminate H. Qed.
Lemma lanes_step s e s' o : linv s -> lanes s -> lstep s e = (s', o) -> lanes s'.
Proof.
  intros I [U P Q] H. pose proof (laned_step _ _ _ _ I H) as HL.
  apply lstep_cases in H as [[-> ->]|[(p & -> & -> & _)|[(cl & -> & _ & -> & ->)|[(-> & _ & -> & ->)|(i0 & x & k & o' & c0 & -> & _ & Hi0 & [(h & pre & sp & wk & Hx & ->)|(pre & p & Hx & -> & ->)])]]]].
  - now split.
  - now split.
  - split; cbn [lT lG] in *.
    + auto.
    + intros i t Hi Hp. apply lookup_call in Hi as [Hi|[-> ->]]; [eauto|]. destruct cl; discriminate Hp.
    + intros i t Hi Hp. apply lookup_call in Hi as [Hi|[-> ->]]; [eauto|]. destruct cl; discriminate Hp.
  - split; cbn [lT lG] in *.
    + intros E. apply HL, U. destruct (lG s); exact E.
    + eauto.
    + intros i t Hi Hp. specialize (Q _ _ Hi Hp). destruct (lG s); exact Q.
  - pose proof (v_codes s I _ _ Hi0) as Hc0. cbn [gCode gKind] in Hc0.
    split; cbn [lT lG] in *.
    + intros E. destruct (decide (o' = SwapStarted)) as [->|Hns]; [|apply HL, U; eapply exec_started; eauto].
      right. apply swap_ahead in Hc0. cbn in Hx; exec_cases Hx k; injection Hx as <- <- <- <- <-. cbn [app wake]. exists i0, (Gor k c0). rewrite app_nil_r.
      split; [apply list_lookup_insert; eapply lookup_lt_Some; eassumption|assumption].
    + intros i t Hi Hp. apply HL. apply (after_lookup _ _ _ _ _ _ _ _ Hi0) in Hi as [(v & Hv & Hne & Ek & Hw)|[(-> & Ek & Hw)|(m & -> & Hsp)]].
      * apply (P _ _ Hv). unfold past in *. rewrite Ek in Hp. destruct Hw as [[E _]|(w & c' & -> & E & E')]; [now rewrite E in Hp|]. rewrite E. rewrite E' in Hp. cbn in Hp |- *. exact Hp.
      * cbn [gKind gCode] in *. destruct k as [cl|g|g n]; [|unfold past in Hp; rewrite Ek in Hp; discriminate Hp|unfold past in Hp; rewrite Ek in Hp; discriminate Hp].
        assert (Hp' : past (Gor (KCall cl) (pre ++ c0)) = true).
        { destruct t as [kt ct]. cbn [gKind gCode] in *. subst kt. destruct Hw as [[-> _]|(w & c' & -> & -> & ->)]; [assumption|]. unfold past in *. cbn in Hp |- *. exact Hp. }
        destruct (past_pre _ _ _ _ _ _ _ _ _ _ _ Hx Hp') as [?|[_ ?]]; [eapply P; eassumption|now apply U].
      * apply (exec_spawn _ _ _ _ _ _ _ _ _ _ _ _ Hx) in Hsp as [_ [(g' & _ & _ & E)|(g' & _ & E)]]; [discriminate Hp || (rewrite E in Hp; discriminate Hp)|rewrite E in Hp; discriminate Hp].
    + intros i t Hi Hp. apply (after_lookup _ _ _ _ _ _ _ _ Hi0) in Hi as [(v & Hv & Hne & Ek & Hw)|[(-> & Ek & Hw)|(m & -> & Hsp)]].
      * apply (exec_lane _ _ _ _ _ _ _ _ _ _ Hx). left. apply (Q _ _ Hv). unfold past2, past in *. rewrite Ek in Hp. destruct Hw as [[E _]|(w & c' & -> & E & E')]; [now rewrite E in Hp|].
        rewrite E' in Hp. apply andb_true_iff in Hp as [_ Hp]. discriminate Hp.
      * cbn [gKind gCode] in *. destruct k as [cl|g|g n]; [|unfold past2, past in Hp; rewrite Ek in Hp; discriminate Hp|unfold past2, past in Hp; rewrite Ek in Hp; discriminate Hp].
        assert (Hp' : past2 (Gor (KCall cl) (pre ++ c0)) = true).
        { destruct t as [kt ct]. cbn [gKind gCode] in *. subst kt. destruct Hw as [[-> _]|(w & c' & -> & -> & ->)]; [assumption|]. unfold past2 in Hp. apply andb_true_iff in Hp as [_ Hp]. discriminate Hp. }
        cbn [codes] in Hc0. destruct (past2_pre _ _ _ _ _ _ _ _ _ _ _ Hx Hp' Hc0) as [Hq Hq2]. apply (exec_lane _ _ _ _ _ _ _ _ _ _ Hx). left.
        destruct (past_spec _ _ Hc0 Hq) as [[_ E]|(_ & _ & _ & Hor)]; [unfold past2 in Hq2; rewrite E in Hq2; discriminate Hq2|].
        destruct (Hor Hq2) as [->|Hq3]; [|apply (Q _ _ Hi0 Hq3)].
        destruct (P _ _ Hi0 Hq) as [?|(j & u & Hj & Hu)]; [assumption|]. exfalso.
        pose proof (ahead_cs _ _ (v_codes s I _ _ Hj) Hu) as Hcs. apply (v_mu s I _ _ Hj) in Hcs. destruct (exec_mu _ _ _ _ _ _ _ _ _ _ Hx) as [_ Hm]. rewrite (Hm eq_refl) in Hcs. discriminate.
      * apply (exec_spawn _ _ _ _ _ _ _ _ _ _ _ _ Hx) in Hsp as [_ [(g' & _ & _ & E)|(g' & _ & E)]]; rewrite E in Hp; discriminate Hp.
  - assert (Hpre : forall k', past (Gor k' pre) = false).
    { intros k'. destruct (panic_call _ _ _ _ _ _ _ Hx) as [cl ->]. destruct o'; cbn in Hx; exec_cases Hx (KCall cl); injection Hx as <- <-; destruct k' as [[]| |]; reflexivity. }
    split; cbn [lT lG] in *.
    + auto.
    + intros i t Hi Hp. apply HL. apply (insert_cases _ _ _ _ _ _ Hi0) in Hi as [[_ Hi]|[-> ->]]; [eauto|]. now rewrite Hpre in Hp.
    + intros i t Hi Hp. apply (insert_cases _ _ _ _ _ _ Hi0) in Hi as [[_ Hi]|[-> ->]]; [eauto|]. unfold past2 in Hp. now rewrite Hpre in Hp.
Qed.
Lemma lreach_lanes s A : lreach s A -> lanes s.
Proof. revert s A. apply (lreach_ind (fun s _ => lanes s)); [exact lanes_init|]. intros s A e s' o R I IH H. eapply lanes_step; eauto. Qed.

(** ** Panics *)
Lemma panic_step s e s' i p : lstep s e = (s', [LPanic i p]) ->
  exists x k o c pre, lT s !! i = Some (Gor k (o :: c)) /\ exec (lG s) i k o x = Panics pre p.
Proof.
  intros H. apply lstep_cases in H as [[_ E]|[(p' & _ & E & _)|[(cl & _ & _ & _ & E)|[(_ & _ & _ & E)|(i0 & x & k & o' & c0 & _ & _ & Hi & [(h & pre & sp & wk & Hx & _)|(pre & p' & Hx & _ & E)])]]]]; try discriminate E.
  - destruct o'; cbn in Hx; exec_cases Hx k; injection Hx; intros; discriminate.
  - injection E as <- <-. eauto 10.
Qed.
Lemma panic_at s A B i p C cl : lreach s A -> A = B ++ LPanic i p :: C -> In (LBegin i cl) B ->
  exists s1 x o c pre, lreach s1 B /\ lT s1 !! i = Some (Gor (KCall cl) (o :: c)) /\ In (o :: c) (call_codes cl) /\ exec (lG s1) i (KCall cl) o x = Panics pre p.
Proof.
  intros R E Hb. destruct (lobs_split _ _ _ _ _ R E) as (s1 & e & s2 & R1 & H). apply panic_step in H as (x & k & o & c & pre & Hi & Hx).
  destruct (begin_thread _ _ R1 _ _ Hb) as [code Hc]. rewrite Hi in Hc. injection Hc as -> <-.
  exists s1, x, o, c, pre. do 2 (split; [assumption|]). split; [|assumption]. exact (v_codes s1 (lreach_inv _ _ R1) _ _ Hi).
Qed.
(** Start panics only with its own message, and only when the server is up. *)
Theorem start_panics s A B i p C : lreach s A -> A = B ++ LPanic i p :: C -> In (LBegin i CStart) B -> p = PStarted /\ up B = true.
Proof.
  intros R E Hb. destruct (panic_at _ _ _ _ _ _ _ R E Hb) as (s1 & x & o & c & pre & R1 & Hi & Hc & Hx). rewrite <- (up_started _ _ R1).
  destruct o; cbn in Hx; exec_cases Hx (KCall CStart); injection Hx as <- <-; auto;
    exfalso; clear - Hc; cbn in Hc; repeat destruct Hc as [Hc|Hc]; try discriminate Hc; contradiction.
Qed.
Theorem finish_panics s A B i p C : lreach s A -> A = B ++ LPanic i p :: C -> In (LBegin i CFinish) B -> p = PNil /\ forall j g, ~ In (LLane j g) B.
Proof.
  intros R E Hb. destruct (panic_at _ _ _ _ _ _ _ R E Hb) as (s1 & x & o & c & pre & R1 & Hi & Hc & Hx). rewrite <- (lane_some _ _ R1).
  destruct o; cbn in Hx; exec_cases Hx (KCall CFinish); injection Hx as <- <-; auto;
    exfalso; clear - Hc; cbn in Hc; repeat destruct Hc as [Hc|Hc]; try discriminate Hc; contradiction.
Qed.
(** RequestStop and WaitForTermination panic only with "WaitGroup is reused", and
    only if a Start overlaps them. *)
Theorem stop_panics s A B i p C cl : lreach s A -> A = B ++ LPanic i p :: C -> In (LBegin i cl) B -> cl = CStop \/ cl = CWait ->
  p = PReuse /\ exists j, start_overlaps B i j.
Proof.
  intros R E Hb Hcl. destruct (panic_at _ _ _ _ _ _ _ R E Hb) as (s1 & x & o & c & pre & R1 & Hi & Hc & Hx).
  destruct (calm_or _ _ R1 _ _ Hi) as [[H1 _]|Hov].
  - exfalso. cbn [gCode] in H1. pose proof (n_past2 _ (lreach_lanes _ _ R1) _ _ Hi) as Hp2.
    destruct o; cbn in Hx; exec_cases Hx (KCall cl); injection Hx as <- <-;
      try (clear - Hc Hcl; destruct Hcl as [->| ->]; cbn in Hc; repeat destruct Hc as [Hc|Hc]; try discriminate Hc; contradiction).
    + apply Z.eqb_neq in Heqb. contradiction.
    + apply Hp2; [|first [assumption|reflexivity]]. destruct Hcl as [->| ->]; reflexivity.
  - split; [|assumption]. pose proof (n_past2 _ (lreach_lanes _ _ R1) _ _ Hi) as Hp2.
    destruct o; cbn in Hx; exec_cases Hx (KCall cl); injection Hx as <- <-;
      try (exfalso; clear - Hc Hcl; destruct Hcl as [->| ->]; cbn in Hc; repeat destruct Hc as [Hc|Hc]; try discriminate Hc; contradiction); auto.
    exfalso. apply Hp2; [|first [assumption|reflexivity]]. destruct Hcl as [->| ->]; reflexivity.
Qed.
Theorem restart_panics s A B i p C : lreach s A -> A = B ++ LPanic i p :: C -> In (LBegin i CRestart) B ->
  ((p = PStarted /\ up B = true) \/ p = PReuse) /\ exists j, start_overlaps B i j.
Proof.
  intros R E Hb. destruct (panic_at _ _ _ _ _ _ _ R E Hb) as (s1 & x & o & c & pre & R1 & Hi & Hc & Hx). rewrite <- (up_started _ _ R1).
  pose proof (n_past2 _ (lreach_lanes _ _ R1) _ _ Hi) as Hp2. split.
  - destruct o; cbn in Hx; exec_cases Hx (KCall CRestart); injection Hx as <- <-; auto;
     try (exfalso; clear - Hc; cbn in Hc; repeat destruct Hc as [Hc|Hc]; try discriminate Hc; contradiction).
    exfalso. apply Hp2; [|first [assumption|reflexivity]]. reflexivity.
  - destruct (calm_or _ _ R1 _ _ Hi) as [[H1 H2]|Hov]; [|assumption]. exfalso. cbn [gCode] in H1, H2.
    destruct o; cbn in Hx; exec_cases Hx (KCall CRestart); injection Hx as <- <-;
      try (clear - Hc; cbn in Hc; repeat destruct Hc as [Hc|Hc]; try discriminate Hc; contradiction).
    + enough (true = false) by discriminate. apply H2. apply (call_check (fun c => match c with SwapStarted :: _ => settled CRestart c || negb (to_wait c) | _ => true end)) in Hc; [|intros []; vm_compute; reflexivity].
      apply orb_true_iff in Hc as [?|Hc]; [assumption|]. cbn in Hc |- *. rewrite Hc. reflexivity.
    + apply Z.eqb_neq in Heqb. contradiction.
    + apply Hp2; [|first [assumption|reflexivity]]. reflexivity.
Qed.
