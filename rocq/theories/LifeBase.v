(** * LifeBase: codes, weights and steps of the start/stop machine *)
From Verif Require Export Lifecycle.
From stdpp Require Import gmap list.
From Coq Require Import ZifyBool.
Open Scope Z_scope.
Open Scope list_scope.

(** ** The codes a goroutine can have *)
Global Instance op_dec : EqDecision op.
Proof. solve_decision. Defined.
Definition next_codes (o : op) (c : list op) : list (list op) :=
  match o with
  | Wait w => [c; Sleep w :: c]
  | Sleep w => [Woken w :: c]
  | Woken w => [c; []]
  | SwapStarted => [c; [Unlock]]
  | SwapStopped => [c; LoadStarted :: c]
  | LoadStarted => [c; stop_rest ++ c]
  | CancelFn => [c; []]
  | Accept g => [CheckLane g :: c; run_end ++ c; run_end ++ Die :: c]
  | CheckLane g => [Accept g :: c; register_code g ++ c]
  | Work g => [client_end g ++ c; client_end g ++ Die :: c]
  | DoneW w => [c; []]
  | _ => [c]
  end.
Fixpoint close (n : nat) (todo seen : list (list op)) : list (list op) :=
  match n, todo with
  | S n, c :: todo' =>
      if bool_decide (c ∈ seen) then close n todo' seen
      else close n (match c with o :: r => next_codes o r | [] => [] end ++ todo') (c :: seen)
  | _, _ => seen
  end.
Definition start_codes := Eval vm_compute in close 400 [lcall_code CStart] [].
Definition stop_codes := Eval vm_compute in close 400 [lcall_code CStop] [].
Definition wait_codes := Eval vm_compute in close 400 [lcall_code CWait] [].
Definition finish_codes := Eval vm_compute in close 400 [lcall_code CFinish] [].
Definition restart_codes := Eval vm_compute in close 400 [lcall_code CRestart] [].
Definition call_codes (c : lcall) : list (list op) :=
  match c with
  | CStart => start_codes | CStop => stop_codes | CWait => wait_codes
  | CFinish => finish_codes | CRestart => restart_codes
  end.
Definition run_codes (g : nat) : list (list op) :=
  [[Listen g; SetListener g; DoneW WInit; Accept g]; [SetListener g; DoneW WInit; Accept g];
   [DoneW WInit; Accept g]; [Accept g]; [CheckLane g];
   [Lock; Register g; AddW WAct; AddW WWg; Unlock; Accept g]; [Register g; AddW WAct; AddW WWg; Unlock; Accept g];
   [AddW WAct; AddW WWg; Unlock; Accept g]; [AddW WWg; Unlock; Accept g]; [Unlock; Accept g];
   [Wait WAct; StoreDown; DoneW WWg]; [Sleep WAct; StoreDown; DoneW WWg]; [Woken WAct; StoreDown; DoneW WWg];
   [StoreDown; DoneW WWg]; [DoneW WWg]; [];
   [Wait WAct; StoreDown; DoneW WWg; Die]; [Sleep WAct; StoreDown; DoneW WWg; Die];
   [Woken WAct; StoreDown; DoneW WWg; Die]; [StoreDown; DoneW WWg; Die]; [DoneW WWg; Die]; [Die]].
Definition client_codes (g : nat) : list (list op) :=
  [[Work g]; [Lock; Forget g; DoneW WAct; DoneW WWg; Unlock]; [Forget g; DoneW WAct; DoneW WWg; Unlock];
   [DoneW WAct; DoneW WWg; Unlock]; [DoneW WWg; Unlock]; [Unlock]; [];
   [Lock; Forget g; DoneW WAct; DoneW WWg; Unlock; Die]; [Forget g; DoneW WAct; DoneW WWg; Unlock; Die];
   [DoneW WAct; DoneW WWg; Unlock; Die]; [DoneW WWg; Unlock; Die]; [Unlock; Die]; [Die]].
Definition codes (k : kind) : list (list op) :=
  match k with KCall c => call_codes c | KRun g => run_codes g | KClient g n => client_codes g end.

Lemma codes_closed k o c c' : In (o :: c) (codes k) -> In c' (next_codes o c) -> In c' (codes k).
Proof.
  destruct k as [cl|g|g n].
  - assert (H : forallb (fun code => match code with o :: r => forallb (fun c' => bool_decide (c' ∈ call_codes cl)) (next_codes o r) | [] => true end) (call_codes cl) = true)
      by (destruct cl; vm_compute; reflexivity).
    cbn [codes]. generalize dependent (call_codes cl). intros l H H1 H2. rewrite forallb_forall in H. specialize (H _ H1). cbn beta iota in H. rewrite forallb_forall in H. specialize (H _ H2).
    apply bool_decide_eq_true in H. now apply elem_of_list_In.
  - cbn [codes]. unfold run_codes at 1. intros H1 H2. cbn in H1.
    repeat destruct H1 as [H1|H1]; try discriminate; try contradiction; injection H1 as <- <-; cbn in H2;
      repeat destruct H2 as [<-|H2]; try contradiction; cbn; repeat (first [left; reflexivity|right]).
  - cbn [codes]. unfold client_codes at 1. intros H1 H2. cbn in H1.
    repeat destruct H1 as [H1|H1]; try discriminate; try contradiction; injection H1 as <- <-; cbn in H2;
      repeat destruct H2 as [<-|H2]; try contradiction; cbn; repeat (first [left; reflexivity|right]).
Qed.
Lemma codes_check (P : list op -> bool) k c :
  (forall cl, forallb P (call_codes cl) = true) -> (forall g, forallb P (run_codes g) = true) ->
  (forall g, forallb P (client_codes g) = true) -> In c (codes k) -> P c = true.
Proof.
  intros H1 H2 H3 H. destruct k as [cl|g|g n]; cbn [codes] in H.
  - specialize (H1 cl). rewrite forallb_forall in H1. auto.
  - specialize (H2 g). rewrite forallb_forall in H2. auto.
  - specialize (H3 g). rewrite forallb_forall in H3. auto.
Qed.
Ltac codes_check P H :=
  apply (codes_check P) in H; [|intros []; vm_compute; reflexivity|intros; reflexivity|intros; reflexivity].

(** ** Weights: what a goroutine still owes *)
Definition w_init (o : op) : Z := match o with AddW WInit => -1 | DoneW WInit => 1 | GoRun => 1 | _ => 0 end.
Definition w_wg (o : op) : Z :=
  match o with AddW WWg => -1 | DoneW WWg => 1 | GoRun => 1 | Register _ => 1 | Accept _ => 1 | CheckLane _ => 1 | Work _ => 1 | _ => 0 end.
Definition w_act (o : op) : Z := match o with AddW WAct => -1 | DoneW WAct => 1 | Register _ => 1 | Work _ => 1 | _ => 0 end.
Definition w_up (o : op) : Z :=
  match o with SwapStarted => -1 | StoreDown => 1 | GoRun => 1 | Accept _ => 1 | CheckLane _ => 1 | _ => 0 end.
Definition weigh (w : wgroup) : op -> Z := match w with WInit => w_init | WWg => w_wg | WAct => w_act end.
Fixpoint wt (f : op -> Z) (c : list op) : Z := match c with [] => 0 | o :: c' => f o + wt f c' end.
Fixpoint tot (f : op -> Z) (ts : list gor) : Z := match ts with [] => 0 | t :: ts' => wt f (gCode t) + tot f ts' end.

Lemma wt_app f a b : wt f (a ++ b) = wt f a + wt f b.
Proof. induction a as [|o a IH]; cbn; [lia|]. rewrite IH. lia. Qed.
Lemma tot_app f a b : tot f (a ++ b) = tot f a + tot f b.
Proof. induction a as [|o a IH]; cbn; [lia|]. rewrite IH. lia. Qed.
Lemma tot_insert f ts : forall i t t', ts !! i = Some t -> tot f (<[i := t']> ts) = tot f ts - wt f (gCode t) + wt f (gCode t').
Proof.
  induction ts as [|x ts IH]; intros [|i] t t' H; try discriminate.
  - cbn in H. injection H as ->. cbn. lia.
  - change (<[S i := t']> (x :: ts)) with (x :: <[i := t']> ts). cbn [tot]. rewrite (IH i t t' H). lia.
Qed.
Lemma tot_wake f wk ts : (forall w, f (Sleep w) = 0) -> (forall w, f (Woken w) = 0) -> tot f (wake wk ts) = tot f ts.
Proof.
  intros H1 H2. destruct wk as [w|]; [|reflexivity]. cbn. induction ts as [|t ts IH]; [reflexivity|]. cbn. rewrite IH. f_equal.
  unfold wake1. destruct t as [k [|[] c]]; try reflexivity. cbn. case_decide; [|reflexivity]. cbn. now rewrite H1, H2.
Qed.
Lemma tot_nonneg f ts : (forall i t, ts !! i = Some t -> 0 <= wt f (gCode t)) -> 0 <= tot f ts.
Proof.
  induction ts as [|x ts IH]; intros H; [reflexivity|]. cbn. pose proof (H 0%nat x eq_refl).
  assert (0 <= tot f ts) by (apply IH; intros i t Hi; apply (H (S i) t Hi)). lia.
Qed.
Lemma tot_ge f ts i t : (forall j u, j <> i -> ts !! j = Some u -> 0 <= wt f (gCode u)) -> ts !! i = Some t -> wt f (gCode t) <= tot f ts.
Proof.
  intros H Hi. pose proof (tot_insert f ts i t (Gor (gKind t) []) Hi) as E. cbn in E.
  assert (0 <= tot f (<[i := Gor (gKind t) []]> ts)); [|lia].
  apply tot_nonneg. intros j u Hj. destruct (decide (j = i)) as [->|Hne].
  - rewrite list_lookup_insert in Hj by (eapply lookup_lt_Some; eassumption). injection Hj as <-. reflexivity.
  - rewrite list_lookup_insert_ne in Hj by auto. now apply (H j).
Qed.

(** ** Critical sections *)
Fixpoint in_cs (c : list op) : bool :=
  match c with
  | [] => false
  | Lock :: _ | Accept _ :: _ | CheckLane _ :: _ | Work _ :: _ | SwapStopped :: _ | LoadStarted :: _ | Die :: _ => false
  | Unlock :: _ => true
  | _ :: c' => in_cs c'
  end.

(** ** Effect of one operation *)
Lemma exec_codes h i k o x h' pre sp wk os c : exec h i k o x = Next h' pre sp wk os -> In (pre ++ c) (next_codes o c).
Proof.
  intros H. destruct o; cbn in H |- *;
    repeat match type of H with context [match ?e with _ => _ end] => destruct e end; try discriminate;
    unfold kpanic in H; try destruct (is_call k); try discriminate; injection H as <- <- <- <- <-; cbn; auto.
  all: rewrite <- ?app_assoc; cbn; auto.
Qed.
Lemma exec_panic h i k o x pre p c : exec h i k o x = Panics pre p -> In pre (next_codes o c).
Proof.
  intros H. destruct o; cbn in H |- *;
    repeat match type of H with context [match ?e with _ => _ end] => destruct e end; try discriminate;
    unfold kpanic in H; try destruct (is_call k); try discriminate; injection H as <- <-; cbn; auto.
Qed.
Definition b2z (b : bool) : Z := if b then 1 else 0.
Lemma count_set w w' n h : count w (set_count w' n h) = if decide (w = w') then n else count w h.
Proof. destruct h, w, w'; reflexivity. Qed.
Ltac exec_cases H k :=
  unfold kpanic in H; repeat match type of H with context [match ?e with _ => _ end] => destruct e eqn:? end; try discriminate.
Lemma exec_count h i k o x h' pre sp wk os w : exec h i k o x = Next h' pre sp wk os ->
  count w h' = count w h - weigh w o + wt (weigh w) pre + tot (weigh w) sp.
Proof.
  intros H. destruct h. destruct o; cbn in H; exec_cases H k; injection H as <- <- <- <- <-; destruct w; try destruct w0; cbn; lia.
Qed.
Lemma exec_up h i k o x h' pre sp wk os : exec h i k o x = Next h' pre sp wk os -> (o = StoreDown -> hStarted h = true) ->
  b2z (hStarted h') = b2z (hStarted h) - w_up o + wt w_up pre + tot w_up sp.
Proof.
  intros H Hd. destruct h. destruct o; cbn in H; exec_cases H k; injection H as <- <- <- <- <-; try (destruct w; cbn; lia); cbn in *; subst; cbn; try lia.
  specialize (Hd eq_refl). subst. cbn. lia.
Qed.
Lemma exec_mu h i k o x h' pre sp wk os : exec h i k o x = Next h' pre sp wk os ->
  hMu h' = match o with Lock => Some i | Unlock => None | _ => hMu h end /\ (o = Lock -> hMu h = None).
Proof.
  intros H. destruct h. destruct o; cbn in H; exec_cases H k; injection H as <- <- <- <- <-; try (destruct w; cbn; split; [reflexivity|discriminate]); cbn in *; subst; cbn; split; congruence.
Qed.

Lemma lstep_cases s e s' os : lstep s e = (s', os) ->
  (s' = s /\ os = []) \/
  (exists p, s' = LSys (lG s) (lT s) true /\ os = [LDie p] /\ lCrash s = false /\
     exists i x k o c, e = LRun i x /\ lT s !! i = Some (Gor k (o :: c)) /\ exec (lG s) i k o x = Dies p) \/
  (exists c, e = LCall c /\ lCrash s = false /\
     s' = LSys (lG s) (lT s ++ [Gor (KCall c) (lcall_code c)]) false /\ os = [LBegin (length (lT s)) c]) \/
  (e = LParent /\ lCrash s = false /\ s' = LSys (set_parent (lG s)) (lT s) false /\ os = []) \/
  (exists i x k o c, e = LRun i x /\ lCrash s = false /\ lT s !! i = Some (Gor k (o :: c)) /\
     ((exists h pre sp wk, exec (lG s) i k o x = Next h pre sp wk os /\
         s' = LSys h (wake wk (<[i := Gor k (pre ++ c)]> (lT s)) ++ sp) false) \/
      (exists pre p, exec (lG s) i k o x = Panics pre p /\ s' = LSys (lG s) (<[i := Gor k pre]> (lT s)) false /\ os = [LPanic i p]))).
Proof.
  unfold lstep. destruct (lCrash s) eqn:Ec; [intros [= <- <-]; auto|]. destruct e as [c|i x|].
  - intros [= <- <-]. right. right. left. eauto.
  - destruct (lT s !! i) as [[k [|o c]]|] eqn:Et; try (intros [= <- <-]; auto).
    destruct (exec (lG s) i k o x) as [|h pre sp wk os'|pre p|p] eqn:Ex; intros [= <- <-].
    + auto.
    + do 4 right. exists i, x, k, o, c. do 3 (split; [auto|]). left. eauto 10.
    + do 4 right. exists i, x, k, o, c. do 3 (split; [auto|]). right. eauto 10.
    + right. left. exists p. do 3 (split; [auto|]). eauto 10.
  - intros [= <- <-]. do 3 right. left. auto.
Qed.

Lemma wake_lookup wk ts j : wake wk ts !! j = (match wk with Some w => wake1 w | None => id end) <$> ts !! j.
Proof. destruct wk; cbn; [apply list_lookup_fmap|]. now destruct (ts !! j). Qed.
Definition woke (wk : option wgroup) (v u : list op) : Prop :=
  (u = v /\ forall w c, wk = Some w -> v <> Sleep w :: c) \/
  exists w c, wk = Some w /\ v = Sleep w :: c /\ u = Woken w :: c.
Lemma wake1_code wk t : let t' := (match wk with Some w => wake1 w | None => id end) t in
  gKind t' = gKind t /\ woke wk (gCode t) (gCode t').
Proof.
  cbv zeta. destruct wk as [w|]; [|cbn; split; [reflexivity|left; split; [reflexivity|discriminate]]].
  unfold wake1, woke. destruct t as [k [|[] c]]; cbn; try (split; [reflexivity|left; split; [reflexivity|intros; discriminate]]).
  case_decide; cbn.
  - subst. split; [reflexivity|]. right. eauto.
  - split; [reflexivity|]. left. split; [reflexivity|]. intros w' c' [= <-]. congruence.
Qed.
Lemma wake_length wk (t' : gor) i ts : length (wake wk (<[i := t']> ts)) = length ts.
Proof. destruct wk; cbn; rewrite ?map_length, insert_length; reflexivity. Qed.
(** The goroutines after a step of goroutine i. *)
Lemma after_lookup i t' wk sp ts j u t : ts !! i = Some t -> (wake wk (<[i := t']> ts) ++ sp) !! j = Some u ->
  (exists v, ts !! j = Some v /\ j <> i /\ gKind u = gKind v /\ woke wk (gCode v) (gCode u)) \/
  (j = i /\ gKind u = gKind t' /\ woke wk (gCode t') (gCode u)) \/
  (exists n, j = (length ts + n)%nat /\ sp !! n = Some u).
Proof.
  intros Hi Hj. pose proof (lookup_lt_Some _ _ _ Hi) as Hlt. pose proof (wake_length wk t' i ts) as Hlen.
  destruct (decide (j < length ts)%nat) as [Hlj|Hge].
  - rewrite lookup_app_l in Hj by lia. rewrite wake_lookup in Hj.
    destruct (decide (j = i)) as [->|Hne].
    + rewrite list_lookup_insert in Hj by assumption. cbn in Hj. injection Hj as <-. right. left. split; [reflexivity|].
      apply (wake1_code wk t').
    + rewrite list_lookup_insert_ne in Hj by auto. destruct (ts !! j) as [v|] eqn:Ev; [|discriminate]. cbn in Hj. injection Hj as <-.
      left. exists v. do 2 (split; [auto|]). apply (wake1_code wk v).
  - rewrite lookup_app_r in Hj by lia. rewrite Hlen in Hj. right. right. exists (j - length ts)%nat. split; [lia|assumption].
Qed.
Lemma after_other i t' wk sp ts j v : ts !! j = Some v -> j <> i ->
  exists u, (wake wk (<[i := t']> ts) ++ sp) !! j = Some u /\ gKind u = gKind v /\ woke wk (gCode v) (gCode u).
Proof.
  intros Hv Hne. pose proof (lookup_lt_Some _ _ _ Hv) as Hlt. pose proof (wake_length wk t' i ts) as Hlen.
  rewrite lookup_app_l by lia. rewrite wake_lookup, list_lookup_insert_ne, Hv by auto. cbn.
  eexists. split; [reflexivity|]. apply (wake1_code wk v).
Qed.
Lemma after_self i t t' wk sp ts : ts !! i = Some t ->
  exists u, (wake wk (<[i := t']> ts) ++ sp) !! i = Some u /\ gKind u = gKind t' /\ woke wk (gCode t') (gCode u).
Proof.
  intros Hv. pose proof (lookup_lt_Some _ _ _ Hv) as Hlt. pose proof (wake_length wk t' i ts) as Hlen.
  rewrite lookup_app_l by lia. rewrite wake_lookup, list_lookup_insert by auto. cbn.
  eexists. split; [reflexivity|]. apply (wake1_code wk t').
Qed.
Lemma after_spawn i t' wk sp ts n u : sp !! n = Some u -> (wake wk (<[i := t']> ts) ++ sp) !! (length ts + n)%nat = Some u.
Proof.
  intros H. pose proof (wake_length wk t' i ts) as Hlen.
  rewrite lookup_app_r by lia. rewrite <- H. f_equal. lia.
Qed.

(** ** The basic invariant *)
Record linv (s : lsys) : Prop := {
  v_codes : forall i t, lT s !! i = Some t -> In (gCode t) (codes (gKind t));
  v_cnt : forall w, count w (lG s) = tot (weigh w) (lT s);
  v_nonneg : forall w, 0 <= count w (lG s);
  v_up : b2z (hStarted (lG s)) = tot w_up (lT s);
  v_mu : forall i t, lT s !! i = Some t -> in_cs (gCode t) = true <-> hMu (lG s) = Some i;
  v_owner : forall i, hMu (lG s) = Some i -> exists t, lT s !! i = Some t;
  v_sleep : forall i k w c, lT s !! i = Some (Gor k (Sleep w :: c)) -> 0 < count w (lG s)
}.

Lemma codes_cs k o c : In (o :: c) (codes k) ->
  match o with
  | Lock => in_cs (o :: c) = false /\ in_cs c = true
  | Unlock => in_cs (o :: c) = true /\ in_cs c = false
  | DoneW _ => in_cs c = in_cs (o :: c)
  | _ => Forall (fun c' => in_cs c' = in_cs (o :: c)) (next_codes o c)
  end.
Proof.
  intros H. codes_check (fun code => match code with [] => true | o :: c => match o with
    | Lock => negb (in_cs (o :: c)) && in_cs c
    | Unlock => in_cs (o :: c) && negb (in_cs c)
    | DoneW _ => eqb (in_cs c) (in_cs (o :: c))
    | _ => forallb (fun c' => eqb (in_cs c') (in_cs (o :: c))) (next_codes o c) end end) H.
  destruct o; try (apply forallb_True in H || idtac);
    try (apply Forall_forall; intros c' Hc'; apply elem_of_list_In in Hc'; rewrite forallb_forall in H; specialize (H _ Hc'); now apply eqb_prop in H).
  - apply andb_true_iff in H as [H1 H2]. now apply negb_true_iff in H1.
  - apply andb_true_iff in H as [H1 H2]. now apply negb_true_iff in H2.
  - now apply eqb_prop in H.
Qed.
