(** * LifeEnd: what a stop request achieves, in terms of traces *)
From Verif Require Export LifeRest.
From stdpp Require Import gmap list.
From Coq Require Import ZifyBool.
Open Scope Z_scope.
Open Scope list_scope.

Lemma server_app A B : forall m, server_from m (A ++ B) = server_from (server_from m A) B.
Proof. induction A as [|[] A IH]; intros m; cbn; auto. Qed.
Lemma exec_server h i k o x h' pre sp wk os : exec h i k o x = Next h' pre sp wk os -> hLane h' = server_from (hLane h) os.
Proof. intros H. destruct h. destruct o; cbn in H; exec_cases H k; injection H as <- <- <- <- <-; try destruct w; cbn; auto. Qed.
Lemma lane_server s A : lreach s A -> hLane (lG s) = server A.
Proof.
  revert s A. apply (lreach_ind (fun s A => hLane (lG s) = server A)); [reflexivity|].
  intros s A e s' o R I IH H. unfold server in *. rewrite server_app, <- IH.
  apply lstep_cases in H as [[-> ->]|[(p & -> & -> & _)|[(cl & -> & _ & -> & ->)|[(-> & _ & -> & ->)|(i & x & k & o' & c & -> & _ & Hi & [(h & pre & sp & wk & Hx & ->)|(pre & p & Hx & -> & ->)])]]]]; cbn [lT lG]; try reflexivity.
  - cbn. destruct (lG s); reflexivity.
  - eapply exec_server; eauto.
Qed.
Lemma exec_close h i k o x h' pre sp wk os g : exec h i k o x = Next h' pre sp wk os -> g ∈ hClosed h' <-> g ∈ hClosed h \/ In (LClose i g) os.
Proof.
  intros H. destruct h. destruct o; cbn in H; exec_cases H k; injection H as <- <- <- <- <-; try destruct w; cbn in *; try set_solver.
  all: try (split; [intros [E|E]%elem_of_union; [apply elem_of_singleton in E; subst; auto|auto]|intros [E|[E|[]]]; [set_solver|injection E as ->; set_solver]]).
Qed.
Lemma exec_close_own h i k o x h' pre sp wk os j g : exec h i k o x = Next h' pre sp wk os -> In (LClose j g) os -> j = i.
Proof. intros H Hin. destruct o; cbn in H; exec_cases H k; injection H as <- <- <- <- <-; try contradiction; destruct Hin as [E|[]]; try discriminate E; congruence. Qed.
Lemma closed_trace s A : lreach s A -> forall g, g ∈ hClosed (lG s) <-> exists k, In (LClose k g) A.
Proof.
  revert s A. apply (lreach_ind (fun s A => forall g, g ∈ hClosed (lG s) <-> exists k, In (LClose k g) A)).
  { intros g. split; [intros H; cbn in H; set_solver|intros [k []]]. }
  intros s A e s' o R I IH H g.
  assert (Hsame : hClosed (lG s') = hClosed (lG s) -> (forall k, ~ In (LClose k g) o) -> g ∈ hClosed (lG s') <-> exists k, In (LClose k g) (A ++ o)).
  { intros -> Hn. rewrite IH. split; intros [k Hk]; exists k; [now apply in_mono|]. apply in_app_or in Hk as [?|Hk]; [assumption|]. now apply Hn in Hk. }
  apply lstep_cases in H as [[-> ->]|[(p & -> & -> & _)|[(cl & -> & _ & -> & ->)|[(-> & _ & -> & ->)|(i & x & k & o' & c & -> & _ & Hi & [(h & pre & sp & wk & Hx & ->)|(pre & p & Hx & -> & ->)])]]]]; cbn [lT lG] in *.
  - apply Hsame; auto.
  - apply Hsame; [reflexivity|]. intros k [E|[]]; discriminate E.
  - apply Hsame; [reflexivity|]. intros k [E|[]]; discriminate E.
  - apply Hsame; [now destruct (lG s)|auto].
  - rewrite (exec_close _ _ _ _ _ _ _ _ _ _ g Hx), IH. split.
    + intros [[j Hj]|Hj]; [exists j; now apply in_mono|exists i; apply in_or_app; now right].
    + intros [j Hj]. apply in_app_or in Hj as [Hj|Hj]; [left; eauto|right]. rewrite <- (exec_close_own _ _ _ _ _ _ _ _ _ _ _ _ Hx Hj). assumption.
  - apply Hsame; [reflexivity|]. intros k' [E|[]]; discriminate E.
Qed.

Lemma listened g s A : lreach s A -> forall i k c, lT s !! i = Some (Gor k c) ->
  bool_decide (k = KRun g) && match c with Listen _ :: _ => false | _ => true end = true -> In (LListen g) A.
Proof.
  apply (code_inv (fun k c => bool_decide (k = KRun g) && match c with Listen _ :: _ => false | _ => true end) (fun _ A => In (LListen g) A)).
  - intros i B o H. now apply in_mono.
  - intros [cl|g'|g' n]; [|cbn; now rewrite andb_false_r|]; rewrite bool_decide_eq_false_2 by discriminate; reflexivity.
  - intros k w c H; exact H.
  - intros s0 B i k o c x h pre sp wk os R Hi Hc Hx HQ. apply andb_true_iff in HQ as [Hk _]. rewrite Hk. apply bool_decide_eq_true in Hk. subst k.
    destruct o; try (left; reflexivity). right. cbn in Hx. assert (g0 = g) as ->.
    { clear - Hc. cbn in Hc. repeat destruct Hc as [Hc|Hc]; try discriminate Hc; try contradiction; injection Hc as -> _; reflexivity. }
    destruct x; try discriminate Hx; injection Hx as <- <- <- <- <-; apply in_elt.
  - intros s0 B i k o c x pre p R Hi Hc Hx HQ. apply andb_true_iff in HQ as [Hk _]. apply bool_decide_eq_true in Hk. subst k. destruct (panic_call _ _ _ _ _ _ _ Hx) as [cl Ek]. discriminate Ek.
Qed.

(** ** The stop request that does something *)
Theorem stop_closes s A B i C : lreach s A -> A = B ++ LReturn i :: C -> In (LBegin i CStop) B -> In (LStop i) B ->
  (exists j, start_overlaps B i j) \/ up B = false \/ exists g k, server B = Some g /\ In (LClose k g) B /\ In (LCancel i g) B.
Proof.
  intros R E Hb Hs. destruct (return_at _ _ _ _ _ _ R E Hb) as (s1 & c & R1 & Hi & _).
  destruct (stop_inv _ _ R1 _ _ Hi Hs) as [?|[Hd|(g & Hg & Hc & Hcn)]]; [auto|right; left; now rewrite <- (up_started _ _ R1)|].
  right. right. apply (closed_trace _ _ R1) in Hc as [k Hk]. exists g, k. rewrite <- (lane_server _ _ R1). auto.
Qed.

(** ** At rest *)
Lemma rest_all s A : lreach s A -> lCrash s = false -> at_rest s -> hStarted (lG s) = false -> (forall i t, lT s !! i = Some t -> gCode t = []).
Proof.
  intros R Hc Hr Hd i t Hi. pose proof (lreach_inv _ _ R) as I.
  assert (Hno : forall j g, lT s !! j <> Some (Gor (KRun g) [Accept g])).
  { intros j g Hj. pose proof (v_up s I) as Hu. rewrite Hd in Hu. cbn in Hu.
    assert (E : wt w_up (gCode (Gor (KRun g) [Accept g])) = 0); [|discriminate E].
    eapply (tot_zero w_up); [intros j' u Hu'; apply (sum_nonneg s I _ _ Hu')|now symmetry|exact Hj]. }
  destruct (rest_inv _ _ R Hc Hr _ _ Hi) as [?|[(g & -> & _)|(cl & c & ->)]]; [assumption|now apply Hno in Hi|].
  pose proof (v_sleep s I _ _ _ _ Hi) as Hw. cbn in Hw. destruct (rest_accept _ _ R Hc Hr Hw) as (j & g & Hj & _). now apply Hno in Hj.
Qed.
Lemma over_ended s A i cl : lreach s A -> lT s !! i = Some (Gor (KCall cl) []) -> call_ended A i.
Proof. intros R Hi. destruct (call_over _ _ R _ _ _ Hi) as [?|[p Hp]]; [reflexivity|left; assumption|right; eauto]. Qed.
(** At rest every call has ended, unless it waits for a server that is up. *)
Theorem rest_calls s A i cl : lreach s A -> lCrash s = false -> at_rest s -> In (LBegin i cl) A ->
  call_ended A i \/ (up A = true /\ (cl = CWait \/ cl = CRestart)).
Proof.
  intros R Hc Hr Hb. destruct (begin_thread _ _ R _ _ Hb) as [code Hi]. pose proof (lreach_inv _ _ R) as I.
  destruct (rest_inv _ _ R Hc Hr _ _ Hi) as [Hn|[(g & Et & _)|(cl' & c & Et)]].
  - left. cbn in Hn. subst. eapply over_ended; eauto.
  - discriminate Et.
  - injection Et as <- ->. right. split.
    + rewrite <- (up_started _ _ R). destruct (hStarted (lG s)) eqn:Hd; [reflexivity|]. pose proof (rest_all _ _ R Hc Hr Hd _ _ Hi) as E. discriminate E.
    + pose proof (v_codes s I _ _ Hi) as Hin. destruct cl; auto; exfalso; cbn in Hin; repeat destruct Hin as [Hin|Hin]; try discriminate Hin; contradiction.
Qed.
(** At rest the server is down with nothing left of it, or it listens. *)
Theorem rest_server s A : lreach s A -> lCrash s = false -> at_rest s ->
  all_gone A /\
  ((up A = false /\ all_down A /\ forall i cl, In (LBegin i cl) A -> call_ended A i) \/
   (up A = true /\ exists g, server A = Some g /\ In (LListen g) A /\ forall k, ~ In (LClose k g) A)).
Proof.
  intros R Hc Hr. pose proof (lreach_inv _ _ R) as I. split.
  - intros g n Hin. destruct (conn_alive _ _ R _ _ Hin) as [?|(i & c & Hi & Hf)]; [assumption|]. exfalso.
    destruct (client_forget _ _ _ (v_codes s I _ _ Hi) Hf) as [Ha _].
    destruct (rest_inv _ _ R Hc Hr _ _ Hi) as [Hn|[(g' & Et & _)|(cl' & c' & Et)]]; try discriminate Et. cbn in Hn. subst c. cbn in Ha. lia.
  - rewrite <- (up_started _ _ R). destruct (hStarted (lG s)) eqn:Hd; [right|left].
    + split; [reflexivity|]. assert (Hg : exists j g, lT s !! j = Some (Gor (KRun g) [Accept g]) /\ g ∉ hClosed (lG s)).
      { destruct (up_run _ _ R Hd) as [(j & g & c & Hj & Hw)|(j & cl & c & Hj & Hs & He & Hw)].
        - destruct (rest_inv _ _ R Hc Hr _ _ Hj) as [Hn|[(g' & Et & ?)|(cl' & c' & Et)]]; [cbn in Hn; subst c; cbn in Hw; lia| |discriminate Et].
          injection Et as <- ->. eauto.
        - destruct (rest_inv _ _ R Hc Hr _ _ Hj) as [Hn|[(g' & Et & ?)|(cl' & c' & Et)]]; [cbn in Hn; subst c; cbn in Hw; lia|discriminate Et|].
          injection Et as <- ->. pose proof (v_sleep s I _ _ _ _ Hj) as Hz. exact (rest_accept _ _ R Hc Hr Hz). }
      destruct Hg as (j & g & Hj & Hg). exists g. rewrite <- (lane_server _ _ R). split; [eapply (l_lane _ (lreach_sinv _ _ R)); [exact Hj|cbn; lia]|].
      split; [|intros k Hk; apply Hg, (closed_trace _ _ R); eauto].
      eapply (listened g); [exact R|exact Hj|]. now rewrite bool_decide_eq_true_2.
    + split; [reflexivity|]. split.
      * intros g Hin. destruct (listen_alive _ _ R _ Hin) as [?|(i & c & Hi & Hw)]; [assumption|]. pose proof (rest_all _ _ R Hc Hr Hd _ _ Hi) as E. cbn in E. subst c. cbn in Hw. lia.
      * intros i cl Hb. destruct (rest_calls _ _ _ _ R Hc Hr Hb) as [?|[Hu _]]; [assumption|]. rewrite <- (up_started _ _ R), Hd in Hu. discriminate Hu.
Qed.
(** A stop request that took effect and that no Start or Restart overlaps or
    follows: at rest the server is down and every call has ended. *)
Theorem stop_wins s A i : lreach s A -> lCrash s = false -> at_rest s -> In (LBegin i CStop) A -> In (LStop i) A ->
  (forall j, ~ start_overlaps A i j) ->
  up A = false /\ all_gone A /\ all_down A /\ forall j cl, In (LBegin j cl) A -> call_ended A j.
Proof.
  intros R Hc Hr Hb Hs Hno. destruct (rest_server _ _ R Hc Hr) as [Hg [(Hu & Hd & He)|(Hu & g & Hv & _ & Hcl)]]; [auto|]. exfalso.
  destruct (begin_thread _ _ R _ _ Hb) as [code Hi]. assert (code = []) as ->.
  { destruct (rest_inv _ _ R Hc Hr _ _ Hi) as [Hn|[(g' & Et & _)|(cl' & c & Et)]]; [exact Hn|discriminate Et|].
    injection Et as <- ->. exfalso. pose proof (v_codes s (lreach_inv _ _ R) _ _ Hi) as Hin. cbn in Hin. repeat destruct Hin as [Hin|Hin]; try discriminate Hin; contradiction. }
  destruct (stop_inv _ _ R _ _ Hi Hs) as [[j Hj]|[Hd|(g' & Hg' & Hc' & _)]].
  - exact (Hno j Hj).
  - rewrite (up_started _ _ R) in Hd. congruence.
  - rewrite (lane_server _ _ R), Hv in Hg'. injection Hg' as <-. apply (closed_trace _ _ R) in Hc' as [k Hk]. exact (Hcl k Hk).
Qed.
