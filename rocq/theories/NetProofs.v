(** * NetProofs: the classification of socket errors *)
From Verif Require Import ServerProofs NetErrors NetSpec.
From stdpp Require Import gmap.
Open Scope Z_scope.
Open Scope list_scope.

Section GerrInd.
  Variable P : gerr -> Prop.
  Hypothesis H : forall k l, Forall P l -> P (GErr k l).
  Fixpoint gerr_ind' (e : gerr) : P e.
  Proof.
    destruct e as [k l]. apply H. induction l as [|x l IH]; constructor; [apply gerr_ind'|exact IH].
  Defined.
End GerrInd.

Definition anyIs (t : sentinel) := fix go (l : list gerr) := match l with [] => false | x :: l' => errorsIs x t || go l' end.
Lemma errorsIs_eq k l t : errorsIs (GErr k l) t =
  match k with KSent s => sentinel_eqb s t | KOther f => f t | _ => false end || anyIs t l.
Proof. reflexivity. Qed.
Lemma sentinel_eqb_eq a b : sentinel_eqb a b = true <-> a = b.
Proof.
  destruct a, b; cbn; try (split; congruence). rewrite Nat.eqb_eq. split; congruence.
Qed.
Lemma anyIs_true t l : anyIs t l = true <-> exists x, In x l /\ errorsIs x t = true.
Proof.
  induction l as [|y l IH]; cbn [anyIs].
  - split; [discriminate|]. intros (x & [] & _).
  - rewrite orb_true_iff, IH. split.
    + intros [Hy|(x & Hx & He)]; [exists y|exists x]; cbn; auto.
    + intros (x & [<-|Hx] & He); [auto|right; exists x; auto].
Qed.
Lemma errorsIs_holds e t : errorsIs e t = true <-> holds e t.
Proof.
  induction e as [k l IH] using gerr_ind'. rewrite errorsIs_eq, orb_true_iff, anyIs_true. rewrite Forall_forall in IH. split.
  - intros [Hk|(x & Hx & He)].
    + exists (GErr k l), l. split; [constructor|]. destruct k; try discriminate.
      * left. apply sentinel_eqb_eq in Hk as ->. reflexivity.
      * right. exists is. auto.
    + apply IH in He as (z & lz & Hz & Hc); [|apply elem_of_list_In, Hx]. exists z, lz. split; [|exact Hc].
      econstructor; eauto.
  - intros (x & lx & Hw & Hc). inversion Hw as [|? ? y ? Hy Hyx]; subst.
    + left. destruct Hc as [E|(f & E & Hf)]; injection E as -> _; [apply sentinel_eqb_eq; reflexivity|exact Hf].
    + right. exists y. split; [exact Hy|]. apply IH; [apply elem_of_list_In, Hy|]. exists x, lx. auto.
Qed.
Lemma errorsIs_false e t : errorsIs e t = false <-> ~ holds e t.
Proof. rewrite <- errorsIs_holds. destruct (errorsIs e t); split; congruence. Qed.

Lemma wasSocketClosed_iff e : wasSocketClosed e = true <-> holds e SEof \/ holds e SClosed \/ direct_reset e.
Proof.
  unfold wasSocketClosed. rewrite !orb_true_iff, !errorsIs_holds.
  match goal with |- (_ \/ _) \/ ?X <-> _ => assert (R : X <-> direct_reset e); [|tauto] end. unfold direct_reset. split.
  - destruct e as [k l]; cbn [ekindof ferr eunder]. destruct k; try discriminate.
    destruct l as [|[k1 l1] [|]]; try discriminate. destruct k1; try discriminate. cbn [ferr eunder].
    destruct l1 as [|[k2 l2] [|]]; try discriminate. destruct k2; try discriminate.
    intros ->%Z.eqb_eq. exists l2. reflexivity.
  - intros (l & ->). reflexivity.
Qed.

Definition verdict_event (c : nat) (v : verdict) : event :=
  match v with VAgain => EvTimeout c | VEnd => EvPeerClose c | VPanic => EvReadErr c end.
Lemma readError_judged c e v : judged e v <-> readError c e = verdict_event c v.
Proof.
  unfold readError. split.
  - intros J. inversion J as [? H|? H1 H2|? H1 H2 H3 H4]; subst.
    + apply errorsIs_holds in H as ->. reflexivity.
    + apply errorsIs_false in H1 as ->. apply wasSocketClosed_iff in H2 as ->. reflexivity.
    + apply errorsIs_false in H1 as ->. destruct (wasSocketClosed e) eqn:E; [|reflexivity].
      apply wasSocketClosed_iff in E. tauto.
  - destruct (errorsIs e SDeadline) eqn:E1.
    + intros E. destruct v; try discriminate E. constructor. apply errorsIs_holds, E1.
    + apply errorsIs_false in E1. destruct (wasSocketClosed e) eqn:E2; intros E; destruct v; try discriminate E.
      * apply j_end; [exact E1|]. apply wasSocketClosed_iff, E2.
      * assert (N : ~ (holds e SEof \/ holds e SClosed \/ direct_reset e)).
        { rewrite <- wasSocketClosed_iff, E2. discriminate. }
        apply j_panic; tauto.
Qed.

(** Every error is judged in exactly one way. *)
Theorem net_judged e : exists v, judged e v /\ forall w, judged e w -> w = v.
Proof.
  assert (X : exists v, readError 0 e = verdict_event 0 v).
  { unfold readError. destruct (errorsIs e SDeadline); [exists VAgain; reflexivity|].
    destruct (wasSocketClosed e); [exists VEnd|exists VPanic]; reflexivity. }
  destruct X as (v & Hv). exists v. split; [apply (readError_judged 0), Hv|].
  intros w Hw. apply (readError_judged 0) in Hw. rewrite Hv in Hw. destruct v, w; cbn in Hw; congruence.
Qed.

(** What it does to the server. *)
Theorem net_read s c inb e v : sCrash s = false -> sConns s !! c = Some (Conn inb CRead) -> judged e v ->
  let s' := fst (step s (readError c e)) in
  sDs s' = sDs s /\ sThreads s' = sThreads s /\ (forall d, d <> c -> sConns s' !! d = sConns s !! d) /\
  match v with
  | VAgain => sCrash s' = false /\ sConns s' !! c = Some (Conn inb CLoop) /\ snd (step s (readError c e)) = []
  | VEnd => sCrash s' = false /\ sConns s' !! c = Some (Conn inb CClosed) /\ snd (step s (readError c e)) = [OClosed c]
  | VPanic => sCrash s' = true /\ snd (step s (readError c e)) = [OCrash c]
  end.
Proof.
  intros Hc Hk J. apply (readError_judged c) in J. rewrite J. cbv zeta. unfold step. rewrite Hc.
  pose proof (lookup_lt_Some _ _ _ Hk) as L.
  destruct v; cbn [verdict_event]; rewrite Hk; cbn [fst snd set_conn crash sDs sThreads sConns sCrash].
  - rewrite list_lookup_insert by exact L. repeat split; auto. intros d Hd. apply list_lookup_insert_ne. congruence.
  - rewrite list_lookup_insert by exact L. repeat split; auto. intros d Hd. apply list_lookup_insert_ne. congruence.
  - repeat split; auto.
Qed.

(** A TCP connection. *)
Lemma holds_errno n t : ~ holds (tcpRead (ReadErrno n)) t.
Proof. rewrite <- errorsIs_holds. cbn. discriminate. Qed.
Theorem net_tcp r :
  judged (tcpRead r)
    match r with
    | ReadDeadline => VAgain
    | ReadEof | ReadClosed => VEnd
    | ReadErrno n => if n =? 104 then VEnd else VPanic
    end.
Proof. apply (readError_judged 0). destruct r as [| | |n]; try reflexivity.
  unfold readError. cbn. unfold ECONNRESET. destruct (n =? 104); reflexivity.
Qed.
Theorem net_tcp_panics r : judged (tcpRead r) VPanic <-> exists n, r = ReadErrno n /\ n <> 104.
Proof.
  pose proof (net_tcp r) as J. split.
  - intros J'. destruct (net_judged (tcpRead r)) as (v & _ & U). pose proof (U _ J). pose proof (U _ J'). subst.
    destruct r as [| | |n]; try congruence. exists n. split; [reflexivity|]. intros ->. discriminate.
  - intros (n & -> & Hn). apply Z.eqb_neq in Hn. cbn [tcpRead] in *. rewrite Hn in J. exact J.
Qed.

(** Wrapped once more, a reset is not recognised. *)
Theorem net_wrapped_reset k n : (forall f, k = KOther f -> forall t, f t = false) -> (forall t, k <> KSent t) ->
  judged (GErr k [tcpRead (ReadErrno n)]) VPanic.
Proof.
  intros Hf Hs. apply (readError_judged 0). unfold readError.
  assert (X : forall t, errorsIs (GErr k [tcpRead (ReadErrno n)]) t = false).
  { intros t. rewrite errorsIs_eq. destruct k; cbn; try reflexivity; [exfalso; eapply Hs; reflexivity|].
    rewrite (Hf is eq_refl). reflexivity. }
  unfold wasSocketClosed. rewrite !X. cbn [orb]. destruct k; reflexivity.
Qed.

(** Accept. *)
Theorem net_accept e : acceptError e = true <-> holds e SEof \/ holds e SClosed \/ direct_reset e.
Proof. apply wasSocketClosed_iff. Qed.

(** A reply that cannot be written. *)
Theorem net_send s c inb chunks file peek : sCrash s = false -> sConns s !! c = Some (Conn inb (CSend chunks)) ->
  let s' := fst (step s (sendError c file peek)) in
  sDs s' = sDs s /\ sThreads s' = sThreads s /\ (forall d, d <> c -> sConns s' !! d = sConns s !! d) /\
  (sCrash s' = true <-> file = true /\ peek <> None) /\
  (sCrash s' = false -> sConns s' !! c = Some (Conn inb CLoop) /\ snd (step s (sendError c file peek)) = []).
Proof.
  intros Hc Hk. cbv zeta. unfold sendError, step. rewrite Hc, Hk. pose proof (lookup_lt_Some _ _ _ Hk) as L.
  destruct file, peek as [n|]; cbn; repeat split; auto; try congruence; try tauto;
    try (intros d Hd; apply list_lookup_insert_ne; congruence); try (apply list_lookup_insert; exact L).
  all: try (intros [? ?]; congruence).
Qed.
