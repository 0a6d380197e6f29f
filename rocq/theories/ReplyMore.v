(** * ReplyMore: consequences of the reply theorems *)
From Verif Require Export CodecMore DispatchProofs ListProofs CommitProofs OffProofs SyncProofs FetchProofs FetchLive FetchDoom FetchPanics.
From stdpp Require Import gmap list.
From Coq Require Import Sorted ZifyBool ZifyNat.
Open Scope Z_scope.
Open Scope list_scope.

(** Weakening of what a right reply is. *)
Lemma answers_mono c s (R R' : list obs -> bytes -> Prop) K : (forall B r, R B r -> R' B r) -> answers c s R K -> answers c s R' K.
Proof.
  intros H Ha evs s' B Hr Hs. destruct (Ha evs s' B Hr Hs) as [H1 H2]. split.
  - destruct H1 as [H1|(B' & r & ? & ? & ?)]; [now left|]. right. exists B', r. auto.
  - intros Hc. destruct (H2 Hc) as (B' & r & ? & ? & ?). exists B', r. auto.
Qed.
Lemma answers_right_mono c s (R R' : list obs -> bytes -> Prop) : (forall B r, R B r -> R' B r) ->
  answers_right c s R -> answers_right c s R'.
Proof.
  intros H Ha evs s' B Hr Hs. destruct (Ha evs s' B Hr Hs) as [H1 H2]. split.
  - destruct H1 as [H1|(B' & r & ? & ? & ?)]; [now left|]. right. exists B', r. auto.
  - intros Hc. destruct (H2 Hc) as (B' & r & ? & ? & ?). exists B', r. auto.
Qed.

(** ** ApiVersions *)
Lemma adv_sorted : StronglySorted Z.lt (map (fun k : Z * Z * Z => fst (fst k)) adv).
Proof. repeat constructor. Qed.

Theorem versions_exact port ch A c corr client s :
  l_header 18 0 corr client = true ->
  serving port ch A c (w_request 18 0 corr client []) s ->
  exists keys,
    answers c s (fun _ r => r = w_reply corr (w_versions_resp 0 keys)) 5 /\
    StronglySorted Z.lt (map (fun k : Z * Z * Z => fst (fst k)) keys) /\
    forall key ver, (exists a, dispatch key ver = Some a) <->
      exists lo hi, In (key, lo, hi) keys /\ lo <= ver <= hi.
Proof.
  intros Hh Hs. exists adv. split; [now apply (versions_answered port ch A c corr client)|]. split; [apply adv_sorted|]. apply dispatch_adv.
Qed.

(** ** ListOffsets *)

(** The position found is determined by the log and the time asked for. *)
Theorem by_time_unique log T o tm o' tm' : by_time log T o tm -> by_time log T o' tm' -> o = o' /\ tm = tm'.
Proof.
  assert (H : forall log T o tm o' tm', by_time log T o tm -> by_time log T o' tm' -> o <= o').
  { clear. intros log T o tm o' tm' (H1 & H2 & H3 & H4) (G1 & G2 & G3 & G4).
    destruct H3 as [->|(r & Hn & Hr & _)]; [lia|]. destruct (Z_le_gt_dec o o') as [|Hgt]; [assumption|].
    specialize (G2 (Z.to_nat (o - 1)) r ltac:(lia) Hn). lia. }
  intros Ha Hb. assert (E : o = o') by (apply Z.le_antisymm; eauto). subst o'. split; [reflexivity|].
  destruct Ha as (_ & _ & H3 & H4), Hb as (_ & _ & G3 & G4).
  destruct (Z.eq_dec o 0) as [->|Hne]; [now rewrite H4, G4|].
  destruct H3 as [|(r & Hn & _ & ->)]; [lia|]. destruct G3 as [|(r' & Hn' & _ & ->)]; [lia|]. congruence.
Qed.

(** With timestamps that never decrease it is the first record not older than [T]. *)
Theorem by_time_first log T o tm : by_time log T o tm ->
  StronglySorted Z.le (map rTs log) ->
  forall k r, nth_error log k = Some r -> (Z.of_nat k < o <-> rTs r < T).
Proof.
  intros (H1 & H2 & H3 & _) Hs k r Hk. split.
  - intros Hlt. destruct H3 as [->|(r' & Hn & Hr & _)]; [lia|].
    assert (rTs r <= rTs r'); [|lia].
    assert (Hle : (k <= Z.to_nat (o - 1))%nat) by lia. clear -Hs Hk Hn Hle.
    revert k Hk Hle. generalize (Z.to_nat (o - 1)) as j, Hn. intros j Hj. clear Hn.
    revert j Hj. induction log as [|x log IH]; intros j Hj k Hk Hle; [destruct k; discriminate|].
    cbn in Hs. apply StronglySorted_inv in Hs as [Hs Hx].
    destruct k as [|k]; cbn in Hk.
    + injection Hk as <-. destruct j as [|j]; cbn in Hj; [injection Hj as <-; lia|].
      apply nth_error_In in Hj. rewrite List.Forall_forall in Hx. apply Hx. now apply in_map.
    + destruct j as [|j]; [lia|]. cbn in Hj. eapply IH; eauto. lia.
  - intros Hlt. destruct (Z_lt_ge_dec (Z.of_nat k) o) as [|Hge]; [assumption|].
    specialize (H2 k r ltac:(lia) Hk). lia.
Qed.

(** Without that, a record of the right age may be passed over. *)
Theorem by_time_skips : exists log T o tm k r,
  by_time log T o tm /\ nth_error log k = Some r /\ Z.of_nat k < o /\ T <= rTs r.
Proof.
  exists [Rec 0 10 None None []; Rec 0 3 None None []], 5, 2, 3, 0%nat, (Rec 0 10 None None []).
  split; [|cbn; repeat split; lia]. split; [vm_compute; split; discriminate|]. split; [|split].
  - intros k r Hk Hn. destruct k as [|[|[|k]]]; cbn in Hn; try lia; discriminate.
  - right. exists (Rec 0 3 None None []). cbn. repeat split; lia.
  - lia.
Qed.

(** ** Fetch, one partition per topic *)
Definition fetch_part_right (A B : list obs) (t : bytes) (p : Z * Z * Z) (e : Z * Z * Z * bytes) : Prop :=
  exists x, fetched A B (t, p) x /\ e = (fst (fst p), 0, fst x, snd x).
Lemma fetch_single A B ts res : Forall (fun t : bytes * list (Z * Z * Z) => exists p, snd t = [p]) ts ->
  Forall2 (fetched A B) (flat ts) res -> entrywise (fetch_part_right A B) ts (fetch_ents ts res).
Proof.
  revert res. induction ts as [|[t ps] ts IH]; intros res Hs Hf.
  - constructor.
  - apply Forall_cons in Hs as [[p E] Hs]. cbn in E. subst ps.
    unfold flat in Hf. cbn [map concat fst snd app] in Hf. fold (flat ts) in Hf.
    destruct res as [|x res]; [inversion Hf|].
    apply Forall2_cons in Hf as [Hx Hf]. cbn [fetch_ents map]. constructor; [|now apply IH].
    split; [reflexivity|]. cbn. constructor; [|constructor]. exists x. auto.
Qed.

Definition fetch_reply_own (A : list obs) (corr wait : Z) (ts : list (bytes * list (Z * Z * Z)))
    (B : list obs) (r : bytes) : Prop :=
  posts_small (A ++ B) ->
  exists ents, r = w_reply corr (w_fetch_resp 0 ents) /\ entrywise (fetch_part_right A B) ts ents.
Theorem fetch_answered_own port ch A c corr client r w mb ts s :
  let m := w_request 1 2 corr client (w_fetch_req r w mb ts) in
  l_header 1 2 corr client = true -> l_fetch r w mb ts = true -> zlen (w_fetch_req r w mb ts) <= 4096 ->
  nonneg_offsets ts -> Forall (fun t : bytes * list (Z * Z * Z) => exists p, snd t = [p]) ts ->
  serving port ch A c m s ->
  answers_right c s (fetch_reply_own (A ++ [OFrame c m]) corr w ts).
Proof.
  intros m Hh Hl Hz Hn H1 Hs. subst m.
  eapply answers_right_mono; [|eapply (fetch_answered_right port ch A c corr client r w mb ts s); eauto].
  - intros B rep Hr Hp. destruct (Hr Hp) as (res & Hf & _ & ->). eexists. split; [reflexivity|]. now apply fetch_single.
  - clear -H1. induction H1 as [|[t ps] ts [p Hp] _ IH]; [cbn; lia|]. cbn in Hp. subst ps.
    unfold flat in *. cbn [map concat fst snd app length] in *. lia.
Qed.

(** ** JoinGroup *)
Theorem join_not_leader port ch A c corr client group session rebalance member ptype protocols s :
  l_header 11 1 corr client = true -> l_join group session rebalance member ptype protocols = true ->
  zlen (w_join_req group session rebalance member ptype protocols) <= 4096 ->
  serving port ch A c (w_request 11 1 corr client (w_join_req group session rebalance member ptype protocols)) s ->
  exists leader me, leader <> me /\
  answers c s (fun _ r => r = w_reply corr
    (w_join_resp 0 0 (w_text "roundrobin") leader me [(w_text "you", None)])) 4.
Proof.
  intros. exists (w_text "me"), (w_text "1"). split; [discriminate|].
  eapply join_answered; eassumption.
Qed.
