(** * WholeHang: Fetch requests that keep the server from ending *)
From Verif Require Export FetchDoom.
From Verif Require Export WholeDrain.
From stdpp Require Import gmap list.
From Coq Require Import ZifyBool ZifyNat.
Open Scope Z_scope.
Open Scope list_scope.

Lemma unanswered_blocks port ch w0 A0 e w1 c m o es w2 B1 x B2 :
  wreach port ch w0 A0 -> wstep w0 e = (w1, WS (OFrame c m) :: o) -> wrun w1 es = (w2, B1 ++ WL x :: B2) -> ends x = true ->
  no_send_failure c es -> sCrash (wS w1) = false ->
  (serving port ch (spart A0) c m (wS w1) -> forall evs s', run (wS w1) evs = (s', spart B1) -> sends_ok c evs -> writes c (spart B1) = []) ->
  crashed (spart B1) = true.
Proof.
  intros R0 H1 H2 Hx Hn Hs Hw. destruct (crashed (spart B1)) eqn:Hcr; [reflexivity|]. exfalso.
  pose proof (wreach_step _ _ _ _ _ _ _ R0 H1) as R1.
  assert (Ho : crashed (spart o) = false).
  { rewrite (crash_trace _ _ _ _ R1), spart_app, crashed_app in Hs. apply orb_false_iff in Hs as [_ Hs]. exact Hs. }
  refine (request_holds port ch w0 A0 e w1 c m o es w2 B1 x B2 R0 H1 H2 Hx _ Hn _).
  { now rewrite spart_app, crashed_app, Ho, Hcr. }
  destruct (wrun_split _ _ _ _ _ _ H2) as (es1 & e2 & es2 & w3 & w3' & C & -> & R3 & H3 & _).
  destruct (serve_events _ _ _ _ R3) as (evs & Hr & Hin). apply (Hw) with (evs := evs) (s' := wS w3); [|exact Hr|].
  - destruct (frame_step _ _ _ _ _ _ H1) as [_ [ev Hev]]. destruct (whole_parts _ _ _ _ R0) as [_ [evs0 Rs]].
    exists evs0, (wS w0), ev, (spart o). auto.
  - apply (no_failure_ok c es1); [|exact Hin]. intros g Hg. apply (Hn g). apply in_or_app. now left.
Qed.

Theorem too_big_blocks port ch w0 A0 e w1 c corr client r w mb ts extra t idx off max o es w2 B1 x B2 :
  let m := w_request 1 2 corr client (w_fetch_req r w mb ts ++ extra) in
  l_header 1 2 corr client = true -> l_fetch r w mb ts = true -> zlen (w_fetch_req r w mb ts) <= 4096 ->
  nonneg_offsets ts ->
  wreach port ch w0 A0 -> wstep w0 e = (w1, WS (OFrame c m) :: o) ->
  In (t, (idx, off, max)) (flat ts) -> tr_has t idx (spart A0) = true ->
  Z.max 0 max < log_size (skipn (Z.to_nat off) (tr_log t idx (spart A0))) ->
  wrun w1 es = (w2, B1 ++ WL x :: B2) -> ends x = true -> no_send_failure c es -> posts_small (spart A0 ++ spart B1) ->
  crashed (spart B1) = true.
Proof.
  intros m Hh Hl Hz Hnn R0 H1 Hin Hhas Hbig H2 Hx Hn Hp.
  assert (Hsv : serving port ch (spart A0) c m (wS w1)).
  { destruct (frame_step _ _ _ _ _ _ H1) as [_ [ev Hev]]. destruct (whole_parts _ _ _ _ R0) as [_ [evs0 Rs]].
    exists evs0, (wS w0), ev, (spart o). auto. }
  assert (Hs : sCrash (wS w1) = false).
  { destruct (serving_inv _ _ _ _ _ _ _ _ _ Hsv (fetch_begin_more _ _ _ _ _ _ _ extra Hh Hl Hz)) as (_ & _ & _ & Hs). exact Hs. }
  apply (unanswered_blocks port ch w0 A0 e w1 c m o es w2 B1 x B2 R0 H1 H2 Hx Hn Hs).
  intros _ evs s' Hr Hok.
  now destruct (fetch_too_big_hangs port ch (spart A0) c corr client r w mb ts extra (wS w1) t idx off max Hh Hl Hz Hnn Hsv Hin Hhas Hbig evs s' (spart B1) Hr Hp).
Qed.
