(** * PropsTurn: C55, a request that names several partitions *)
From Verif Require Import TurnProofs.
From stdpp Require Import gmap list.
From Coq Require Import Sorted.
Open Scope Z_scope.
Open Scope list_scope.

(** Each entry of the reply is right at a moment of its own, and the moments are
    in the order of the request. *)
Theorem C55_list_in_turn port ch A c corr client replica ts s :
  let m := w_request 2 1 corr client (w_list_req replica ts) in
  l_header 2 1 corr client = true -> l_list replica ts = true -> zlen (w_list_req replica ts) <= 4096 ->
  serving port ch A c m s ->
  answers c s (list_in_turn (A ++ [OFrame c m]) corr ts) (2 * entries ts + 5).
Proof. exact (list_turns port ch A c corr client replica ts s). Qed.
Print Assumptions C55_list_in_turn.

Theorem C55_commit_in_turn port ch A c corr client g gen mem ret ts s :
  let m := w_request 8 2 corr client (w_commit_req g gen mem ret ts) in
  l_header 8 2 corr client = true -> l_commit g gen mem ret ts = true ->
  zlen (w_commit_req g gen mem ret ts) <= 4096 ->
  serving port ch A c m s ->
  answers c s (commit_in_turn (A ++ [OFrame c m]) c corr g ts) (2 * entries ts + 5).
Proof. exact (commit_turns port ch A c corr client g gen mem ret ts s). Qed.
Print Assumptions C55_commit_in_turn.

(** OffsetFetch: in the order of the reply. *)
Theorem C55_offset_fetch_in_turn port ch A c corr client g ts s :
  let m := w_request 9 1 corr client (w_off_req g ts) in
  l_header 9 1 corr client = true -> l_off g ts = true -> zlen (w_off_req g ts) <= 4096 ->
  serving port ch A c m s ->
  answers c s (off_in_turn (A ++ [OFrame c m]) corr g ts) (3 * entries ts + 6).
Proof. exact (off_turns port ch A c corr client g ts s). Qed.
Print Assumptions C55_offset_fetch_in_turn.

(** So a partition asked for twice is not reported shorter the second time. *)
Theorem C55_later_is_more A B es t p i j e1 e2 : in_turn A B list_right es -> (i <= j)%nat ->
  nth_error es i = Some (t, (p, -1), e1) -> nth_error es j = Some (t, (p, -1), e2) ->
  snd e1 <= snd e2.
Proof. exact (later_is_more A B es t p i j e1 e2). Qed.
Print Assumptions C55_later_is_more.

(** But the entries need not be right at one moment: the reply to a ListOffsets
    for two partitions can show the first before a post that took effect, and the
    second after one that took effect later. *)
Theorem C55_one_moment_refuted : exists port ch A c s corr client ts ents evs s' B,
  let m := w_request 2 1 corr client (w_list_req (-1) ts) in
  serving port ch A c m s /\ run s evs = (s', B) /\ sends_ok c evs /\ writes c B = w_reply corr (w_list_resp ents) /\ same_shape ts ents /\
  forall n, ~ Forall (fun x => let '(t, p, e) := x in list_right ((A ++ [OFrame c m]) ++ firstn n B) t p e) (pairs ts ents).
Proof. exact no_snapshot. Qed.
Print Assumptions C55_one_moment_refuted.

(** That reply, in turn. *)
Example C55_ex : l_header 2 1 9 clientA = true /\ l_list (-1) snap_ts = true /\ snap_m = w_request 2 1 9 clientA (w_list_req (-1) snap_ts) /\
  zlen (w_list_req (-1) snap_ts) <= 4096 /\ serving 9092 [] snap_A 0 snap_m snap_s /\
  list_in_turn (snap_A ++ [OFrame 0 snap_m]) 9 snap_ts snap_B (writes 0 snap_B).
Proof.
  split; [reflexivity|]. split; [reflexivity|]. split; [reflexivity|]. split; [vm_compute; discriminate|]. split; [exact snap_serving|exact snap_turn].
Qed.
