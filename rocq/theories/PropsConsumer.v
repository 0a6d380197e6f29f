(** * PropsConsumer: the consumer loop (C29) *)
From Verif Require Import ConsumerProofs ConsumerDemo.
From stdpp Require Import gmap list.
Open Scope Z_scope.
Open Scope list_scope.

(** The messages received are the records from the offset at the start on, each
    once, in posting order; the group's offset is just behind them; and nothing
    posted before the last Fetch was taken up is missing.  The start may be any
    moment, also just after SetConsumerGroupOffset. *)
Theorem C29_consumer_loop port ch t p g A0 A got F :
  consumes port ch t p g A0 A got F -> posts_small A ->
  let o := tr_off t p g A0 in 0 <= o -> l_i64 o = true ->
  A0 `prefix_of` A /\ F `prefix_of` A /\
  got = firstn (length got) (skipn (Z.to_nat o) (map msg_of_rec (tr_log t p A))) /\
  tr_off t p g A = o + zlen got /\ l_i64 (o + zlen got) = true /\
  zlen (tr_log t p F) <= o + zlen got.
Proof. exact (consumer_loop port ch t p g A0 A got F). Qed.
Print Assumptions C29_consumer_loop.

(** After a reset to k the client starts from record k. *)
Theorem C29_after_reset port ch t p g i k A0 A got F :
  consumes port ch t p g (A0 ++ [OSet i t p g k; OReturn i]) A got F -> posts_small A ->
  0 <= k <= 9223372036854775807 ->
  got = firstn (length got) (skipn (Z.to_nat k) (map msg_of_rec (tr_log t p A))) /\
  zlen (tr_log t p F) <= k + zlen got.
Proof. exact (consumer_reset port ch t p g i k A0 A got F). Qed.
Print Assumptions C29_after_reset.

(** Two rounds, the second on a new connection after a restart and a post.
    Group g stands at 1, so the second record of the demo store comes first. *)
Example C29_ex : exists (A F : list obs),
  consumes 9092 [] topicA 2 groupA (trace_of demo_setup) A
    [(77, None, Some []); (200, Some [9], None)] F /\
  posts_small A /\ tr_off topicA 2 groupA (trace_of demo_setup) = 1 /\ In ORestart A.
Proof. exact consumer_demo. Qed.
