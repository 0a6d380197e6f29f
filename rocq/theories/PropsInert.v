(** * C60: what the records say steers nothing *)
From Verif Require Import InertSpec InertProofs Demo.
From stdpp Require Import gmap list.
Open Scope Z_scope.
Open Scope list_scope.

(** Run the mock twice on the same schedule and the same requests, with other
    bytes in the keys and values posted (of the same lengths), other headers,
    other times in the records and another wall clock.  The same things happen in
    the same order: requests taken up, commits, calls returning, closings,
    panics.  Every write has the same length, and it is the same bytes unless it
    answers a Fetch or a ListOffsets. *)
Theorem C60_same_course port ch es es' : Forall2 alike_ev es es' ->
  like_traces none (snd (run (init port ch) es)) (snd (run (init port ch) es')).
Proof. exact (inert port ch es es'). Qed.
Print Assumptions C60_same_course.

(** In sums: panics, requests taken up, bytes sent, logs, offsets of groups. *)
Theorem C60_sums port ch es es' : Forall2 alike_ev es es' ->
  let os := snd (run (init port ch) es) in let os' := snd (run (init port ch) es') in
  crashed os = crashed os' /\
  (forall c, frames c os = frames c os' /\ Datatypes.length (writes c os) = Datatypes.length (writes c os')) /\
  (forall t p, Forall2 alike_rec (tr_log t p os) (tr_log t p os')) /\
  (forall t p g, tr_off t p g os = tr_off t p g os').
Proof. exact (inert_sums port ch es es'). Qed.
Print Assumptions C60_sums.

(** A client that sends neither Fetch nor ListOffsets cannot tell the two apart. *)
Theorem C60_blind port ch es es' c : Forall2 alike_ev es es' ->
  (forall m, In m (frames c (snd (run (init port ch) es))) -> asks_records m = false) ->
  writes c (snd (run (init port ch) es)) = writes c (snd (run (init port ch) es')).
Proof. exact (inert_conn port ch es es' c). Qed.
Print Assumptions C60_blind.

(** The lengths do steer: the same history but for the length of one value, and
    a Fetch is answered in one and not in the other. *)
Theorem C60_lengths_refuted : exists t p k v v' h ts A B,
  writes 0 (snd (run (init 9092 []) (A ++ EvCall (CallPost t p k (Some v) h ts) :: B))) <> [] /\
  writes 0 (snd (run (init 9092 []) (A ++ EvCall (CallPost t p k (Some v') h ts) :: B))) = [].
Proof. exact longer_unanswered. Qed.
Print Assumptions C60_lengths_refuted.

(** Two histories with other bytes, headers, times and clock: the first client
    fetches and gets other bytes, as many; the second asks for an offset and gets
    the same. *)
Example C60_ex :
  Forall2 alike_ev (inert_demo (Some [1]) (Some [2; 3]) [] (Some 5) 7) (inert_demo (Some [9]) (Some [0; 255]) [(topicB, None)] None 1000).
Proof. exact (demo_alike (Some [1]) (Some [2; 3]) [] (Some 5) 7 (Some [9]) (Some [0; 255]) [(topicB, None)] None 1000 eq_refl eq_refl eq_refl eq_refl). Qed.
Example C60_ex_writes :
  let os := inert_obs (Some [1]) (Some [2; 3]) [] (Some 5) 7 in
  let os' := inert_obs (Some [9]) (Some [0; 255]) [(topicB, None)] None 1000 in
  writes 0 os <> writes 0 os' /\ Datatypes.length (writes 0 os) = 83%nat /\ Datatypes.length (writes 0 os') = 83%nat /\
  writes 1 os = writes 1 os' /\ writes 1 os <> [] /\ (forall m, In m (frames 1 os) -> asks_records m = false).
Proof. exact demo_bytes. Qed.
