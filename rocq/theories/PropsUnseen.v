(** * PropsUnseen: C54, connections that only read *)
From Verif Require Import UnseenProofs Demo.
From stdpp Require Import gmap list.
Open Scope Z_scope.
Open Scope list_scope.

(** Take any execution, and any set of connections that commit nothing in it and
    do not bring the process down.  There is an execution in which these
    connections are sent nothing, everyone else does the same in the same order,
    and everything else that can be observed is the same. *)
Theorem C54_unseen Q port ch evs s A : run (init port ch) evs = (s, A) -> only_read Q A ->
  exists evs' s' A', run (init port ch) evs' = (s', A') /\ silent Q evs' /\ remaining Q evs' = remaining Q evs /\ A' = without Q A /\
    (forall c, Q c = false -> reads c A' = reads c A /\ frames c A' = frames c A /\ writes c A' = writes c A) /\
    (forall t p, tr_log t p A' = tr_log t p A /\ tr_has t p A' = tr_has t p A) /\
    (forall t p g, tr_off t p g A' = tr_off t p g A) /\
    (forall c, Q c = true -> reads c A' = [] /\ frames c A' = [] /\ writes c A' = []).
Proof. exact (unseen_full Q port ch evs s A). Qed.
Print Assumptions C54_unseen.

(** Two executions without a Restart in which everyone but the connections of [Q]
    does the same in the same order, while these do different things, but only
    read: the others see the same. *)
Theorem C54_independent Q port ch evs1 evs2 s1 s2 A1 A2 :
  run (init port ch) evs1 = (s1, A1) -> run (init port ch) evs2 = (s2, A2) -> only_read Q A1 -> only_read Q A2 ->
  remaining Q evs1 = remaining Q evs2 -> ~ In EvRestart evs1 ->
  seen_by_others Q A1 = seen_by_others Q A2.
Proof. exact (unseen_twice Q port ch evs1 evs2 s1 s2 A1 A2). Qed.
Print Assumptions C54_independent.

(** Connection 0 asks for the offset of a group that has none (which puts an
    entry into the store) and for records, while connection 1 commits. *)
Definition unseen_ex (readers : list event) : list event :=
  demo_setup ++ [EvAccept; EvConn 1 ch0] ++ readers ++
  [EvRecv 1 (w_frame (w_request 8 2 6 clientA (w_commit_req groupA 0 [] 0 [(topicA, [(2, 5, None)])])))] ++
  repeat (EvConn 1 ch0) 12.
Definition unseen_readers : list event :=
  [EvRecv 0 (w_frame (w_request 9 1 7 clientA (w_off_req (w_text "new") [(topicA, [2])])))] ++ repeat (EvConn 0 ch0) 12 ++
  [EvRecv 0 (w_frame (w_request 1 2 8 clientA (w_fetch_req (-1) 0 1 [(topicA, [(2, 0, 1000)])])))] ++ repeat (EvConn 0 ch0) 30.
Lemma only_read_check Q A :
  forallb (fun o => match o with OCrash c => negb (Q c) | OCommit c _ _ _ _ => negb (Q c) | _ => true end) A = true -> only_read Q A.
Proof.
  intros H c q. rewrite forallb_forall in H. split.
  - intros I. specialize (H _ I). cbn in H. now rewrite q in H.
  - intros t p g o I. specialize (H _ I). cbn in H. now rewrite q in H.
Qed.
Example C54_ex : let Q c := Nat.eqb c 0 in
  let A1 := snd (run (init 9092 []) (unseen_ex unseen_readers)) in let A2 := snd (run (init 9092 []) (unseen_ex [])) in
  only_read Q A1 /\ only_read Q A2 /\ remaining Q (unseen_ex unseen_readers) = remaining Q (unseen_ex []) /\
  length (frames 0 A1) = 2%nat /\ (length (writes 0 A1) > 100)%nat /\ writes 0 A2 = [] /\
  writes 1 A1 = w_reply 6 (w_commit_resp [(topicA, [(2, 0)])]) /\ writes 1 A2 = writes 1 A1 /\ tr_off topicA 2 groupA A1 = 5.
Proof.
  cbn zeta. split; [apply only_read_check; vm_compute; reflexivity|]. split; [apply only_read_check; vm_compute; reflexivity|].
  split; [vm_compute; reflexivity|]. split; [vm_compute; reflexivity|]. split; [vm_compute; lia|].
  split; [vm_compute; reflexivity|]. split; [vm_compute; reflexivity|]. split; vm_compute; reflexivity.
Qed.
