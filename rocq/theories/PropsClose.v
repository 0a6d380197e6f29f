(** * PropsClose: kafkaClient.Close (C47) *)
From Verif Require Import CloseSpec CloseProofs CloseMore CloseDemo.
From stdpp Require Import list.
Open Scope Z_scope.
Open Scope list_scope.

(** While calls of Close are under way on connection c, the server still runs as
    Server.v says: all that is proved about its executions holds. *)
Theorem C47_server_run c port ch es k os : krun c (kinit port ch) es = (k, os) -> no_panic os ->
  exists evs, run (init port ch) evs = (kS k, srv os).
Proof. exact (server_run c port ch es k os). Qed.
Print Assumptions C47_server_run.

(** When Close returns the connection's goroutine has ended; nothing more is
    read, started or written. *)
Theorem C47_after_return c port ch e1 k1 A j e2 k2 B :
  krun c (kinit port ch) e1 = (k1, A) -> In (KReturned j) A -> krun c k1 e2 = (k2, B) ->
  (exists inb, sConns (kS k1) !! c = Some (Conn inb CClosed)) /\ untouched c (srv B).
Proof. intros H1 Hj H2. exact (conj (returned_ended c (kinit port ch) e1 k1 A j H1 Hj) (after_return c port ch e1 k1 A j e2 k2 B H1 Hj H2)). Qed.
Print Assumptions C47_after_return.

(** Once the flag is set nothing is read any more (what comes is dropped), and
    what is still started are the complete requests already in the buffer. *)
Theorem C47_after_flag c port ch e1 k1 A i e2 k2 B inb :
  krun c (kinit port ch) e1 = (k1, A) -> In (KStopped i) A ->
  krun c k1 e2 = (k2, B) -> framed_with c (srv A) inb ->
  reads c (srv B) = [] /\ exists rest, inb = concat (map w_frame (frames c (srv B))) ++ rest.
Proof. exact (after_flag c port ch e1 k1 A i e2 k2 B inb). Qed.
Print Assumptions C47_after_flag.

(** If no complete request is in the buffer when the flag is set: no other request
    is started, no call of Close panics, and when one returns, every request has
    been answered in full. *)
Theorem C47_graceful c port ch e1 k1 A i k2 e2 k3 B :
  krun c (kinit port ch) e1 = (k1, A) -> not_begun A -> caught_up c (srv A) ->
  kstep c k1 (KStep i) = (k2, [KStopped i]) -> krun c k2 e2 = (k3, B) ->
  no_panic B /\ frames c (srv B) = [] /\
  (sends_ok c (evs_of (e1 ++ e2)) -> (exists j, In (KReturned j) B) -> all_answered c (srv (A ++ B))).
Proof. exact (graceful c port ch e1 k1 A i k2 e2 k3 B). Qed.
Print Assumptions C47_graceful.

(** A call of Close under way can come to its end, whatever it waits for, once no
    request is in progress or in the buffer: its own steps and those of the
    connection's goroutine suffice. *)
Theorem C47_can_return c port ch es k os i : krun c (kinit port ch) es = (k, os) -> sCrash (kS k) = false ->
  (i < length (kCl k))%nat -> ~ In (KReturned i) os -> busy c (kS k) = false -> caught_up c (srv os) ->
  exists es' k' os', krun c k es' = (k', os') /\ In (KReturned i) os' /\ no_panic os' /\
    Forall (fun ev => ev = EvPeerClose c \/ ev = EvConn c (Ch [] [])) (evs_of es').
Proof. exact (can_return c port ch es k os i). Qed.
Print Assumptions C47_can_return.

(** "prevent starting work on more requests": not those in the buffer. *)
Theorem C47_late_start_refuted : exists e1 k1 A e2 k2 B, krun 0 (kinit 9092 []) e1 = (k1, A) /\ In (KStopped 0) A /\
  krun 0 k1 e2 = (k2, B) /\ frames 0 (srv B) = [beat 8] /\ sCrash (kS k2) = false.
Proof. exact late_run. Qed.
Print Assumptions C47_late_start_refuted.
(** Then the wait for the requests in flight can panic, and the process ends. *)
Theorem C47_panic_refuted : exists es k os, krun 0 (kinit 9092 []) es = (k, os) /\ sends_ok 0 (evs_of es) /\ crashed (srv os) = false /\
  In (KPanicked 0) os /\ sCrash (kS k) = true.
Proof. exact panic_run. Qed.
Print Assumptions C47_panic_refuted.
(** "wait for the in flight requests to complete": the socket can be closed
    between two writes of a reply. *)
Theorem C47_torn_reply_refuted : exists es k os, krun 0 (kinit 9092 []) es = (k, os) /\ sends_ok 0 (evs_of es) /\ no_panic os /\ crashed (srv os) = false /\
  In (KReturned 0) os /\ frames 0 (srv os) = [beat 7; beat 8] /\
  writes 0 (srv os) = w_reply 7 (w_int16 0) ++ firstn 4 (w_reply 8 (w_int16 0)).
Proof. exact torn_run. Qed.
Print Assumptions C47_torn_reply_refuted.

(** The hypotheses of [C47_graceful] and [C47_can_return] hold of a run with a request in
    progress, another one sent after the flag was set, and a Close that returns. *)
Example C47_good_case :
  exists k1 A k2 k3 B, krun 0 (kinit 9092 []) ev_good = (k1, A) /\ not_begun A /\ caught_up 0 (srv A) /\
  kstep 0 k1 (KStep 0) = (k2, [KStopped 0]) /\ krun 0 k2 ev_rest = (k3, B) /\ In (KReturned 0) B /\
  In (KDropped (w_frame (beat 8))) B /\ frames 0 (srv A) = [beat 7] /\ wcount 0 (srv A) = 0%nat /\
  writes 0 (srv B) = w_reply 7 (w_int16 0) /\ sends_ok 0 (evs_of (ev_good ++ ev_rest)).
Proof.
  exists (fst (kr ev_good)), (snd (kr ev_good)), (fst (kstep 0 (fst (kr ev_good)) (KStep 0))),
    (fst (krun 0 (fst (kstep 0 (fst (kr ev_good)) (KStep 0))) ev_rest)), (snd (krun 0 (fst (kstep 0 (fst (kr ev_good)) (KStep 0))) ev_rest)).
  split; [vm_compute; reflexivity|]. split; [intros j Hj; vm_compute in Hj; intuition discriminate|].
  split; [now apply good_caught_up; vm_compute|].
  split; [vm_compute; reflexivity|]. split; [vm_compute; reflexivity|]. split; [vm_compute; intuition auto|].
  split; [vm_compute; intuition auto|]. split; [vm_compute; reflexivity|]. split; [vm_compute; reflexivity|].
  split; [vm_compute; reflexivity|]. intros g Hg. vm_compute in Hg. intuition discriminate.
Qed.
Example C47_idle_case :
  exists k os, krun 0 (kinit 9092 []) (ev_good ++ go 5) = (k, os) /\ sCrash (kS k) = false /\ length (kCl k) = 1%nat /\
  ~ In (KReturned 0) os /\ busy 0 (kS k) = false /\ caught_up 0 (srv os).
Proof.
  exists (fst (kr (ev_good ++ go 5))), (snd (kr (ev_good ++ go 5))).
  split; [vm_compute; reflexivity|]. split; [vm_compute; reflexivity|]. split; [vm_compute; reflexivity|].
  split; [intros Hj; vm_compute in Hj; intuition discriminate|]. split; [vm_compute; reflexivity|].
  now apply good_caught_up; vm_compute.
Qed.
