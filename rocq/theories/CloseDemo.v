(** * CloseDemo: executions in which Close does not do what its comments say *)
From Verif Require Import CloseSpec CloseProofs ReplySpec.
From stdpp Require Import list.
Open Scope Z_scope.
Open Scope list_scope.

Definition ch0 : choice := Ch [] [].
(** Two Heartbeat requests, version 0, correlation ids 7 and 8. *)
Definition beat (corr : Z) : bytes :=
  w_int16 12 ++ w_int16 0 ++ w_int32 corr ++ w_string (w_text "me") ++
  w_string (w_text "g") ++ w_int32 1 ++ w_string (w_text "m").
Definition go (n : nat) : list kevent := repeat (KEv (EvConn 0 ch0)) n.
(** A client connects and sends [chunk]; n more steps of its goroutine. *)
Definition arrive (chunk : bytes) (n : nat) : list kevent :=
  [KEv EvAccept] ++ go 1 ++ [KEv (EvRecv 0 chunk)] ++ go n.
Definition both : bytes := w_frame (beat 7) ++ w_frame (beat 8).

(** The flag is set while the first request is in progress; both are carried out. *)
Definition ev_late : list kevent := arrive both 1 ++ [KClose; KStep 0].
(** Close asleep; the first request ends, the second starts before Close wakes up. *)
Definition ev_panic : list kevent := arrive both 1 ++ [KClose; KStep 0; KStep 0] ++ go 5 ++ [KStep 0].
(** Close finds no request in progress; then the second one starts, and the socket
    is closed between two writes of its reply. *)
Definition ev_torn : list kevent := arrive both 5 ++ [KClose; KStep 0; KStep 0] ++ go 3 ++ [KStep 0] ++ go 2 ++
  [KEv (EvPeerClose 0); KStep 0].
(** In good order: the flag is set while the only request is in progress; bytes
    that come later are dropped. *)
Definition ev_good : list kevent := arrive (w_frame (beat 7)) 1 ++ [KClose].
Definition ev_rest : list kevent := [KStep 0] ++ go 5 ++ [KEv (EvRecv 0 (w_frame (beat 8)))] ++ go 1 ++
  [KStep 0; KStep 0; KEv (EvPeerClose 0); KStep 0].
Definition kr (es : list kevent) : ksys * list kobs := krun 0 (kinit 9092 []) es.

Lemma late_run : exists e1 k1 A e2 k2 B, krun 0 (kinit 9092 []) e1 = (k1, A) /\ In (KStopped 0) A /\
  krun 0 k1 e2 = (k2, B) /\ frames 0 (srv B) = [beat 8] /\ sCrash (kS k2) = false.
Proof.
  exists ev_late, (fst (kr ev_late)), (snd (kr ev_late)), (go 5), (fst (krun 0 (fst (kr ev_late)) (go 5))), (snd (krun 0 (fst (kr ev_late)) (go 5))).
  split; [vm_compute; reflexivity|]. split; [vm_compute; auto|]. split; [vm_compute; reflexivity|].
  split; vm_compute; reflexivity.
Qed.
Lemma panic_run : exists es k os, krun 0 (kinit 9092 []) es = (k, os) /\ sends_ok 0 (evs_of es) /\ crashed (srv os) = false /\
  In (KPanicked 0) os /\ sCrash (kS k) = true.
Proof.
  exists ev_panic, (fst (kr ev_panic)), (snd (kr ev_panic)). split; [vm_compute; reflexivity|].
  split; [intros g Hg; vm_compute in Hg; intuition discriminate|]. split; [vm_compute; reflexivity|].
  split; [vm_compute; intuition auto|vm_compute; reflexivity].
Qed.
Lemma torn_run : exists es k os, krun 0 (kinit 9092 []) es = (k, os) /\ sends_ok 0 (evs_of es) /\ no_panic os /\ crashed (srv os) = false /\
  In (KReturned 0) os /\ frames 0 (srv os) = [beat 7; beat 8] /\
  writes 0 (srv os) = w_reply 7 (w_int16 0) ++ firstn 4 (w_reply 8 (w_int16 0)).
Proof.
  exists ev_torn, (fst (kr ev_torn)), (snd (kr ev_torn)). split; [vm_compute; reflexivity|].
  split; [intros g Hg; vm_compute in Hg; intuition discriminate|].
  split; [intros j Hj; vm_compute in Hj; intuition discriminate|]. split; [vm_compute; reflexivity|].
  split; [vm_compute; intuition auto|]. split; vm_compute; reflexivity.
Qed.
Lemma good_caught_up os : reads 0 os = w_frame (beat 7) -> frames 0 os = [beat 7] -> caught_up 0 os.
Proof.
  intros E1 E2. exists []. unfold framed_with. rewrite E1, E2.
  split. { split. { cbn [map concat]. now rewrite !app_nil_r. } constructor; [|constructor]. vm_compute. reflexivity. }
  split.
  - intros m rest _ E. apply (f_equal (@length Z)) in E. unfold w_frame in E. rewrite !app_length in E. discriminate.
  - vm_compute. reflexivity.
Qed.
