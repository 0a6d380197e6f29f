(** * WholeDemo: executions of the whole mock used in the examples *)
From Verif Require Export WholeHang Demo.
From Verif Require Export LifeDemo.
From stdpp Require Import gmap list.
Open Scope Z_scope.
Open Scope list_scope.

(** Records are posted, Start (goroutine 0) brings up a server (1), a client
    connects (2) and sends m. *)
Definition whole_setup (m : bytes) : list wevent :=
  map WServe (removelast (removelast demo_setup)) ++ map WLife (ev_start ++ ev_conn) ++
  map WServe (EvConn 0 ch0 :: demo_send m).
Definition w_ask : bytes := w_request 18 0 7 clientA [].
(** The request is answered; RequestStop (3), after which the connection is
    closed and everything ends; WaitForTermination (4), Start (5). *)
Definition whole_served (m : bytes) : list wevent := whole_setup m ++ map WServe (repeat (EvConn 0 ch0) 40).
Definition whole_stop : list wevent :=
  map WLife (LCall CStop :: go 3 8) ++ map WServe [EvTimeout 0; EvConn 0 ch0] ++ map WLife (ev_hangup 2 ++ go 1 4).
Definition whole_again : list wevent := map WLife (LCall CWait :: go 4 3 ++ LCall CStart :: go 5 10 ++ go 6 3).
Definition whole_events : list wevent := whole_served w_ask ++ whole_stop ++ whole_again.
Definition whole_tr (es : list wevent) : list wobs := snd (wrun (winit 9092 []) es).
Definition whole_st (es : list wevent) : whole := fst (wrun (winit 9092 []) es).
Lemma whole_reach es : wreach 9092 [] (whole_st es) (whole_tr es).
Proof. exists es. apply surjective_pairing. Qed.

(** A Fetch request that asks for less than the next record. *)
Definition w_big : bytes := w_request 1 2 8 clientA (w_fetch_req (-1) 5 1 [(topicA, [(2, 0, 36)])]).

Definition is_accept (c : nat) (x : wobs) : bool := match x with WAccept d => (d =? c)%nat | _ => false end.
Lemma accepted_in c A : existsb (is_accept c) A = true -> In (WAccept c) A.
Proof.
  intros H. apply existsb_exists in H as (x & Hin & Hx). destruct x as [| |d]; try discriminate Hx.
  apply Nat.eqb_eq in Hx. subst d. exact Hin.
Qed.
Lemma accepts_only c d A : accepts A = [c] -> In (WAccept d) A -> d = c.
Proof. intros E H. apply in_accepts in H. rewrite E in H. destruct H as [<-|[]]. reflexivity. Qed.
