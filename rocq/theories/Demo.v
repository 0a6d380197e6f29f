(** * Demo: concrete runs used in the examples *)
From Verif Require Export ReplySpec.
From stdpp Require Import gmap list.
Open Scope Z_scope.
Open Scope list_scope.

Definition ch0 : Server.choice := Ch [] [].
Definition topicA : bytes := w_text "orders".
Definition topicB : bytes := w_text "bills".
Definition groupA : bytes := w_text "g".
Definition clientA : option bytes := Some (w_text "me").

(** Two records in (orders, 2), topic bills with partition 0, the offset of
    group g set to 1, one client connected. *)
Definition demo_setup : list event :=
  [EvWall 77;
   EvCall (CallPost topicA 2 (Some [107]) (Some [1; 2]) [] (Some 10)); EvApi 0; EvApi 0; EvApi 0; EvApi 0;
   EvCall (CallPost topicA 2 None (Some []) [(w_text "h", None)] None); EvApi 1; EvApi 1; EvApi 1; EvApi 1;
   EvCall (CallCreate [topicB] 0); EvApi 2; EvApi 2; EvApi 2;
   EvCall (CallSet topicA 2 groupA 1); EvApi 3; EvApi 3; EvApi 3;
   EvAccept; EvConn 0 ch0].
(** The client sends request [m], in two parts. *)
Definition demo_send (m : bytes) : list event :=
  [EvRecv 0 (firstn 6 (w_frame m)); EvConn 0 ch0; EvRecv 0 (skipn 6 (w_frame m))].

Definition demo_trace (m : bytes) : list obs := snd (run (init 9092 []) (demo_setup ++ demo_send m)).
Definition demo_before (m : bytes) : sys := fst (run (init 9092 []) (demo_setup ++ demo_send m)).
Definition demo_state (m : bytes) : sys := fst (step (demo_before m) (EvConn 0 ch0)).
Definition demo_ok (m : bytes) : bool :=
  match snd (step (demo_before m) (EvConn 0 ch0)) with OFrame 0 m' :: _ => beqb m m' | _ => false end.

Lemma serving_run port ch evs ev c m :
  match snd (step (fst (run (init port ch) evs)) ev) with OFrame c' m' :: _ => Nat.eqb c c' && beqb m m' | _ => false end = true ->
  serving port ch (snd (run (init port ch) evs)) c m (fst (step (fst (run (init port ch) evs)) ev)).
Proof.
  destruct (run (init port ch) evs) as [s0 A] eqn:E0. cbn [fst snd].
  destruct (step s0 ev) as [s o] eqn:E. cbn [fst snd]. intros H.
  destruct o as [|[] o]; try discriminate. apply andb_true_iff in H as [Hc H].
  apply Nat.eqb_eq in Hc as <-. unfold beqb in H. apply bool_decide_eq_true in H as <-.
  exists evs, s0, ev, o. auto.
Qed.
Lemma demo_serving m : demo_ok m = true -> serving 9092 [] (demo_trace m) 0 m (demo_state m).
Proof.
  unfold demo_ok, demo_state, demo_before, demo_trace.
  generalize (demo_setup ++ demo_send m) as evs. intros evs H. apply serving_run. revert H.
  generalize (snd (step (fst (run (init 9092 []) evs)) (EvConn 0 ch0))) as os.
  intros [|[] os]; try discriminate. destruct c; [|discriminate]. intros H. exact H.
Qed.

(** What the client gets back if only its goroutine runs, [n] steps. *)
Definition demo_run (m : bytes) (n : nat) : sys * list obs := run (demo_state m) (repeat (EvConn 0 ch0) n).
Definition demo_reply (m : bytes) (n : nat) : bytes := writes 0 (snd (demo_run m n)).

(** A record posted with headers [h], then fetched. *)
Definition headers_demo (h : list (bytes * option bytes)) : list event :=
  EvCall (CallPost topicA 0 (Some [1]) (Some [2]) h (Some 5)) ::
  [EvApi 0; EvApi 0; EvApi 0; EvApi 0; EvAccept; EvConn 0 ch0;
   EvRecv 0 (w_frame (w_request 1 2 8 clientA (w_fetch_req (-1) 0 1 [(topicA, [(0, 0, 1000)])])))] ++
  repeat (EvConn 0 ch0) 40.
