(** * IdleSpec: Reads that time out *)
From Verif Require Export TraceSpec.
From stdpp Require Import gmap list.
Open Scope Z_scope.
Open Scope list_scope.

(** The events that are not of one connection: calls and their steps, clients that
    connect, clocks, stopping and starting. *)
Definition elsewhere (evs : list event) : list event :=
  List.filter (fun e => match e with
    | EvConn _ _ | EvRecv _ _ | EvTimeout _ | EvPeerClose _ | EvReadErr _ | EvSendFail _ _ => false
    | _ => true end) evs.

(** Reads time out only after the mock was told to stop, and each time the
    connection is closed at once. *)
Definition only_to_close (port : Z) (ch : list nat) (evs : list event) : Prop :=
  forall A c B, evs = A ++ EvTimeout c :: B ->
    tr_cancelled (snd (run (init port ch) A)) = true /\
    exists x B' s s', B = EvConn c x :: B' /\ run (init port ch) (A ++ [EvTimeout c]) = (s, snd (run (init port ch) A)) /\
      step s (EvConn c x) = (s', [OClosed c]).
