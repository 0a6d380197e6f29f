(** * TraceSpec: what a trace of observations says.

    A run of the server produces a list of observations (Server.v, [obs]).  The
    projections below are folds over that list; they mention no state of the
    model, so statements about clients and callers can be written with them. *)
From Verif Require Export Server WireSpec.
From stdpp Require Import list.
Open Scope Z_scope.
Open Scope list_scope.

Definition same (t : bytes) (p : Z) (t' : bytes) (p' : Z) : bool :=
  bool_decide (t = t') && (p =? p').

(** The records posted to (t, p), in the order in which the posts took effect. *)
Definition tr_log (t : bytes) (p : Z) (os : list obs) : list krecord :=
  flat_map (fun o => match o with
                     | OPosted _ t' p' r => if same t p t' p' then [r] else []
                     | _ => [] end) os.

(** Some call has made topic t (partition (t, p)) exist. *)
Definition tr_topic (t : bytes) (os : list obs) : bool :=
  existsb (fun o => match o with OTopic _ t' => bool_decide (t = t') | _ => false end) os.
Definition tr_has (t : bytes) (p : Z) (os : list obs) : bool :=
  existsb (fun o => match o with OMade _ t' p' => same t p t' p' | _ => false end) os.

(** The offset of group g on (t, p): set by SetConsumerGroupOffset, raised by
    commits, 0 before. *)
Definition off_step (t : bytes) (p : Z) (g : bytes) (cur : Z) (o : obs) : Z :=
  match o with
  | OSet _ t' p' g' x => if same t p t' p' && bool_decide (g = g') then x else cur
  | OCommit _ t' p' g' x => if same t p t' p' && bool_decide (g = g') then Z.max cur x else cur
  | _ => cur
  end.
Definition tr_off (t : bytes) (p : Z) (g : bytes) (os : list obs) : Z :=
  fold_left (off_step t p g) os 0.

(** Time passed (ns), wall clock (ms), cancellation. *)
Definition tr_now (os : list obs) : Z :=
  fold_left (fun n o => match o with OClock d => n + d | _ => n end) os 0.
Definition tr_wall (os : list obs) : Z :=
  fold_left (fun n o => match o with OWall w => w | _ => n end) os 0.
Definition tr_cancelled (os : list obs) : bool :=
  fold_left (fun b o => match o with OCancel => true | ORestart => false | _ => b end) os false.

(** Bytes read from / written to connection c; requests taken up on it. *)
Definition reads (c : nat) (os : list obs) : bytes :=
  flat_map (fun o => match o with ORead c' b => if Nat.eqb c c' then b else [] | _ => [] end) os.
Definition writes (c : nat) (os : list obs) : bytes :=
  flat_map (fun o => match o with OWrite c' b => if Nat.eqb c c' then b else [] | _ => [] end) os.
Definition frames (c : nat) (os : list obs) : list bytes :=
  flat_map (fun o => match o with OFrame c' m => if Nat.eqb c c' then [m] else [] | _ => [] end) os.

Definition crashed (os : list obs) : bool :=
  existsb (fun o => match o with OCrash _ => true | _ => false end) os.
(** Connection c's goroutine is the one that panicked. *)
Definition crashed_by (c : nat) (os : list obs) : bool :=
  existsb (fun o => match o with OCrash c' => Nat.eqb c c' | _ => false end) os.

(** ** Exchanges

    [serving port ch A c m s]: starting the mock and running it in some way
    produced the trace [A], and the next thing to happen is that connection [c]
    takes up the request [m]; [s] is the state just after.  (It may be that the
    same step ends the process.) *)
Definition serving (port : Z) (ch : list nat) (A : list obs) (c : nat) (m : bytes) (s : sys) : Prop :=
  exists evs s0 ev o, run (init port ch) evs = (s0, A) /\ step s0 ev = (s, OFrame c m :: o).

(** How many steps connection c's goroutine is given; no write of c fails. *)
Definition own_steps (c : nat) (evs : list event) : nat :=
  length (List.filter (fun e => match e with EvConn c' _ => Nat.eqb c c' | _ => false end) evs).
Definition sends_ok (c : nat) (evs : list event) : Prop :=
  forall gone, ~ In (EvSendFail c gone) evs.

(** The part of a trace before connection c takes up another request. *)
Fixpoint until_frame (c : nat) (os : list obs) : list obs :=
  match os with
  | [] => []
  | OFrame c' m :: os' => if Nat.eqb c c' then [] else OFrame c' m :: until_frame c os'
  | o :: os' => o :: until_frame c os'
  end.

(** [answers c s R K], for a connection c that has just taken up a request in
    state [s]; [R B r] says that [r] is a right reply to it if [B] is what has
    happened since.  Whatever happens from [s] on, before c takes up another
    request:
    - what it writes is a prefix of a right reply;
    - once it was given [K] steps (and no goroutine has panicked), and in any
      case before it takes up another request or panics, a right reply is
      written completely, and nothing else. *)
Definition answers (c : nat) (s : sys) (R : list obs -> bytes -> Prop) (K : nat) : Prop :=
  forall evs s' B, run s evs = (s', B) -> sends_ok c evs ->
    let B1 := until_frame c B in
    (writes c B1 = [] \/
     exists B' r, B' `prefix_of` B1 /\ R B' r /\ writes c B1 `prefix_of` r) /\
    ((crashed B = false /\ (K <= own_steps c evs)%nat) \/ frames c B <> [] \/ crashed_by c B = true ->
     exists B' r, B' `prefix_of` B1 /\ R B' r /\ writes c B1 = r).

(** The same without a bound on the number of steps: an answer may be long in
    coming, or never come, but nothing wrong is written, and no other request of
    the connection is taken up before the answer is complete. *)
Definition answers_right (c : nat) (s : sys) (R : list obs -> bytes -> Prop) : Prop :=
  forall evs s' B, run s evs = (s', B) -> sends_ok c evs ->
    let B1 := until_frame c B in
    (writes c B1 = [] \/
     exists B' r, B' `prefix_of` B1 /\ R B' r /\ writes c B1 `prefix_of` r) /\
    (frames c B <> [] \/ crashed_by c B = true ->
     exists B' r, B' `prefix_of` B1 /\ R B' r /\ writes c B1 = r).

(** [rejects c s K]: nothing is written, no further request of c is taken up,
    and after at most [K] steps of c the process is down. *)
Definition rejects (c : nat) (s : sys) (K : nat) : Prop :=
  forall evs s' B, run s evs = (s', B) ->
    writes c B = [] /\ frames c B = [] /\
    ((K <= own_steps c evs)%nat -> sCrash s' = true).
