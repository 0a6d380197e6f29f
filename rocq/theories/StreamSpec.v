(** * StreamSpec: the two byte streams of a connection *)
From Verif Require Export TraceSpec.
From stdpp Require Import list.
Open Scope Z_scope.
Open Scope list_scope.

(** The correlation id of a request: the number in its bytes 4 to 7. *)
Definition has_corr (m : bytes) (corr : Z) : Prop :=
  exists h rest, m = h ++ w_int32 corr ++ rest /\ zlen h = 4 /\ l_i32 corr = true.
(** [r] is one framed reply carrying the correlation id of [m]. *)
Definition reply_to (m r : bytes) : Prop :=
  exists corr payload, has_corr m corr /\ r = w_reply corr payload.

(** [b] does not start with a complete frame.  (A size field holding one of the
    last four 32-bit numbers is not considered.) *)
Definition no_frame (b : bytes) : Prop :=
  forall m rest, zlen m < 2 ^ 32 - 4 -> b <> w_frame m ++ rest.

(** The bytes read from c are the frames of the requests taken up, in order,
    and [rest]. *)
Definition framed_with (c : nat) (os : list obs) (rest : bytes) : Prop :=
  reads c os = concat (map w_frame (frames c os)) ++ rest /\
  Forall (fun m => zlen m < 2 ^ 32 - 4) (frames c os).

(** Number of write calls on connection c. *)
Definition wcount (c : nat) (os : list obs) : nat :=
  length (List.filter (fun o => match o with OWrite c' _ => Nat.eqb c c' | _ => false end) os).

(** All requests taken up on c have been answered, in order, and nothing else
    was written; a reply takes three write calls. *)
Definition all_answered (c : nat) (os : list obs) : Prop :=
  (exists rs, Forall2 reply_to (frames c os) rs /\ writes c os = concat rs) /\
  wcount c os = (3 * length (frames c os))%nat.

(** At any time: all but at most one request have been answered, in order; of
    the reply to that one a part may have been written. *)
Definition in_order (c : nat) (os : list obs) : Prop :=
  exists ms pend rs part,
    frames c os = ms ++ pend /\ Forall2 reply_to ms rs /\ writes c os = concat rs ++ part /\
    ((pend = [] /\ part = []) \/
     exists m, pend = [m] /\ (part = [] \/ exists r, reply_to m r /\ part `prefix_of` r)).

Definition closed_obs (c : nat) (o : obs) : bool := match o with OClosed c' => Nat.eqb c c' | _ => false end.
Definition nreads (c : nat) (os : list obs) : nat :=
  length (List.filter (fun o => match o with ORead c' _ => Nat.eqb c c' | _ => false end) os).
