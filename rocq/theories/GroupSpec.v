(** * GroupSpec: the clients of a consumer group, which may stop at any time *)
From Verif Require Export ConsumerSpec.
From stdpp Require Import list.
Open Scope Z_scope.
Open Scope list_scope.

Section Group.
Context (port : Z) (ch : list nat) (t : bytes) (p : Z) (g : bytes).

(** Between [A0] and [A] somebody was told that the group's offset is [o], then
    has_read from there and received [batch]. *)
Definition has_read (A0 A : list obs) (o : Z) (batch : list msg) : Prop :=
  exists A1 A1' A2 A2', A0 `prefix_of` A1 /\ asks_offset port ch t p g A1 o A1' /\
    A1' `prefix_of` A2 /\ gets_batch port ch t p A2 o batch A2' /\ A2' `prefix_of` A.

(** [m] is an OffsetCommit request for offset [o]. *)
Definition asks_commit (m : bytes) (o : Z) : Prop :=
  exists corr client gen mem ret md,
    l_header 8 2 corr client = true /\ l_commit g gen mem ret [(t, [(p, o, md)])] = true /\
    zlen (w_commit_req g gen mem ret [(t, [(p, o, md)])]) <= 4096 /\
    m = w_request 8 2 corr client (w_commit_req g gen mem ret [(t, [(p, o, md)])]).

(** After [A0] the group's offset is moved only by connections that are serving
    an OffsetCommit request, for the offset behind a batch that somebody had
    received when the request was taken up. *)
Definition careful (A0 D : list obs) : Prop :=
  forall D1 x D2, D = D1 ++ x :: D2 -> moves t p g x ->
    exists c x' E1 m E2 o batch, x = OCommit c t p g x' /\ D1 = E1 ++ OFrame c m :: E2 /\ frames c E2 = [] /\
      asks_commit m (o + zlen batch) /\ has_read A0 (A0 ++ E1) o batch.
End Group.
