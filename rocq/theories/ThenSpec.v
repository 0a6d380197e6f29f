(** * ThenSpec: one request after the reply to another *)
From Verif Require Export SeenSpec TurnSpec CallSpec.
From stdpp Require Import gmap list.
Open Scope Z_scope.
Open Scope list_scope.

(** The ListOffsets reply [ents] to [ts] says that the end of (t, p) is at [o]. *)
Definition says_end (ts : list (bytes * list (Z * Z))) (ents : list (bytes * list (Z * Z * Z * Z))) (t : bytes) (p o : Z) : Prop :=
  exists i tm, In (t, (p, -1), (i, 0, tm, o)) (pairs ts ents).
(** The OffsetCommit reply [ents] to [ts] acknowledges offset [o] for (t, p). *)
Definition says_done (ts : list (bytes * list (Z * Z * option bytes))) (ents : list (bytes * list (Z * Z))) (t : bytes) (p o : Z) : Prop :=
  exists md i, In (t, (p, o, md), (i, 0)) (pairs ts ents).

(** Replies that are right given that the end of (t, p) was at [o] for all [K t p o]. *)
Definition list_after (K : bytes -> Z -> Z -> Prop) (corr : Z) (ts : list (bytes * list (Z * Z))) (r : bytes) : Prop :=
  exists ents, r = w_reply corr (w_list_resp ents) /\ same_shape ts ents /\
    forall t p o i er tm o2, K t p o -> In (t, (p, -1), (i, er, tm, o2)) (pairs ts ents) -> er = 0 /\ o <= o2.
Definition fetch_after (K : bytes -> Z -> Z -> Prop) (corr : Z) (ts : list (bytes * list (Z * Z * Z))) (r : bytes) : Prop :=
  exists res, r = w_reply corr (w_fetch_resp 0 (fetch_ents ts res)) /\ length res = length (flat ts) /\
    forall t p o k off mx x, K t p o -> nth_error (flat ts) k = Some (t, (p, off, mx)) -> nth_error res k = Some x -> o <= fst x.
(** The same for offsets of group [g], where [D] happened since and set none. *)
Definition off_after (K : bytes -> Z -> Z -> Prop) (corr : Z) (g : bytes) (ts : list (bytes * list Z)) (D : list obs) (r : bytes) : Prop :=
  exists ents, r = w_reply corr (w_off_resp ents) /\
    forall t p o, K t p o -> In (t, p) (flat ts) -> (forall i y, ~ In (OSet i t p g y) D) ->
      (exists l o2, In (t, l) ents /\ In (p, o2, None, 0) l) /\
      (forall l o2 md er, In (t, l) ents -> In (p, o2, md, er) l -> o <= o2).
