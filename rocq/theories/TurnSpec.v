(** * TurnSpec: a request that names several partitions *)
From Verif Require Export ReplySpec.
From stdpp Require Import gmap list.
From Coq Require Import Sorted.
Open Scope Z_scope.
Open Scope list_scope.

(** The entries of a request (topic and partition entry) with those of its reply,
    in order. *)
Definition pairs {P E} (ts : list (bytes * list P)) (ents : list (bytes * list E)) : list (bytes * P * E) :=
  combine (flat ts) (concat (map snd ents)).
(** The reply has the shape of the request. *)
Definition same_shape {P E} : list (bytes * list P) -> list (bytes * list E) -> Prop := entrywise (fun _ _ _ => True).

(** Each entry is right at its moment (so many observations after the request was
    taken up), and no moment is before that of an earlier entry. *)
Definition in_turn {P E} (A B : list obs) (right : list obs -> bytes -> P -> E -> Prop) (es : list (bytes * P * E)) : Prop :=
  exists ns : list nat, StronglySorted le ns /\
    Forall2 (fun n (x : bytes * P * E) => let '(t, p, e) := x in (n <= length B)%nat /\ right (A ++ firstn n B) t p e) ns es.

Definition list_in_turn (A : list obs) (corr : Z) (ts : list (bytes * list (Z * Z))) (B : list obs) (r : bytes) : Prop :=
  exists ents, r = w_reply corr (w_list_resp ents) /\ same_shape ts ents /\ in_turn A B list_right (pairs ts ents).

(** The commit has just been made, or the partition does not exist. *)
Definition commit_now (c : nat) (g : bytes) (os : list obs) (t : bytes) (p : Z * Z * option bytes) (e : Z * Z) : Prop :=
  let '(idx, o, m) := p in
  fst e = idx /\
  ((snd e = 0 /\ exists os0, os = os0 ++ [OCommit c t idx g o] /\ tr_has t idx os0 = true) \/
   (snd e = 3 /\ tr_has t idx os = false)).
Definition commit_in_turn (A : list obs) (c : nat) (corr : Z) (g : bytes)
    (ts : list (bytes * list (Z * Z * option bytes))) (B : list obs) (r : bytes) : Prop :=
  exists ents, r = w_reply corr (w_commit_resp ents) /\ same_shape ts ents /\ commits c B = acked g ts ents /\
    in_turn A B (commit_now c g) (pairs ts ents).

(** The offsets in an OffsetFetch reply (topic, partition, offset), in the order
    of the reply. *)
Definition offsets_in (ents : list (bytes * list (Z * Z * option bytes * Z))) : list (bytes * Z * Z) :=
  map (fun x : bytes * (Z * Z * option bytes * Z) => let '(t, (i, o, m, er)) := x in (t, i, o)) (flat ents).
Definition off_in_turn (A : list obs) (corr : Z) (g : bytes) (ts : list (bytes * list Z)) (B : list obs) (r : bytes) : Prop :=
  exists ents, r = w_reply corr (w_off_resp ents) /\ in_turn A B (fun os t i o => o = tr_off t i g os) (offsets_in ents).
