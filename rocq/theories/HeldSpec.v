(** * HeldSpec: what a connection has read and not yet taken up *)
From Verif Require Export StreamSpec ReplySpec.
From stdpp Require Import gmap list.
Open Scope Z_scope.
Open Scope list_scope.

(** Connection c has taken up a request since it last read. *)
Definition busy_since_read (c : nat) (os : list obs) : Prop :=
  exists A B, os = A ++ B /\ frames c B <> [] /\ reads c B = [].

(** The most a Fetch reply can hold that the request allows for: per topic its name,
    and per partition the limit given for one partition. *)
Definition limit_of (ts : list (bytes * list (Z * Z * Z))) : Z :=
  fold_right (fun q m => Z.max (snd (snd q)) m) 0 (flat ts).
Definition fetch_room (ts : list (bytes * list (Z * Z * Z))) : Z :=
  fold_right (fun t n => 6 + zlen (fst t) + zlen (snd t) * (18 + limit_of ts) + n) 16 ts.
