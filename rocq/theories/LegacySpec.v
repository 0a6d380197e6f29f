(** * LegacySpec: on which values the two writers agree, and which the old one
    cannot write *)
From Verif Require Import Legacy CodecSpec WireSpec.
From Coq Require Import Sorting.Sorted Sorting.Permutation.
Open Scope Z_scope.

(** Integers, floats, UUIDs, strings and bytes that are present, compact bytes,
    and the nil compact string. *)
Definition same_on (v : lval) : Prop :=
  match v with
  | LInt8 _ | LInt16 _ | LInt32 _ | LInt64 _ | LUint32 _ | LVarInt _ | LVarInt64 _ | LUuid _ | LFloat64 _ => True
  | LString _ => True
  | LStrPtr o | LNullableString o => o <> None
  | LBytes o | LNullableBytes o => o <> None
  | LCompactBytes _ | LCompactNullableBytes _ => True
  | LCompactString _ => False
  | LCompactNullableString o => o = None
  | LArray _ => False
  | LOther _ => False
  end.

(** A value of a type the old writer does not know occurs in [v]. *)
Inductive foreign : lval -> Prop :=
| foreign_here o : foreign (LOther o)
| foreign_in l x : In x l -> foreign x -> foreign (LArray (Some l)).

(** The content of every byte slice in [v] are bytes. *)
Fixpoint byte_data (v : lval) : Prop :=
  match v with
  | LBytes (Some b) => Forall (fun x => 0 <= x < 256) b
  | LArray (Some l) => (fix go (l : list lval) : Prop := match l with [] => True | x :: l' => byte_data x /\ go l' end) l
  | _ => True
  end.

(** Tagged fields as the old writer puts them on the wire: ids and lengths are
    doubled (they are written as signed numbers), and the data carry a second
    length. *)
Inductive old_tags : list (Z * bytes) -> bytes -> Prop :=
| old_nil : old_tags [] []
| old_cons id d es i l b : leb128 (2 * id) i -> leb128 (2 * zlen d) l -> old_tags es b ->
    old_tags ((id, d) :: es) (i ++ l ++ w_int32 (zlen d) ++ d ++ b).
