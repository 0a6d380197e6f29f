(** * DisagreeSpec: types and values one half of the codec does not handle *)
From Verif Require Export CodecSpec.
Open Scope Z_scope.

(** A value of Go type t: of the right kind throughout, slices and pointers may be
    nil, integers are whatever the type holds. *)
Fixpoint typed (t : ty) (v : val) {struct t} : Prop :=
  match t with
  | TBool => exists b, v = VBool b
  | TInt8 | TInt16 | TInt32 | TInt | TInt64 | TUint8 | TUint16 | TUint32 | TUint | TUint64
  | TFloat64 | TVarInt | TVarInt64 | TVarUint | TVarUint64 => exists z, v = VInt z
  | TString | TCompactString => exists s, v = VStr s
  | TNullableString | TCompactNullableString => exists o, v = VNStr o
  | TNullableBytes | TCompactBytes | TCompactNullableBytes => exists o, v = VBytes o
  | TUuid => exists b, v = VUuid b
  | TSlice e => v = VSlice None \/ exists l, v = VSlice (Some l) /\ Forall (typed e) l
  | TArray e => exists l, v = VSlice (Some l) /\ Forall (typed e) l
  | TPtr e => v = VPtr None \/ exists x, v = VPtr (Some x) /\ typed e x
  | TStruct fs =>
      exists vs, v = VStruct vs /\
        (fix go (fs : list (ftag * ty)) (vs : list val) : Prop :=
           match fs, vs with
           | [], [] => True
           | (_, t') :: fs', x :: vs' => typed t' x /\ go fs' vs'
           | _, _ => False
           end) fs vs
  | TMsgSet tm => exists total l, v = VMsgSet total l /\ Forall (typed tm) l
  end.

Definition named_bytes (t : ty) : Prop := t = TNullableBytes \/ t = TCompactBytes \/ t = TCompactNullableBytes.

(** What makes the encoder panic, at a position of type t with these flags (inside
    a pointer, [nullable] is set): a fixed array; a named byte slice with a tag or
    behind a pointer; a string with both flags; a nil pointer to anything but a
    string; or a part that does. *)
Inductive trouble : ty -> bool -> bool -> val -> Prop :=
| tr_array e n c v : trouble (TArray e) n c v
| tr_named t n c v : named_bytes t -> n = true \/ c = true -> trouble t n c v
| tr_string s : trouble TString true true (VStr s)
| tr_nil e n c : e <> TString -> trouble (TPtr e) n c (VPtr None)
| tr_ptr e n c x : trouble e true c x -> trouble (TPtr e) n c (VPtr (Some x))
| tr_elem e n c l x : In x l -> trouble e false false x -> trouble (TSlice e) n c (VSlice (Some l))
| tr_msg tm n c total l x : In x l -> trouble tm false false x -> trouble (TMsgSet tm) n c (VMsgSet total l)
| tr_field fs1 tg t fs2 vs1 x vs2 n c : length fs1 = length vs1 -> trouble t (tNullable tg) (tCompact tg) x ->
    trouble (TStruct (fs1 ++ (tg, t) :: fs2)) n c (VStruct (vs1 ++ x :: vs2)).

(** Types no input can be decoded to: pointers other than to structs, message sets,
    and structs with such a field or a fixed array, and pointers to these. *)
Inductive undecodable : ty -> Prop :=
| un_msgset tm : undecodable (TMsgSet tm)
| un_ptr e : (forall fs, e <> TStruct fs) -> undecodable (TPtr e)
| un_to e : undecodable e -> undecodable (TPtr e)
| un_array fs1 tg e fs2 : undecodable (TStruct (fs1 ++ (tg, TArray e) :: fs2))
| un_field fs1 tg t fs2 : undecodable t -> undecodable (TStruct (fs1 ++ (tg, t) :: fs2)).

(** The fewest bytes a value takes: an empty array is its count. *)
Fixpoint least (t : ty) (compact : bool) : Z :=
  match t with
  | TBool | TInt8 | TUint8 => 1
  | TInt16 | TUint16 => 2
  | TInt32 | TInt | TUint32 | TUint => 4
  | TInt64 | TUint64 | TFloat64 => 8
  | TVarInt | TVarInt64 | TVarUint | TVarUint64 => 1
  | TString | TNullableString => 2
  | TCompactString | TCompactNullableString | TCompactNullableBytes => 1
  | TNullableBytes => 4
  | TUuid => 16
  | TCompactBytes | TSlice _ => if compact then 1 else 4
  | TArray _ => 1
  | TPtr e => least e false
  | TStruct fs =>
      (fix go (fs : list (ftag * ty)) : Z :=
         match fs with [] => 0 | (tg, t') :: fs' => least t' (tCompact tg) + go fs' end) fs
  | TMsgSet _ => 0
  end.

(** What the encoder makes of v is not what the decoder takes for v, whatever
    surrounds it. *)
Definition misread (t : ty) (v : val) : Prop :=
  exists bs, encodeObject t v = Some bs /\
    forall pre rest, peekObject (pre ++ bs ++ rest) (zlen pre) t <> DOk (zlen pre + zlen bs) v.
