(** * Legacy: model of outbound-utils.go, the response writer nothing calls.

    A writer only ever appends to its buffer, so each method is given by the
    bytes it appends; [None] is a panic. *)
From Verif Require Export Codec.
Open Scope Z_scope.
Open Scope list_scope.

(** A Go value of type [any], by its dynamic type: those that writeValue
    (outbound-utils.go:147-191) knows, and any other.  A [None] is nil;
    [LOther None] is the nil interface. *)
Inductive lval :=
| LInt8 (z : Z) | LInt16 (z : Z) | LInt32 (z : Z) | LInt64 (z : Z) | LUint32 (z : Z)
| LVarInt (z : Z) | LVarInt64 (z : Z)
| LUuid (b : bytes)
| LFloat64 (z : Z)                     (* its bits *)
| LString (s : bytes)
| LStrPtr (o : option bytes)           (* *string *)
| LNullableString (o : option bytes)
| LCompactString (s : bytes)
| LCompactNullableString (o : option bytes)
| LBytes (o : option bytes)            (* []byte *)
| LCompactBytes (o : option bytes)
| LNullableBytes (o : option bytes)
| LCompactNullableBytes (o : option bytes)
| LArray (o : option (list lval))      (* []any *)
| LOther (o : option (ty * val)).

(** outbound-utils.go:27-33 *)
Definition writeBool (v : bool) : bytes := if v then [1] else [0].
(** outbound-utils.go:35-61 *)
Definition writeInt8 (v : Z) : bytes := [uwrap 8 v].
Definition writeInt16 (v : Z) : bytes := be_put 2 (uwrap 16 v).
Definition writeInt32 (v : Z) : bytes := be_put 4 (uwrap 32 v).
Definition writeInt64 (v : Z) : bytes := be_put 8 (uwrap 64 v).
Definition writeUint32 (v : Z) : bytes := be_put 4 (uwrap 32 v).
(** outbound-utils.go:63-71; makeZigzag32 and makeZigzag64 are shared with the
    live encoder. *)
Definition writeVarInt (v : Z) : bytes := mk_varuint (zigzag 32 v).
Definition writeVarInt64 (v : Z) : bytes := mk_varuint (zigzag 64 v).
(** outbound-utils.go:73-76 *)
Definition writeUuid (v : bytes) : bytes := v.
(** outbound-utils.go:78-82; [v] are the bits. *)
Definition writeFloat64 (v : Z) : bytes := be_put 8 (uwrap 64 v).
(** outbound-utils.go:92-99 *)
Definition writeNullableString (v : option bytes) : bytes :=
  match v with
  | None => writeInt16 0
  | Some s => writeInt16 (swrap 16 (zlen s)) ++ s
  end.
(** outbound-utils.go:84-86 *)
Definition writeString (v : bytes) : bytes := writeNullableString (Some v).
(** outbound-utils.go:101-108 *)
Definition writeCompactNullableString (v : option bytes) : bytes :=
  match v with
  | None => writeVarInt 0
  | Some s => writeVarInt (swrap 32 (zlen s)) ++ s
  end.
(** outbound-utils.go:88-90 *)
Definition writeCompactString (v : bytes) : bytes := writeCompactNullableString (Some v).
(** outbound-utils.go:118-121; a nil slice has length 0. *)
Definition writeNullableBytes (v : option bytes) : bytes :=
  let s := match v with Some s => s | None => [] end in
  writeUint32 (uwrap 32 (zlen s)) ++ s.
(** outbound-utils.go:110-112 *)
Definition writeBytes (v : option bytes) : bytes := writeNullableBytes v.
(** outbound-utils.go:123-130 *)
Definition writeCompactNullableBytes (v : option bytes) : bytes :=
  match v with
  | None => writeVarInt 0
  | Some s => writeVarInt (swrap 32 (zlen s + 1)) ++ s
  end.
(** outbound-utils.go:114-116 *)
Definition writeCompactBytes (v : option bytes) : bytes := writeCompactNullableBytes v.

(** outbound-utils.go:147-191 (writeValue), with writeArray 132-141. *)
Fixpoint writeValue (v : lval) : option bytes :=
  match v with
  | LInt8 z => Some (writeInt8 z)
  | LInt16 z => Some (writeInt16 z)
  | LInt32 z => Some (writeInt32 z)
  | LInt64 z => Some (writeInt64 z)
  | LUint32 z => Some (writeUint32 z)
  | LVarInt z => Some (writeVarInt z)
  | LVarInt64 z => Some (writeVarInt64 z)
  | LUuid b => Some (writeUuid b)
  | LFloat64 z => Some (writeFloat64 z)
  | LString s => Some (writeString s)
  | LStrPtr o => Some (writeNullableString o)
  | LNullableString o => Some (writeNullableString o)
  | LCompactString s => Some (writeCompactString s)
  | LCompactNullableString o => Some (writeCompactNullableString o)
  | LBytes o => Some (writeBytes o)
  | LCompactBytes o => Some (writeCompactBytes o)
  | LNullableBytes o => Some (writeNullableBytes o)
  | LCompactNullableBytes o => Some (writeCompactNullableBytes o)
  | LArray None => Some (writeInt32 0)
  | LArray (Some l) =>
      oapp (Some (writeInt32 (swrap 32 (zlen l) + 1)))
        ((fix go (l : list lval) : option bytes :=
            match l with [] => Some [] | x :: l' => oapp (writeValue x) (go l') end) l)
  | LOther _ => None
  end.

(** outbound-utils.go:143-145 *)
Definition writeCompactArray (v : lval) : option bytes := None.

(** outbound-utils.go:203-213, in ascending order of the ids. *)
Fixpoint writeTagList (tags : list (Z * lval)) : option bytes :=
  match tags with
  | [] => Some []
  | (id, v) :: rest =>
      obind (writeValue v) (fun d =>
        oapp (Some (writeVarInt (swrap 32 id) ++ writeVarInt (swrap 32 (zlen d)) ++ writeBytes (Some d)))
             (writeTagList rest))
  end.
(** outbound-utils.go:193-215; [m] lists the entries of the map in any order. *)
Definition writeTags (m : list (Z * lval)) : option bytes :=
  if zlen m =? 0 then Some (writeInt8 0)
  else oapp (Some (writeVarInt (swrap 32 (zlen m)))) (writeTagList (sort_tags m)).

(** ** What the live encoder makes of the same value *)

(** A []byte as the codec model takes it. *)
Definition vbytes (o : option bytes) : val := VSlice (option_map (map VInt) o).

(** encoder.go:47-49 (encodeObject) on a value of type [any].  Slices of
    interfaces, encodeArray 428-439, are not in the universe [ty], so they are
    spelled out here; nil has no reflect type, which panics. *)
Fixpoint liveValue (v : lval) : option bytes :=
  match v with
  | LInt8 z => encodeObject TInt8 (VInt z)
  | LInt16 z => encodeObject TInt16 (VInt z)
  | LInt32 z => encodeObject TInt32 (VInt z)
  | LInt64 z => encodeObject TInt64 (VInt z)
  | LUint32 z => encodeObject TUint32 (VInt z)
  | LVarInt z => encodeObject TVarInt (VInt z)
  | LVarInt64 z => encodeObject TVarInt64 (VInt z)
  | LUuid b => encodeObject TUuid (VUuid b)
  | LFloat64 z => encodeObject TFloat64 (VInt z)
  | LString s => encodeObject TString (VStr s)
  | LStrPtr o => encodeObject (TPtr TString) (VPtr (option_map VStr o))
  | LNullableString o => encodeObject TNullableString (VNStr o)
  | LCompactString s => encodeObject TCompactString (VStr s)
  | LCompactNullableString o => encodeObject TCompactNullableString (VNStr o)
  | LBytes o => encodeObject (TSlice TUint8) (vbytes o)
  | LCompactBytes o => encodeObject TCompactBytes (VBytes o)
  | LNullableBytes o => encodeObject TNullableBytes (VBytes o)
  | LCompactNullableBytes o => encodeObject TCompactNullableBytes (VBytes o)
  | LArray None => Some (enc_i32 (-1))
  | LArray (Some l) =>
      oapp (Some (enc_i32 (swrap 32 (zlen l))))
        ((fix go (l : list lval) : option bytes :=
            match l with [] => Some [] | x :: l' => oapp (liveValue x) (go l') end) l)
  | LOther None => None
  | LOther (Some (t, v)) => encodeObject t v
  end.

(** encoder.go:454-475 (encodeTags) on a map of such values. *)
Fixpoint liveTagList (tags : list (Z * lval)) : option bytes :=
  match tags with
  | [] => Some []
  | (id, v) :: rest =>
      obind (liveValue v) (fun d =>
        oapp (Some (enc_varuint id ++ enc_varuint (zlen d) ++ d)) (liveTagList rest))
  end.
Definition liveTags (m : list (Z * lval)) : option bytes :=
  oapp (Some (enc_varuint (zlen m))) (liveTagList (sort_tags m)).
