(** * Codec: model of encoder.go and decoder.go.

    Both files are driven by [reflect.Type]; [ty] is a deep embedding of the
    types the two big switches distinguish, [val] the values they carry.
    Encoding yields [None] where the Go code panics.  Decoding yields [DOk next v],
    [DFail] ("next < 0") or [DPanic]. *)
From Verif Require Export GoBase.

(** kafka struct tag of a field, as returned by [kafkaTags]
    (decoder.go:501-514): does it contain "nullable" / "compact"? *)
Record ftag := FT { tNullable : bool; tCompact : bool }.
Definition plain := FT false false.

(** The reflect types.  Models the cases of encoder.go:51-203 and
    decoder.go:349-499.  Named types of encoder.go:16-27 have their own
    constructors because both switches test [tt.Name()].
    [TMsgSet tm] is [messageSetV1] with element type [tm] (always [messageV1],
    encoder.go:29-44; the parameter only makes the recursion structural).
    Not represented: unexported struct fields (no message type has one,
    except [messageSetV1] which both sides special-case), maps, channels,
    functions, complex numbers, float32. *)
Inductive ty : Type :=
| TBool | TInt8 | TInt16 | TInt32 | TInt | TInt64
| TUint8 | TUint16 | TUint32 | TUint | TUint64 | TFloat64
| TVarInt | TVarInt64 | TVarUint | TVarUint64
| TString | TCompactString
| TNullableString | TCompactNullableString
| TNullableBytes | TCompactBytes | TCompactNullableBytes
| TUuid
| TSlice (e : ty)                       (* unnamed []T *)
| TArray (e : ty)                       (* [n]T other than uuid.UUID *)
| TPtr (e : ty)                         (* unnamed *T *)
| TStruct (fs : list (ftag * ty))
| TMsgSet (tm : ty).

(** Go values.  Integers of every kind (and the bits of a float64) are [VInt];
    [VSlice None] is the nil slice, [VPtr None] the nil pointer, [VNil] the nil
    interface.  [VMsgSet total msgs] is a [messageSetV1] (encoder.go:29-33; its
    [offset] field is not encoded). *)
Inductive val : Type :=
| VBool (b : bool)
| VInt (z : Z)
| VStr (s : bytes)
| VNStr (o : option bytes)
| VBytes (o : option bytes)
| VUuid (b : bytes)
| VSlice (o : option (list val))
| VPtr (o : option val)
| VStruct (fs : list val)
| VMsgSet (total : Z) (msgs : list val)
| VNil.

(** ** Encoder *)

(** encoder.go:255-297, 299-301: fixed-width integers, two's complement. *)
Definition enc_i8 (v : Z) : bytes := [uwrap 8 v].
Definition enc_i16 (v : Z) : bytes := be_put 2 (uwrap 16 v).
Definition enc_i32 (v : Z) : bytes := be_put 4 (uwrap 32 v).
Definition enc_i64 (v : Z) : bytes := be_put 8 (uwrap 64 v).

(** encoder.go:247-253 *)
Definition enc_bool (b : bool) : bytes := [if b then 1 else 0].

(** encoder.go:308-322 (makeVarUint) and 329-343 (makeVarUint64): the loop, on
    fuel; 10 rounds suffice for 64 bits (lemma [mk_varuint_fuel]). *)
Fixpoint mk_varuint_loop (fuel : nat) (v : Z) : bytes :=
  match fuel with
  | O => []
  | S f =>
      let by_ := Z.land v 127 in
      if 127 <? v then Z.lor by_ 128 :: mk_varuint_loop f (Z.shiftr v 7)
      else [by_]
  end.
Definition mk_varuint (v : Z) : bytes := mk_varuint_loop 10 v.

(** encoder.go:303-306 (w = 32) and 324-327 (w = 64). *)
Definition zigzag (w n : Z) : Z :=
  uwrap w (Z.lxor (swrap w (Z.shiftl n 1)) (Z.shiftr n (w - 1))).

(** encoder.go:345-363 *)
Definition enc_varint (v : Z) : bytes := mk_varuint (zigzag 32 v).
Definition enc_varint64 (v : Z) : bytes := mk_varuint (zigzag 64 v).
Definition enc_varuint (v : Z) : bytes := mk_varuint (uwrap 32 v).
Definition enc_varuint64 (v : Z) : bytes := mk_varuint (uwrap 64 v).

(** encoder.go:384-391 (encodeNullableString); encodeString 376-378 is the
    [Some] case. *)
Definition enc_nstr (o : option bytes) : bytes :=
  match o with
  | None => enc_i16 (-1)
  | Some s => enc_i16 (swrap 16 (zlen s)) ++ s
  end.

(** encoder.go:393-400 and 419-426 (compact nullable string / bytes). *)
Definition enc_cnstr (o : option bytes) : bytes :=
  match o with
  | None => enc_varint 0
  | Some s => enc_varint (swrap 32 (zlen s + 1)) ++ s
  end.

(** encoder.go:410-417 *)
Definition enc_nbytes (o : option bytes) : bytes :=
  match o with
  | None => enc_i32 (-1)
  | Some s => enc_i32 (uwrap 32 (zlen s)) ++ s
  end.

(** Content of a [[]byte] value. *)
Definition val_bytes (l : list val) : option bytes :=
  fold_right (fun v acc => match v, acc with
                           | VInt z, Some r => Some (uwrap 8 z :: r)
                           | _, _ => None end) (Some []) l.

Definition obind {A B} (o : option A) (f : A -> option B) : option B :=
  match o with Some a => f a | None => None end.
Definition oapp (a b : option bytes) : option bytes :=
  obind a (fun x => obind b (fun y => Some (x ++ y))).

(** encoder.go:434-437, 447-450, 479-481: elements one after the other. *)
Definition enc_items (f : val -> option bytes) :=
  fix go (l : list val) : option bytes :=
    match l with
    | [] => Some []
    | x :: l' => oapp (f x) (go l')
    end.

(** encoder.go:233-245 (encodeStruct): fields in declaration order, each with
    the flags of its kafka tag. *)
Definition enc_fields (f : ty -> bool -> bool -> val -> option bytes) :=
  fix go (fs : list (ftag * ty)) (vs : list val) : option bytes :=
    match fs, vs with
    | [], [] => Some []
    | (tg, t') :: fs', x :: vs' =>
        oapp (f t' (tNullable tg) (tCompact tg) x) (go fs' vs')
    | _, _ => None
    end.

(** encoder.go:51-203 (encodeObjectWorker), with encodeStruct 233-245,
    encodeArray 428-439, encodeCompactArray 441-452, encodeMessageSetV1
    477-482, targetType 205-231 (nil pointers) inlined.  [None] = panic (failed
    type assertion or explicit panic). *)
Fixpoint enc (t : ty) (nullable compact : bool) (v : val) {struct t} : option bytes :=
  match t with
  | TBool => match v with VBool b => Some (enc_bool b) | _ => None end
  | TInt8 | TUint8 => match v with VInt z => Some (enc_i8 z) | _ => None end
  | TInt16 | TUint16 => match v with VInt z => Some (enc_i16 z) | _ => None end
  | TInt32 | TInt =>
      match v with
      | VInt z => Some (if compact then enc_varint (swrap 32 z) else enc_i32 z)
      | _ => None end
  | TInt64 =>
      match v with
      | VInt z => Some (if compact then enc_varint64 z else enc_i64 z)
      | _ => None end
  | TUint32 | TUint =>
      match v with
      | VInt z => Some (if compact then enc_varuint z else enc_i32 z)
      | _ => None end
  | TUint64 =>
      match v with
      | VInt z => Some (if compact then enc_varuint64 z else enc_i64 z)
      | _ => None end
  | TFloat64 => match v with VInt z => Some (enc_i64 z) | _ => None end
  | TVarInt => match v with VInt z => Some (enc_varint z) | _ => None end
  | TVarInt64 => match v with VInt z => Some (enc_varint64 z) | _ => None end
  | TVarUint => match v with VInt z => Some (enc_varuint z) | _ => None end
  | TVarUint64 => match v with VInt z => Some (enc_varuint64 z) | _ => None end
  | TString =>
      (* encoder.go:109-135; the compact+nullable branch asserts obj.(string pointer)
         although the pointer has been dereferenced already: it panics *)
      match v with
      | VStr s =>
          if compact then (if nullable then None else Some (enc_cnstr (Some s)))
          else Some (enc_nstr (Some s))
      | VNil =>
          if nullable then Some (if compact then enc_cnstr None else enc_nstr None)
          else None
      | _ => None
      end
  | TCompactString => match v with VStr s => Some (enc_cnstr (Some s)) | _ => None end
  | TNullableString => match v with VNStr o => Some (enc_nstr o) | _ => None end
  | TCompactNullableString => match v with VNStr o => Some (enc_cnstr o) | _ => None end
  | TNullableBytes =>
      (* obj.([]byte) fails on the named type when a tag is present *)
      if compact || nullable then None
      else match v with VBytes o => Some (enc_nbytes o) | _ => None end
  | TCompactBytes | TCompactNullableBytes =>
      if compact || nullable then None
      else match v with VBytes o => Some (enc_cnstr o) | _ => None end
  | TUuid => match v with VUuid b => Some b | _ => None end
  | TArray _ => None
  | TSlice TUint8 =>
      match v with
      | VSlice None => Some (if compact then enc_cnstr None else enc_nbytes None)
      | VSlice (Some l) =>
          obind (val_bytes l)
            (fun b => Some (if compact then enc_cnstr (Some b) else enc_nbytes (Some b)))
      | _ => None
      end
  | TSlice e =>
      match v with
      | VSlice None => Some (if compact then enc_varint 0 else enc_i32 (-1))
      | VSlice (Some l) =>
          oapp (Some (if compact then enc_varint (swrap 32 (swrap 32 (zlen l) + 1))
                      else enc_i32 (swrap 32 (zlen l))))
               (enc_items (enc e false false) l)
      | _ => None
      end
  | TPtr e =>
      match v with
      | VPtr (Some x) => enc e true compact x
      | VPtr None => match e with TString => enc e true compact VNil | _ => None end
      | _ => None
      end
  | TStruct fs =>
      match v with
      | VStruct vs => enc_fields enc fs vs
      | _ => None
      end
  | TMsgSet tm =>
      match v with
      | VMsgSet total msgs =>
          oapp (Some (enc_i32 total))
               (enc_items (enc tm false false) msgs)
      | _ => None
      end
  end.

(** encoder.go:47-49 *)
Definition encodeObject (t : ty) (v : val) : option bytes := enc t false false v.

(** ** Decoder *)

Inductive dres (A : Type) : Type :=
| DOk (next : Z) (a : A)
| DFail
| DPanic.
Arguments DOk {A}. Arguments DFail {A}. Arguments DPanic {A}.

Definition dmap {A B} (f : A -> B) (d : dres A) : dres B :=
  match d with DOk n a => DOk n (f a) | DFail => DFail | DPanic => DPanic end.

(** decoder.go:231-240 *)
Definition peek_fixed (r : bytes) (off len : Z) : dres bytes :=
  match peek r (off + len) with
  | None => DFail
  | Some d => DOk (off + len) (skipn (Z.to_nat off) d)
  end.

(** decoder.go:254-332: signed / unsigned big-endian integers of [n] bytes. *)
Definition peek_sint (n : Z) (r : bytes) (off : Z) : dres Z :=
  dmap (fun d => swrap (8 * n) (be_get d)) (peek_fixed r off n).
Definition peek_uint (n : Z) (r : bytes) (off : Z) : dres Z :=
  dmap be_get (peek_fixed r off n).

(** decoder.go:242-252 *)
Definition peek_bool (r : bytes) (off : Z) : dres bool :=
  dmap (fun d => negb (be_get d =? 0)) (peek_fixed r off 1).

(** The loop of decoder.go:46-59 and 108-121; [l] is the part of [inbound]
    from position [next] on. *)
Fixpoint varuint_loop (w : Z) (l : bytes) (next shift acc : Z) : dres Z :=
  match l with
  | [] => DFail
  | by_ :: l' =>
      let acc' := Z.lor acc (uwrap w (Z.shiftl (Z.land by_ 127) shift)) in
      if Z.land by_ 128 =? 0 then DOk (next + 1) acc'
      else varuint_loop w l' (next + 1) (shift + 7) acc'
  end.

(** decoder.go:41-60 (w=32, maxb=5) and 103-122 (w=64, maxb=10). *)
Definition peek_varuint_w (w maxb : Z) (r : bytes) (off : Z) : dres Z :=
  varuint_loop w (skipn (Z.to_nat off) (peek_avail r (off + maxb))) off 0 0.
Definition peek_varuint := peek_varuint_w 32 5.
Definition peek_varuint64 := peek_varuint_w 64 10.

(** decoder.go:68 and 99: [(u >> 1) ^ (-(u & 1))] in w-bit unsigned
    arithmetic, converted to signed. *)
Definition unzigzag (w u : Z) : Z :=
  swrap w (Z.lxor (Z.shiftr u 1) (uwrap w (- Z.land u 1))).

(** decoder.go:62-70, 94-101 *)
Definition peek_varint (r : bytes) (off : Z) : dres Z := dmap (unzigzag 32) (peek_varuint r off).
Definition peek_varint64 (r : bytes) (off : Z) : dres Z := dmap (unzigzag 64) (peek_varuint64 r off).

(** decoder.go:15-39 (peekNullableData16) *)
Definition peek_data16 (r : bytes) (off : Z) : dres (option bytes) :=
  match peek r (off + 2) with
  | None => DFail
  | Some d =>
      let count := swrap 16 (be_get (skipn (Z.to_nat off) d)) in
      if count <? 0 then DOk (off + 2) None
      else match peek r (off + 2 + count) with
           | None => DFail
           | Some d' => DOk (off + 2 + count) (Some (skipn (Z.to_nat (off + 2)) d'))
           end
  end.

(** decoder.go:72-92 (peekCompactNullableBytes) *)
Definition peek_cnbytes (r : bytes) (off : Z) : dres (option bytes) :=
  match peek_varint r off with
  | DOk next count =>
      if count <=? 0 then DOk next None
      else match peek r (next + (count - 1)) with
           | None => DFail
           | Some d => DOk (next + (count - 1)) (Some (skipn (Z.to_nat next) d))
           end
  | DFail => DFail
  | DPanic => DPanic
  end.

(** decoder.go:164-184 (peekNullableBytes) *)
Definition peek_nbytes (r : bytes) (off : Z) : dres (option bytes) :=
  match peek_sint 4 r off with
  | DOk next len =>
      if len <? 0 then DOk next None
      else match peek r (next + len) with
           | None => DFail
           | Some d => DOk (next + len) (Some (skipn (Z.to_nat next) d))
           end
  | DFail => DFail
  | DPanic => DPanic
  end.

(** May a decoded item be stored in a struct field (decoder.go:569-570,
    [reflect.Value.Set]) or appended to a slice (decoder.go:526,
    [reflect.Append])?  Both panic on the zero [reflect.Value] made from a nil
    interface, and on a slice given for a fixed-array type. *)
Definition settable (t : ty) (v : val) : bool :=
  match v with
  | VNil => false
  | _ => match t with TArray _ => false | _ => true end
  end.

(** decoder.go:520-527: the item loop of peekObjectFixedArray. *)
Definition dec_items (d : bytes -> Z -> dres val) (ok : val -> bool) (r : bytes) :=
  fix go (n : nat) (off : Z) : dres (list val) :=
    match n with
    | O => DOk off []
    | S n' =>
        match d r off with
        | DOk next x =>
            if ok x then
              match go n' next with
              | DOk e xs => DOk e (x :: xs)
              | DFail => DFail
              | DPanic => DPanic
              end
            else DPanic
        | DFail => DFail
        | DPanic => DPanic
        end
    end.

(** decoder.go:516-532 (peekObjectFixedArray).  A negative length leaves
    [obj] nil.  The up-front allocation of [length] elements is in Alloc.v; that some
    results are parts of the buffer, in Views.v. *)
Definition dec_fixed_array (d : bytes -> Z -> dres val) (ok : val -> bool)
    (r : bytes) (off len : Z) : dres val :=
  if len <? 0 then DOk off VNil
  else dmap (fun xs => VSlice (Some xs)) (dec_items d ok r (Z.to_nat len) off).

(** decoder.go:534-541 *)
Definition dec_var_array (d : bytes -> Z -> dres val) (ok : val -> bool)
    (r : bytes) (off : Z) : dres val :=
  match peek_sint 4 r off with
  | DOk next len => dec_fixed_array d ok r next len
  | DFail => DFail
  | DPanic => DPanic
  end.

(** decoder.go:543-554 *)
Definition dec_compact_array (d : bytes -> Z -> dres val) (ok : val -> bool)
    (r : bytes) (off : Z) : dres val :=
  match peek_varint r off with
  | DOk next len =>
      if len =? 0 then DOk next VNil
      else dec_fixed_array d ok r next (swrap 32 (len - 1))
  | DFail => DFail
  | DPanic => DPanic
  end.

(** decoder.go:559-571: the field loop of peekObjectStruct. *)
Definition dec_fields (d : ty -> bool -> bytes -> Z -> dres val) (r : bytes) :=
  fix go (fs : list (ftag * ty)) (off : Z) : dres (list val) :=
    match fs with
    | [] => DOk off []
    | (tg, t') :: fs' =>
        match d t' (tCompact tg) r off with
        | DOk next x =>
            if settable t' x then
              match go fs' next with
              | DOk e xs => DOk e (x :: xs)
              | DFail => DFail
              | DPanic => DPanic
              end
            else DPanic
        | DFail => DFail
        | DPanic => DPanic
        end
    end.

(** decoder.go:345-499 (peekObject, peekObjectWorker) with peekObjectStruct
    556-574.  The [nullable] argument is never used by the decoder and is
    omitted. *)
Fixpoint dec (t : ty) (compact : bool) (r : bytes) (off : Z) {struct t} : dres val :=
  match t with
  | TBool => dmap VBool (peek_bool r off)
  | TInt8 => dmap VInt (peek_sint 1 r off)
  | TInt16 => dmap VInt (peek_sint 2 r off)
  | TInt32 | TInt => dmap VInt (peek_sint 4 r off)
  | TInt64 => dmap VInt (peek_sint 8 r off)
  | TUint8 => dmap VInt (peek_uint 1 r off)
  | TUint16 => dmap VInt (peek_uint 2 r off)
  | TUint32 | TUint => dmap VInt (peek_uint 4 r off)
  | TUint64 | TFloat64 => dmap VInt (peek_uint 8 r off)
  | TVarInt => dmap VInt (peek_varint r off)
  | TVarInt64 => dmap VInt (peek_varint64 r off)
  | TVarUint => dmap VInt (peek_varuint r off)
  | TVarUint64 => dmap VInt (peek_varuint64 r off)
  | TString =>
      dmap (fun o => VStr (match o with Some s => s | None => [] end)) (peek_data16 r off)
  | TCompactString =>
      dmap (fun o => VStr (match o with Some s => s | None => [] end)) (peek_cnbytes r off)
  | TNullableString => dmap VNStr (peek_data16 r off)
  | TCompactNullableString => dmap VNStr (peek_cnbytes r off)
  | TNullableBytes => dmap VBytes (peek_nbytes r off)
  | TCompactNullableBytes => dmap VBytes (peek_cnbytes r off)
  | TUuid => dmap VUuid (peek_fixed r off 16)
  | TCompactBytes =>
      (* not one of the names tested: treated as a slice of uint8 *)
      let d := fun r o => dmap VInt (peek_uint 1 r o) in
      if compact then dec_compact_array d (settable TUint8) r off
      else dec_var_array d (settable TUint8) r off
  | TSlice e =>
      if compact then dec_compact_array (dec e false) (settable e) r off
      else dec_var_array (dec e false) (settable e) r off
  | TArray e => dec_compact_array (dec e false) (settable e) r off
  | TPtr e =>
      match e with
      | TStruct _ | TMsgSet _ => dmap (fun v => VPtr (Some v)) (dec e false r off)
      | _ => DPanic
      end
  | TStruct fs =>
      dmap VStruct (dec_fields dec r fs off)
  | TMsgSet tm =>
      (* struct case; its first field msgs []messageV1 is unexported: decoded,
         then reflect.Value.Set panics *)
      match dec_var_array (dec tm false) (settable tm) r off with
      | DFail => DFail
      | _ => DPanic
      end
  end.

(** decoder.go:345-347 *)
Definition peekObject (r : bytes) (off : Z) (t : ty) : dres val := dec t false r off.

(** decoder.go:154-162 *)
Definition peekString (r : bytes) (off : Z) : dres bytes :=
  dmap (fun o => match o with Some s => s | None => [] end) (peek_data16 r off).

(** ** Tagged fields *)

(** encoder.go:463-474: the entries of the map, already in ascending tag
    order; each carries the type of its value. *)
Fixpoint enc_tag_list (tags : list (Z * (ty * val))) : option bytes :=
  match tags with
  | [] => Some []
  | (id, (t, v)) :: rest =>
      obind (encodeObject t v) (fun d =>
        oapp (Some (enc_varuint id ++ enc_varuint (zlen d) ++ d)) (enc_tag_list rest))
  end.

(** encoder.go:455-459: the ids are collected from the map (in any order) and
    sorted ([sort.Ints], here insertion sort, with the entries attached). *)
Fixpoint ins_tag {A} (e : Z * A) (l : list (Z * A)) : list (Z * A) :=
  match l with
  | [] => [e]
  | x :: l' => if fst e <=? fst x then e :: l else x :: ins_tag e l'
  end.
Definition sort_tags {A} (l : list (Z * A)) : list (Z * A) := fold_right ins_tag [] l.

(** encoder.go:454-475 (encodeTags): [m] lists the map's entries in whatever
    order the map iterates. *)
Definition encodeTags (m : list (Z * (ty * val))) : option bytes :=
  oapp (Some (enc_varuint (zlen m))) (enc_tag_list (sort_tags m)).

(** A tag value as found in the result map of peekTags: raw bytes for unknown
    tags, a decoded object for known ones. *)
Inductive tagval := TagRaw (b : bytes) | TagObj (v : val).

(** decoder.go:186-229 (peekTags); the result lists map assignments in wire
    order (a later assignment to the same tag overwrites an earlier one).
    [fields] gives the types of known tags. *)
Fixpoint dec_tag_list (fields : Z -> option ty) (r : bytes) (n : nat) (off : Z)
  : dres (list (Z * tagval)) :=
  match n with
  | O => DOk off []
  | S n' =>
      match peek_varuint r off with
      | DOk o1 tag =>
          match peek_varuint r o1 with
          | DOk o2 tl =>
              match fields tag with
              | None =>
                  match peek r (o2 + tl) with
                  | None => DFail
                  | Some d =>
                      dmap (fun rest => (tag, TagRaw (skipn (Z.to_nat o2) d)) :: rest)
                           (dec_tag_list fields r n' (o2 + tl))
                  end
              | Some t =>
                  match peekObject r o2 t with
                  | DOk o3 v => dmap (fun rest => (tag, TagObj v) :: rest)
                                     (dec_tag_list fields r n' o3)
                  | DFail => DFail
                  | DPanic => DPanic
                  end
              end
          | DFail => DFail
          | DPanic => DPanic
          end
      | DFail => DFail
      | DPanic => DPanic
      end
  end.
Definition peekTags (fields : Z -> option ty) (r : bytes) (off : Z) : dres (list (Z * tagval)) :=
  match peek_varuint r off with
  | DOk next n => dec_tag_list fields r (Z.to_nat n) next
  | DFail => DFail
  | DPanic => DPanic
  end.
