(** * CodecSpec: what the codec theorems quantify over.

    [agrees] delimits the schemas on which encoder and decoder are meant to be
    inverse; [wt] says which values are legal members of a schema. *)
From Verif Require Export Codec.

(** Schemas (with the kafka tag of the position they occur at) for which the
    encoder writes the format the decoder reads.  The excluded ones are those
    where the two switches treat a tag or a type differently: a [compact] tag on
    a wide integer or on a plain string is honoured by the encoder only; the
    encoder panics on tagged named byte types; [CompactBytes] is not recognised
    by the decoder; fixed arrays and message sets go one way only. *)
Fixpoint agrees (t : ty) (nullable compact : bool) : bool :=
  match t with
  | TBool | TInt8 | TInt16 | TUint8 | TUint16 | TFloat64
  | TVarInt | TVarInt64 | TVarUint | TVarUint64
  | TCompactString | TNullableString | TCompactNullableString | TUuid => true
  | TInt32 | TInt | TInt64 | TUint32 | TUint | TUint64 | TString => negb compact
  | TNullableBytes | TCompactNullableBytes => negb compact && negb nullable
  | TSlice e => agrees e false false
  | TPtr e => match e with TStruct _ => agrees e true compact | _ => false end
  | TStruct fs =>
      (fix go (fs : list (ftag * ty)) : bool :=
         match fs with
         | [] => true
         | (tg, t') :: fs' => agrees t' (tNullable tg) (tCompact tg) && go fs'
         end) fs
  | TCompactBytes | TArray _ | TMsgSet _ => false
  end.

(** Legal values: in range for the type, strings and arrays not longer than
    their length field can say, no null array and no nil pointer. *)
Fixpoint wt (t : ty) (v : val) {struct t} : bool :=
  match t with
  | TBool => match v with VBool _ => true | _ => false end
  | TInt8 => match v with VInt z => in_s 8 z | _ => false end
  | TInt16 => match v with VInt z => in_s 16 z | _ => false end
  | TInt32 | TInt | TVarInt => match v with VInt z => in_s 32 z | _ => false end
  | TInt64 | TVarInt64 => match v with VInt z => in_s 64 z | _ => false end
  | TUint8 => match v with VInt z => in_u 8 z | _ => false end
  | TUint16 => match v with VInt z => in_u 16 z | _ => false end
  | TUint32 | TUint | TVarUint => match v with VInt z => in_u 32 z | _ => false end
  | TUint64 | TVarUint64 | TFloat64 => match v with VInt z => in_u 64 z | _ => false end
  | TString => match v with VStr s => zlen s <? 2 ^ 15 | _ => false end
  | TCompactString => match v with VStr s => zlen s <? 2 ^ 31 - 1 | _ => false end
  | TNullableString =>
      match v with VNStr (Some s) => zlen s <? 2 ^ 15 | VNStr None => true | _ => false end
  | TCompactNullableString =>
      match v with VNStr (Some s) => zlen s <? 2 ^ 31 - 1 | VNStr None => true | _ => false end
  | TNullableBytes =>
      match v with VBytes (Some s) => zlen s <? 2 ^ 31 | VBytes None => true | _ => false end
  | TCompactBytes | TCompactNullableBytes =>
      match v with VBytes (Some s) => zlen s <? 2 ^ 31 - 1 | VBytes None => true | _ => false end
  | TUuid => match v with VUuid b => zlen b =? 16 | _ => false end
  | TSlice e =>
      match v with
      | VSlice (Some l) => (zlen l <? 2 ^ 31 - 1) && forallb (wt e) l
      | _ => false end
  | TArray _ => false
  | TPtr e => match v with VPtr (Some x) => wt e x | _ => false end
  | TStruct fs =>
      match v with
      | VStruct vs =>
          (fix go (fs : list (ftag * ty)) (vs : list val) : bool :=
             match fs, vs with
             | [], [] => true
             | (_, t') :: fs', x :: vs' => wt t' x && go fs' vs'
             | _, _ => false
             end) fs vs
      | _ => false end
  | TMsgSet _ => false
  end.

(** Encoding then decoding in place, whatever surrounds the bytes, as long as
    they end within the reader's window of 4096 bytes. *)
Definition round_trips (t : ty) (v : val) : Prop :=
  exists bs, encodeObject t v = Some bs /\
    forall pre rest, zlen pre + zlen bs <= 4096 ->
      peekObject (pre ++ bs ++ rest) (zlen pre) t = DOk (zlen pre + zlen bs) v.

(** Base-128 numbers, least significant group first; every byte but the last
    carries the continuation bit, and there is no superfluous group. *)
Fixpoint leb_value (l : bytes) : Z :=
  match l with [] => 0 | b :: l' => b mod 128 + 128 * leb_value l' end.
Fixpoint leb_form (l : bytes) : Prop :=
  match l with
  | [] => False
  | [b] => 0 <= b < 128
  | b :: l' => 128 <= b < 256 /\ leb_form l'
  end.
Definition leb128 (v : Z) (l : bytes) : Prop :=
  leb_form l /\ leb_value l = v /\ (zlen l = 1 \/ 128 ^ (zlen l - 1) <= v).

(** Signed numbers as unsigned ones: 0, -1, 1, -2, 2, ... *)
Definition zigzag_spec (n : Z) : Z := if 0 <=? n then 2 * n else - 2 * n - 1.

(** ** Tagged fields *)

(** What the reader makes of a tag: the value for tags it knows, the raw bytes
    for others. *)
Definition expected_tag (fields : Z -> option ty) (d : bytes) (v : val) (id : Z) : tagval :=
  match fields id with Some _ => TagObj v | None => TagRaw d end.

(** The expected result for the tags, in wire order. *)
Definition tags_of (fields : Z -> option ty) (tags : list (Z * (ty * val))) : list (Z * tagval) :=
  map (fun '(id, (t, v)) =>
         (id, match encodeObject t v with
              | Some d => expected_tag fields d v id
              | None => TagRaw [] end)) tags.

(** Legal tags: number and size fit 32 bits, the value is legal, and a reader
    that knows the tag knows its type. *)
Definition tag_ok (fields : Z -> option ty) (e : Z * (ty * val)) : Prop :=
  in_u 32 (fst e) = true /\ agrees (fst (snd e)) false false = true /\
  wt (fst (snd e)) (snd (snd e)) = true /\
  (forall d, encodeObject (fst (snd e)) (snd (snd e)) = Some d -> zlen d < 2 ^ 32) /\
  (forall t, fields (fst e) = Some t -> t = fst (snd e)).

(** Tags on the wire: number, size, content, one after the other. *)
Inductive tags_layout : list (Z * bytes) -> bytes -> Prop :=
| tags_layout_nil : tags_layout [] []
| tags_layout_cons id d rest b1 b2 b3 :
    leb128 id b1 -> leb128 (zlen d) b2 -> tags_layout rest b3 ->
    tags_layout ((id, d) :: rest) (b1 ++ b2 ++ d ++ b3).

(** ** Null arrays

    [null_in t bs]: [bs] starts with legal encodings and then has, as (part of) a
    field of a struct or an element of an array, an array with a negative
    count; anything may follow. *)
Definition legal_bytes (t : ty) (v : val) (bs : bytes) : Prop :=
  agrees t false false = true /\ wt t v = true /\ encodeObject t v = Some bs.
Definition pfields (l : list ty) : ty := TStruct (map (fun t => (plain, t)) l).
Inductive legal_list : list ty -> list val -> list bytes -> Prop :=
| legal_nil : legal_list [] [] []
| legal_cons t v b ts vs bs : legal_bytes t v b -> legal_list ts vs bs -> legal_list (t :: ts) (v :: vs) (b :: bs).
Inductive null_in : ty -> bytes -> Prop :=
| null_here e n rest : - 2 ^ 31 <= n < 0 -> null_in (TSlice e) (enc_i32 n ++ rest)
| null_field ts1 vs bs t ts2 nbs :
    legal_list ts1 vs bs -> null_in t nbs ->
    null_in (pfields (ts1 ++ t :: ts2)) (concat bs ++ nbs)
| null_elem t n vs bs nbs :
    zlen vs < n < 2 ^ 31 -> Forall2 (legal_bytes t) vs bs -> null_in t nbs ->
    null_in (TSlice t) (enc_i32 n ++ concat bs ++ nbs).
