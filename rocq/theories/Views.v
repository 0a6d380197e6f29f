(** * Views: decoded byte strings that are parts of the reader's buffer.

    [Peek] returns a slice of the reader's own buffer.  Where the decoder makes a
    string of it, or takes integers out of it, the content is copied at once.
    Where it returns the slice itself (decoder.go:89, 182 for the two nullable
    byte types, 214 for tags it does not know), the result goes on being a part of
    the buffer, and later calls on the reader may write there.  Codec.v has values
    only; here the decoder runs on the reader of BufioReader.v and its results say
    which parts of the buffer they are. *)
From Verif Require Export Codec BufioReader.
Open Scope Z_scope.

(** A decoded object: [WCopy] shares nothing with the buffer; [WView start len]
    is the slice [buf[start:start+len]] of the reader's buffer. *)
Inductive wval : Type :=
| WCopy (v : val)
| WView (start len : nat)
| WList (l : list wval)
| WPtr (w : wval)
| WFields (l : list wval).

(** What one sees of a decoded object while the buffer holds [buf]. *)
Fixpoint seen (buf : bytes) (w : wval) : val :=
  match w with
  | WCopy v => v
  | WView s n => VBytes (Some (firstn n (skipn s buf)))
  | WList l => VSlice (Some (map (seen buf) l))
  | WPtr w' => VPtr (Some (seen buf w'))
  | WFields l => VStruct (map (seen buf) l)
  end.

(** reader.Peek; [b_peek] never is [None] (lemma [b_peek_spec]). *)
Definition m_peek (n : Z) (b : breader) : bytes * bool * breader :=
  match b_peek b n with Some x => x | None => ([], false, b) end.

Definition m_map {A B} (f : A -> B) (x : dres A * breader) : dres B * breader := (dmap f (fst x), snd x).

(** decoder.go:231-240; all callers take the bytes out at once. *)
Definition m_fixed (off len : Z) (b : breader) : dres bytes * breader :=
  match m_peek (off + len) b with
  | (d, true, b1) => (DOk (off + len) (skipn (Z.to_nat off) d), b1)
  | (_, false, b1) => (DFail, b1)
  end.
(** decoder.go:254-332, 242-252 *)
Definition m_sint (n off : Z) (b : breader) : dres Z * breader :=
  m_map (fun d => swrap (8 * n) (be_get d)) (m_fixed off n b).
Definition m_uint (n off : Z) (b : breader) : dres Z * breader := m_map be_get (m_fixed off n b).
Definition m_bool (off : Z) (b : breader) : dres bool * breader :=
  m_map (fun d => negb (be_get d =? 0)) (m_fixed off 1 b).
(** decoder.go:41-60, 103-122 *)
Definition m_varuint_w (w maxb off : Z) (b : breader) : dres Z * breader :=
  match m_peek (off + maxb) b with
  | (d, _, b1) => (varuint_loop w (skipn (Z.to_nat off) d) off 0 0, b1)
  end.
(** decoder.go:62-70, 94-101 *)
Definition m_varint (off : Z) (b : breader) : dres Z * breader := m_map (unzigzag 32) (m_varuint_w 32 5 off b).
Definition m_varint64 (off : Z) (b : breader) : dres Z * breader := m_map (unzigzag 64) (m_varuint_w 64 10 off b).

(** decoder.go:15-39; its one caller, peekNullableString (124-137), copies the
    data into a string at once. *)
Definition m_data16 (off : Z) (b : breader) : dres (option bytes) * breader :=
  match m_peek (off + 2) b with
  | (_, false, b1) => (DFail, b1)
  | (d, true, b1) =>
      let count := swrap 16 (be_get (skipn (Z.to_nat off) d)) in
      if count <? 0 then (DOk (off + 2) None, b1)
      else match m_peek (off + 2 + count) b1 with
           | (_, false, b2) => (DFail, b2)
           | (d', true, b2) => (DOk (off + 2 + count) (Some (skipn (Z.to_nat (off + 2)) d')), b2)
           end
  end.

(** decoder.go:72-92: the slice from [next] to the end of what Peek returned. *)
Definition m_cnbytes (off : Z) (b : breader) : dres (option (nat * nat)) * breader :=
  match m_varint off b with
  | (DOk next count, b1) =>
      if count <=? 0 then (DOk next None, b1)
      else match m_peek (next + (count - 1)) b1 with
           | (_, false, b2) => (DFail, b2)
           | (_, true, b2) => (DOk (next + (count - 1)) (Some (bR b2 + Z.to_nat next, Z.to_nat (count - 1)))%nat, b2)
           end
  | (DFail, b1) => (DFail, b1)
  | (DPanic, b1) => (DPanic, b1)
  end.
(** decoder.go:164-184 *)
Definition m_nbytes (off : Z) (b : breader) : dres (option (nat * nat)) * breader :=
  match m_sint 4 off b with
  | (DOk next len, b1) =>
      if len <? 0 then (DOk next None, b1)
      else match m_peek (next + len) b1 with
           | (_, false, b2) => (DFail, b2)
           | (_, true, b2) => (DOk (next + len) (Some (bR b2 + Z.to_nat next, Z.to_nat len))%nat, b2)
           end
  | (DFail, b1) => (DFail, b1)
  | (DPanic, b1) => (DPanic, b1)
  end.
Definition view (o : option (nat * nat)) : wval :=
  match o with Some (s, n) => WView s n | None => WCopy (VBytes None) end.
(** decoder.go:139-152 and 435-446: peekCompactNullableString copies the slice into a string. *)
Definition m_cnstr (off : Z) (b : breader) : dres (option bytes) * breader :=
  match m_cnbytes off b with
  | (r, b1) => (dmap (fun o => match o with
                               | Some (s, n) => Some (firstn n (skipn s (bBuf b1)))
                               | None => None end) r, b1)
  end.

(** reflect.Value.Set and reflect.Append, as [settable]. *)
Definition w_settable (t : ty) (w : wval) : bool :=
  match w with
  | WCopy v => settable t v
  | _ => match t with TArray _ => false | _ => true end
  end.

(** decoder.go:520-527 *)
Definition m_items (d : Z -> breader -> dres wval * breader) (ok : wval -> bool) :=
  fix go (n : nat) (off : Z) (b : breader) : dres (list wval) * breader :=
    match n with
    | O => (DOk off [], b)
    | S n' =>
        match d off b with
        | (DOk next x, b1) =>
            if ok x then
              match go n' next b1 with
              | (DOk e xs, b2) => (DOk e (x :: xs), b2)
              | (DFail, b2) => (DFail, b2)
              | (DPanic, b2) => (DPanic, b2)
              end
            else (DPanic, b1)
        | (DFail, b1) => (DFail, b1)
        | (DPanic, b1) => (DPanic, b1)
        end
    end.
(** decoder.go:516-532 *)
Definition m_fixed_array (d : Z -> breader -> dres wval * breader) (ok : wval -> bool)
    (off len : Z) (b : breader) : dres wval * breader :=
  if len <? 0 then (DOk off (WCopy VNil), b) else m_map WList (m_items d ok (Z.to_nat len) off b).
(** decoder.go:534-541 *)
Definition m_var_array d ok (off : Z) (b : breader) : dres wval * breader :=
  match m_sint 4 off b with
  | (DOk next len, b1) => m_fixed_array d ok next len b1
  | (DFail, b1) => (DFail, b1)
  | (DPanic, b1) => (DPanic, b1)
  end.
(** decoder.go:543-554 *)
Definition m_compact_array d ok (off : Z) (b : breader) : dres wval * breader :=
  match m_varint off b with
  | (DOk next len, b1) =>
      if len =? 0 then (DOk next (WCopy VNil), b1) else m_fixed_array d ok next (swrap 32 (len - 1)) b1
  | (DFail, b1) => (DFail, b1)
  | (DPanic, b1) => (DPanic, b1)
  end.
(** decoder.go:559-571 *)
Definition m_fields (d : ty -> bool -> Z -> breader -> dres wval * breader) :=
  fix go (fs : list (ftag * ty)) (off : Z) (b : breader) : dres (list wval) * breader :=
    match fs with
    | [] => (DOk off [], b)
    | (tg, t') :: fs' =>
        match d t' (tCompact tg) off b with
        | (DOk next x, b1) =>
            if w_settable t' x then
              match go fs' next b1 with
              | (DOk e xs, b2) => (DOk e (x :: xs), b2)
              | (DFail, b2) => (DFail, b2)
              | (DPanic, b2) => (DPanic, b2)
              end
            else (DPanic, b1)
        | (DFail, b1) => (DFail, b1)
        | (DPanic, b1) => (DPanic, b1)
        end
    end.

Definition cp {A} (f : A -> val) (a : A) : wval := WCopy (f a).
Definition or_empty (o : option bytes) : bytes := match o with Some s => s | None => [] end.

(** decoder.go:345-499 and 556-574, on the reader itself. *)
Fixpoint mdec (t : ty) (compact : bool) (off : Z) (b : breader) {struct t} : dres wval * breader :=
  match t with
  | TBool => m_map (cp VBool) (m_bool off b)
  | TInt8 => m_map (cp VInt) (m_sint 1 off b)
  | TInt16 => m_map (cp VInt) (m_sint 2 off b)
  | TInt32 | TInt => m_map (cp VInt) (m_sint 4 off b)
  | TInt64 => m_map (cp VInt) (m_sint 8 off b)
  | TUint8 => m_map (cp VInt) (m_uint 1 off b)
  | TUint16 => m_map (cp VInt) (m_uint 2 off b)
  | TUint32 | TUint => m_map (cp VInt) (m_uint 4 off b)
  | TUint64 | TFloat64 => m_map (cp VInt) (m_uint 8 off b)
  | TVarInt => m_map (cp VInt) (m_varint off b)
  | TVarInt64 => m_map (cp VInt) (m_varint64 off b)
  | TVarUint => m_map (cp VInt) (m_varuint_w 32 5 off b)
  | TVarUint64 => m_map (cp VInt) (m_varuint_w 64 10 off b)
  | TString => m_map (fun o => WCopy (VStr (or_empty o))) (m_data16 off b)
  | TCompactString => m_map (fun o => WCopy (VStr (or_empty o))) (m_cnstr off b)
  | TNullableString => m_map (cp VNStr) (m_data16 off b)
  | TCompactNullableString => m_map (cp VNStr) (m_cnstr off b)
  | TNullableBytes => m_map view (m_nbytes off b)
  | TCompactNullableBytes => m_map view (m_cnbytes off b)
  | TUuid => m_map (cp VUuid) (m_fixed off 16 b)       (* uuid.FromBytes copies *)
  | TCompactBytes =>
      let d := fun o b => m_map (cp VInt) (m_uint 1 o b) in
      if compact then m_compact_array d (w_settable TUint8) off b
      else m_var_array d (w_settable TUint8) off b
  | TSlice e =>
      if compact then m_compact_array (mdec e false) (w_settable e) off b
      else m_var_array (mdec e false) (w_settable e) off b
  | TArray e => m_compact_array (mdec e false) (w_settable e) off b
  | TPtr e =>
      match e with
      | TStruct _ | TMsgSet _ => m_map WPtr (mdec e false off b)
      | _ => (DPanic, b)
      end
  | TStruct fs => m_map WFields (m_fields mdec fs off b)
  | TMsgSet tm =>
      match m_var_array (mdec tm false) (w_settable tm) off b with
      | (DFail, b1) => (DFail, b1)
      | (_, b1) => (DPanic, b1)
      end
  end.

(** decoder.go:154-162 *)
Definition m_string (off : Z) (b : breader) : dres bytes * breader := m_map or_empty (m_data16 off b).

(** decoder.go:186-229 with no known tags (kafka-client.go:191), one entry per
    tag in wire order: the value is a part of the buffer. *)
Fixpoint m_tag_list (n : nat) (off : Z) (b : breader) : dres (list (Z * wval)) * breader :=
  match n with
  | O => (DOk off [], b)
  | S n' =>
      match m_varuint_w 32 5 off b with
      | (DOk o1 tag, b1) =>
          match m_varuint_w 32 5 o1 b1 with
          | (DOk o2 tl, b2) =>
              match m_peek (o2 + tl) b2 with
              | (_, false, b3) => (DFail, b3)
              | (_, true, b3) =>
                  m_map (cons (tag, WView (bR b3 + Z.to_nat o2) (Z.to_nat tl))) (m_tag_list n' (o2 + tl) b3)
              end
          | (DFail, b2) => (DFail, b2)
          | (DPanic, b2) => (DPanic, b2)
          end
      | (DFail, b1) => (DFail, b1)
      | (DPanic, b1) => (DPanic, b1)
      end
  end.
Definition m_tags (off : Z) (b : breader) : dres (list (Z * wval)) * breader :=
  match m_varuint_w 32 5 off b with
  | (DOk next n, b1) => m_tag_list (Z.to_nat n) next b1
  | (DFail, b1) => (DFail, b1)
  | (DPanic, b1) => (DPanic, b1)
  end.

(** kafka-client.go:170-214 and inbound-utils.go:35-50 on one reader: header,
    client id, tags if the request has them, Discard, body. *)
Definition m_request (th tb : ty) (tagged : bool) (msg : bytes)
  : dres (wval * bytes * list (Z * wval) * wval) * breader :=
  match mdec th false 0 (new_reader msg) with
  | (DOk n1 h, b1) =>
      match m_string n1 b1 with
      | (DOk n2 c, b2) =>
          match (if tagged then m_tags n2 b2 else (DOk n2 [], b2)) with
          | (DOk n3 tags, b3) =>
              match b_discard b3 n3 with
              | Some b4 => m_map (fun w => (h, c, tags, w)) (mdec tb false 0 b4)
              | None => (DPanic, b3)
              end
          | (DFail, b3) => (DFail, b3)
          | (DPanic, b3) => (DPanic, b3)
          end
      | (DFail, b2) => (DFail, b2)
      | (DPanic, b2) => (DPanic, b2)
      end
  | (DFail, b1) => (DFail, b1)
  | (DPanic, b1) => (DPanic, b1)
  end.
