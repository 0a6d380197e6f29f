(** * Alloc: the room the decoder sets aside.

    decoder.go:519 makes a slice with room for as many elements as the count on
    the wire says, before the first of them is read.  [Codec.v] does not have
    this; here it is recorded beside [dec], in elements, in the order in which it
    happens, also when decoding fails later. *)
From Verif Require Export Server.
Open Scope Z_scope.
Open Scope list_scope.

(** decoder.go:520-527: [d] decodes an item, [g] is the room taken for it. *)
Definition rsv_items (d : bytes -> Z -> dres val) (ok : val -> bool) (g : bytes -> Z -> list Z) (r : bytes) :=
  fix go (n : nat) (off : Z) : list Z :=
    match n with
    | O => []
    | S n' => g r off ++ match d r off with DOk next x => if ok x then go n' next else [] | _ => [] end
    end.

(** decoder.go:516-519 *)
Definition rsv_fixed_array d ok g (r : bytes) (off len : Z) : list Z :=
  if len <? 0 then [] else len :: rsv_items d ok g r (Z.to_nat len) off.

(** decoder.go:534-541 *)
Definition rsv_var_array d ok g (r : bytes) (off : Z) : list Z :=
  match peek_sint 4 r off with DOk next len => rsv_fixed_array d ok g r next len | _ => [] end.

(** decoder.go:543-554 *)
Definition rsv_compact_array d ok g (r : bytes) (off : Z) : list Z :=
  match peek_varint r off with
  | DOk next len => if len =? 0 then [] else rsv_fixed_array d ok g r next (swrap 32 (len - 1))
  | _ => []
  end.

(** decoder.go:559-571 *)
Definition rsv_fields (g : ty -> bool -> bytes -> Z -> list Z) (r : bytes) :=
  fix go (fs : list (ftag * ty)) (off : Z) : list Z :=
    match fs with
    | [] => []
    | (tg, t') :: fs' =>
        g t' (tCompact tg) r off ++
        match dec t' (tCompact tg) r off with DOk next x => if settable t' x then go fs' next else [] | _ => [] end
    end.

(** decoder.go:349-498; of strings and byte strings only bytes that are
    there are copied. *)
Fixpoint rsv (t : ty) (compact : bool) (r : bytes) (off : Z) {struct t} : list Z :=
  match t with
  | TCompactBytes =>
      let d := fun r o => dmap VInt (peek_uint 1 r o) in
      if compact then rsv_compact_array d (settable TUint8) (fun _ _ => []) r off
      else rsv_var_array d (settable TUint8) (fun _ _ => []) r off
  | TSlice e =>
      if compact then rsv_compact_array (dec e false) (settable e) (rsv e false) r off
      else rsv_var_array (dec e false) (settable e) (rsv e false) r off
  | TArray e => rsv_compact_array (dec e false) (settable e) (rsv e false) r off
  | TPtr e => match e with TStruct _ | TMsgSet _ => rsv e false r off | _ => [] end
  | TStruct fs => rsv_fields rsv r fs off
  | TMsgSet tm => rsv_var_array (dec tm false) (settable tm) (rsv tm false) r off
  | _ => []
  end.

(** The type each handler asks readRequest for (see [startApi]). *)
Definition request_type (a : api) : option ty :=
  match a with
  | ApiMetadata => Some tMetadataReq
  | ApiFindCoordinator => Some tFindReq
  | ApiHeartbeat => Some tHeartbeatReq
  | ApiLeaveGroup => Some tLeaveReq
  | ApiJoinGroup => Some tJoinReq
  | ApiSyncGroup => Some tSyncReq
  | ApiApiVersions => None
  | ApiListOffsets => Some tListReq
  | ApiOffsetCommit => Some tCommitReq
  | ApiOffsetFetch => Some tOffReq
  | ApiFetch => Some tFetchReq
  end.

(** The room taken for a message; the header and the client id have no arrays
    (kafka-client.go:164-218, see [beginRequest]). *)
Definition reserved (msg : bytes) : list Z :=
  match peekObject msg 0 tHeader0 with
  | DOk next (VStruct [VInt key; VInt ver; VInt corr]) =>
      match peekString msg next with
      | DOk next2 client =>
          match dispatch key ver with
          | Some a => match request_type a with Some t => rsv t false (discard msg next2) 0 | None => [] end
          | None => []
          end
      | _ => []
      end
  | _ => []
  end.

Fixpoint zsum (l : list Z) : Z := match l with [] => 0 | x :: l' => x + zsum l' end.

(** The lengths of the slices in a value, outer ones first. *)
Fixpoint slice_lengths (v : val) : list Z :=
  match v with
  | VSlice (Some l) => zlen l :: flat_map slice_lengths l
  | VPtr (Some v') => slice_lengths v'
  | VStruct l => flat_map slice_lengths l
  | _ => []
  end.
