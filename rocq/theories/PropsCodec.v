(** * PropsCodec: the properties of the wire codec (C01-C04, C07, C08, C25, C39) *)
From Verif Require Import CodecMore DispatchProofs ReplySpec.
From Coq Require Import Permutation Sorted.
Open Scope Z_scope.
Open Scope list_scope.

(** ** C01: primitive values *)
Theorem C01_primitive_round_trip :
  (forall b, round_trips TBool (VBool b)) /\
  (forall z, - 2 ^ 7 <= z < 2 ^ 7 -> round_trips TInt8 (VInt z)) /\
  (forall z, - 2 ^ 15 <= z < 2 ^ 15 -> round_trips TInt16 (VInt z)) /\
  (forall z, - 2 ^ 31 <= z < 2 ^ 31 -> round_trips TInt32 (VInt z) /\ round_trips TInt (VInt z)) /\
  (forall z, - 2 ^ 63 <= z < 2 ^ 63 -> round_trips TInt64 (VInt z)) /\
  (forall z, 0 <= z < 2 ^ 8 -> round_trips TUint8 (VInt z)) /\
  (forall z, 0 <= z < 2 ^ 16 -> round_trips TUint16 (VInt z)) /\
  (forall z, 0 <= z < 2 ^ 32 -> round_trips TUint32 (VInt z) /\ round_trips TUint (VInt z)) /\
  (forall z, 0 <= z < 2 ^ 64 -> round_trips TUint64 (VInt z) /\ round_trips TFloat64 (VInt z)) /\
  (forall u, zlen u = 16 -> round_trips TUuid (VUuid u)) /\
  (forall z, - 2 ^ 31 <= z < 2 ^ 31 -> round_trips TVarInt (VInt z)) /\
  (forall z, - 2 ^ 63 <= z < 2 ^ 63 -> round_trips TVarInt64 (VInt z)) /\
  (forall z, 0 <= z < 2 ^ 32 -> round_trips TVarUint (VInt z)) /\
  (forall z, 0 <= z < 2 ^ 64 -> round_trips TVarUint64 (VInt z)).
Proof. exact primitives_round_trip. Qed.
Print Assumptions C01_primitive_round_trip.

Theorem C01_primitive_format :
  (forall b, encodeObject TBool (VBool b) = Some (w_bool b)) /\
  (forall z, encodeObject TInt8 (VInt z) = Some (w_int8 z) /\ encodeObject TUint8 (VInt z) = Some (w_int8 z)) /\
  (forall z, encodeObject TInt16 (VInt z) = Some (w_int16 z) /\ encodeObject TUint16 (VInt z) = Some (w_int16 z)) /\
  (forall z, encodeObject TInt32 (VInt z) = Some (w_int32 z) /\ encodeObject TUint32 (VInt z) = Some (w_int32 z)) /\
  (forall z, encodeObject TInt (VInt z) = Some (w_int32 z) /\ encodeObject TUint (VInt z) = Some (w_int32 z)) /\
  (forall z, encodeObject TInt64 (VInt z) = Some (w_int64 z) /\ encodeObject TUint64 (VInt z) = Some (w_int64 z)) /\
  (forall z, encodeObject TFloat64 (VInt z) = Some (w_int64 z)) /\
  (forall u, encodeObject TUuid (VUuid u) = Some u).
Proof. exact primitives_format. Qed.
Print Assumptions C01_primitive_format.

(** An int64 in the middle of other bytes; a varint. *)
Example C01_ex :
  encodeObject TInt64 (VInt (-2)) = Some [255; 255; 255; 255; 255; 255; 255; 254] /\
  peekObject ([1; 2; 3] ++ [255; 255; 255; 255; 255; 255; 255; 254] ++ [9]) 3 TInt64 = DOk 11 (VInt (-2)) /\
  encodeObject TVarInt (VInt (-300)) = Some [215; 4] /\
  peekObject ([7] ++ [215; 4] ++ [255]) 1 TVarInt = DOk 3 (VInt (-300)).
Proof. vm_compute. auto. Qed.

(** ** C02: varints *)
Theorem C02_varint_shape :
  (forall v, 0 <= v < 2 ^ 32 -> exists l, encodeObject TVarUint (VInt v) = Some l /\ leb128 v l /\ 1 <= zlen l <= 5) /\
  (forall v, 0 <= v < 2 ^ 64 -> exists l, encodeObject TVarUint64 (VInt v) = Some l /\ leb128 v l /\ 1 <= zlen l <= 10) /\
  (forall n, - 2 ^ 31 <= n < 2 ^ 31 ->
     exists l, encodeObject TVarInt (VInt n) = Some l /\ leb128 (zigzag_spec n) l /\ 1 <= zlen l <= 5) /\
  (forall n, - 2 ^ 63 <= n < 2 ^ 63 ->
     exists l, encodeObject TVarInt64 (VInt n) = Some l /\ leb128 (zigzag_spec n) l /\ 1 <= zlen l <= 10).
Proof. exact (conj varuint_shape (conj varuint64_shape (conj varint_shape varint64_shape))). Qed.
Print Assumptions C02_varint_shape.

(** Numbers below 128 take one byte; so do signed ones of magnitude below 64,
    as [zigzag_spec n < 128] then. *)
Theorem C02_one_byte v l : leb128 v l -> v < 128 -> zlen l = 1.
Proof. exact (leb128_one v l). Qed.
Print Assumptions C02_one_byte.

Theorem C02_overlong_rejected pre l :
  (Forall (fun b => 128 <= b < 256) (firstn 5 l) ->
     peekObject (pre ++ l) (zlen pre) TVarUint = DFail /\ peekObject (pre ++ l) (zlen pre) TVarInt = DFail) /\
  (Forall (fun b => 128 <= b < 256) (firstn 10 l) ->
     peekObject (pre ++ l) (zlen pre) TVarUint64 = DFail /\ peekObject (pre ++ l) (zlen pre) TVarInt64 = DFail).
Proof. exact (varint_overlong pre l). Qed.
Print Assumptions C02_overlong_rejected.

(** 300 takes two bytes, 64 is the first positive number that does not fit one. *)
Example C02_ex :
  leb128 300 [172; 2] /\ encodeObject TVarUint (VInt 300) = Some [172; 2] /\
  encodeObject TVarInt (VInt 63) = Some [126] /\ encodeObject TVarInt (VInt (-64)) = Some [127] /\
  encodeObject TVarInt (VInt 64) = Some [128; 1] /\
  Forall (fun b => 128 <= b < 256) (firstn 5 [128; 129; 255; 200; 128; 0]) /\
  Forall (fun b => 128 <= b < 256) (firstn 10 [200; 200]).
Proof.
  repeat split; try reflexivity; try (right; vm_compute; discriminate); try lia;
    repeat constructor; lia.
Qed.

(** ** C03: messages *)
Theorem C03_composite_round_trip t v :
  agrees t false false = true -> wt t v = true -> round_trips t v.
Proof. exact (round_trip t v). Qed.
Print Assumptions C03_composite_round_trip.

(** All request schemas, and all response schemas but the one of Fetch. *)
Theorem C03_schemas_agree :
  Forall (fun t => agrees t false false = true)
    [tHeader0; tMetadataReq; tFindReq; tHeartbeatReq; tLeaveReq; tJoinReq; tSyncReq; tListReq; tCommitReq;
     tOffReq; tFetchReq; TPtr tMetadataResp; TPtr tFindResp; TPtr tHeartbeatResp; TPtr tLeaveResp; TPtr tJoinResp;
     TPtr tSyncResp; TPtr tListResp; TPtr tCommitResp; TPtr tOffResp; tApiVersionsResp; tMemberAssignment; tMessageV1].
Proof. repeat constructor. Qed.
Print Assumptions C03_schemas_agree.

Example C03_ex :
  let v := VStruct [VStr [103]; VInt (-7); VStr []; VInt 5;
    vslice [VStruct [VStr [116]; vslice [VStruct [VInt 3; VInt 900; VNStr None]; VStruct [VInt 4; VInt 1; VNStr (Some [109])]]]]] in
  agrees tCommitReq false false = true /\ wt tCommitReq v = true.
Proof. vm_compute. auto. Qed.

(** The format of arrays.  (Byte slices have the format of C07_byte_slice_format.) *)
Theorem C03_array_format e : e <> TUint8 ->
  encodeObject (TSlice e) (VSlice None) = Some (w_int32 (-1)) /\
  encodeObject (TStruct [(FT false true, TSlice e)]) (VStruct [VSlice None]) = Some [0] /\
  forall vs bss, Forall2 (fun v bs => encodeObject e v = Some bs) vs bss -> zlen vs < 2 ^ 31 - 1 ->
    encodeObject (TSlice e) (VSlice (Some vs)) = Some (w_int32 (zlen vs) ++ concat bss) /\
    exists l, encodeObject (TStruct [(FT false true, TSlice e)]) (VStruct [VSlice (Some vs)]) = Some (l ++ concat bss) /\
      leb128 (zigzag_spec (zlen vs + 1)) l.
Proof. exact (array_format e). Qed.
Print Assumptions C03_array_format.
Example C03_ex_array :
  Forall2 (fun v bs => encodeObject TInt16 v = Some bs) [VInt 3; VInt (-1)] [[0; 3]; [255; 255]] /\
  encodeObject (TSlice TInt16) (VSlice (Some [VInt 3; VInt (-1)])) = Some [0; 0; 0; 2; 0; 3; 255; 255].
Proof. split; [repeat constructor|reflexivity]. Qed.

(** ** C04: cut input *)
Theorem C04_truncated_rejected t v bs pre :
  agrees t false false = true -> wt t v = true -> encodeObject t v = Some bs -> zlen pre <= 4096 ->
  (forall k, (k < length bs)%nat -> peekObject (pre ++ firstn k bs) (zlen pre) t = DFail) /\
  (forall rest, 4096 < zlen pre + zlen bs -> peekObject (pre ++ bs ++ rest) (zlen pre) t = DFail).
Proof. exact (cut_rejected t v bs pre). Qed.
Print Assumptions C04_truncated_rejected.

(** Both cases occur: three bytes, cut; a string that starts in the window and ends beyond it. *)
Example C04_ex :
  wt TString (VStr [65]) = true /\ encodeObject TString (VStr [65]) = Some [0; 1; 65] /\
  peekObject ([5] ++ firstn 2 [0; 1; 65]) 1 TString = DFail /\
  let s := repeat 65 (Z.to_nat 100) in
  wt TString (VStr s) = true /\ zlen (repeat 0 (Z.to_nat 4000)) <= 4096 /\ 4096 < zlen (repeat 0 (Z.to_nat 4000)) + zlen (w_string s).
Proof. vm_compute. repeat split; discriminate. Qed.

(** ** C07: strings *)
Theorem C07_string_fits s : zlen s <= 32767 ->
  encodeObject TString (VStr s) = Some (w_int16 (zlen s) ++ s) /\
  encodeObject TNullableString (VNStr (Some s)) = Some (w_int16 (zlen s) ++ s) /\
  round_trips TString (VStr s) /\ round_trips TNullableString (VNStr (Some s)).
Proof. exact (string_format s). Qed.
Print Assumptions C07_string_fits.

Theorem C07_string_corrupted s pre rest : 32768 <= zlen s < 65536 -> zlen pre + 2 <= 4096 ->
  exists h, encodeObject TString (VStr s) = Some (h ++ s) /\ zlen h = 2 /\
    peekObject (pre ++ (h ++ s) ++ rest) (zlen pre) TString = DOk (zlen pre + 2) (VStr []) /\
    peekObject (pre ++ (h ++ s) ++ rest) (zlen pre) TNullableString = DOk (zlen pre + 2) (VNStr None).
Proof. exact (string_long s pre rest). Qed.
Print Assumptions C07_string_corrupted.

(** Nil strings and byte slices, and the compact types. *)
Theorem C07_data_format :
  encodeObject TNullableString (VNStr None) = Some (w_int16 (-1)) /\
  encodeObject TNullableBytes (VBytes None) = Some (w_int32 (-1)) /\
  encodeObject TCompactNullableString (VNStr None) = Some [0] /\
  encodeObject TCompactBytes (VBytes None) = Some [0] /\
  encodeObject TCompactNullableBytes (VBytes None) = Some [0] /\
  forall s, zlen s < 2 ^ 31 - 1 ->
    encodeObject TNullableBytes (VBytes (Some s)) = Some (w_int32 (zlen s) ++ s) /\
    exists l, leb128 (zigzag_spec (zlen s + 1)) l /\
      encodeObject TCompactString (VStr s) = Some (l ++ s) /\
      encodeObject TCompactNullableString (VNStr (Some s)) = Some (l ++ s) /\
      encodeObject TCompactBytes (VBytes (Some s)) = Some (l ++ s) /\
      encodeObject TCompactNullableBytes (VBytes (Some s)) = Some (l ++ s).
Proof. exact data_format. Qed.
Print Assumptions C07_data_format.
(** The same of plain byte slices, in a field tagged compact or not. *)
Theorem C07_byte_slice_format :
  encodeObject (TSlice TUint8) (VSlice None) = Some (w_int32 (-1)) /\
  encodeObject (TStruct [(FT false true, TSlice TUint8)]) (VStruct [VSlice None]) = Some [0] /\
  forall s, all_bytes s = true -> zlen s < 2 ^ 31 - 1 ->
    encodeObject (TSlice TUint8) (VSlice (Some (map VInt s))) = Some (w_int32 (zlen s) ++ s) /\
    exists l, leb128 (zigzag_spec (zlen s + 1)) l /\
      encodeObject (TStruct [(FT false true, TSlice TUint8)]) (VStruct [VSlice (Some (map VInt s))]) = Some (l ++ s).
Proof. exact byte_slice_format. Qed.
Print Assumptions C07_byte_slice_format.

Example C07_ex : zlen [104; 105] <= 32767 /\ 32768 <= zlen (repeat 65 (Z.to_nat 40000)) < 65536 /\ zlen [0; 0] + 2 <= 4096.
Proof. vm_compute. repeat split; discriminate. Qed.
Example C07_ex_compact : all_bytes [104; 105] = true /\ leb128 (zigzag_spec (zlen [104; 105] + 1)) [6] /\
  encodeObject TCompactString (VStr [104; 105]) = Some [6; 104; 105] /\
  encodeObject (TStruct [(FT false true, TSlice TUint8)]) (VStruct [VSlice (Some [VInt 104; VInt 105])]) = Some [6; 104; 105].
Proof. repeat split; try reflexivity; try lia; try (left; reflexivity). Qed.

(** ** C08: tagged fields *)
Theorem C08_tags_round_trip fields m :
  zlen m < 2 ^ 32 -> NoDup (map fst m) -> Forall (tag_ok fields) m ->
  exists order bs count,
    Permutation order m /\ StronglySorted Z.lt (map fst order) /\
    encodeTags m = Some (count ++ bs) /\
    leb128 (zlen m) count /\ tags_layout (map raw_tag order) bs /\
    forall pre, zlen pre <= 4096 ->
      (forall rest, zlen pre + zlen (count ++ bs) <= 4096 ->
         peekTags fields (pre ++ (count ++ bs) ++ rest) (zlen pre) =
         DOk (zlen pre + zlen (count ++ bs)) (tags_of fields order)) /\
      (forall k, (k < length (count ++ bs))%nat -> zlen pre + Z.of_nat k <= 4096 ->
         peekTags fields (pre ++ firstn k (count ++ bs)) (zlen pre) = DFail).
Proof. exact (tags_round_trip fields m). Qed.
Print Assumptions C08_tags_round_trip.

(** The order in which the map is iterated does not matter. *)
Theorem C08_tags_order m1 m2 : NoDup (map fst m1) -> Permutation m1 m2 -> encodeTags m1 = encodeTags m2.
Proof. exact (encodeTags_order m1 m2). Qed.
Print Assumptions C08_tags_order.

Example C08_ex :
  let fields := fun id => if id =? 200 then Some TInt16 else None in
  let m := [(200, (TInt16, VInt 7)); (3, (TString, VStr [120]))] in
  Forall (tag_ok fields) m /\ NoDup (map fst m) /\
  encodeTags m = Some [2; 3; 3; 0; 1; 120; 200; 1; 2; 0; 7] /\
  peekTags fields [2; 3; 3; 0; 1; 120; 200; 1; 2; 0; 7] 0 = DOk 11 [(3, TagRaw [0; 1; 120]); (200, TagObj (VInt 7))].
Proof.
  repeat split; try reflexivity.
  - constructor; [|constructor; [|constructor]]; (split; [reflexivity|split; [reflexivity|split; [reflexivity|split]]]);
      cbn; intros ? H; try discriminate; injection H as <-; reflexivity.
  - cbn. repeat constructor; cbn; intuition discriminate.
Qed.

(** ** C25: messages *)
Theorem C25_message_layout ms r max ms' :
  obytes (rKey r) = true -> obytes (rVal r) = true -> appendMessage ms r max = Some ms' ->
  exists m b, msMsgs ms' = msMsgs ms ++ [m] /\
    encodeObject tMessageV1 (message_val m) = Some b /\
    b = w_message (msOffset ms) (rec_size r) (crc32c_spec (w_msg_tail (rTs r) (rKey r) (rVal r)))
          (rTs r) (rKey r) (rVal r) /\
    zlen b = rec_size r /\ zlen b - 12 = 22 + blen (rKey r) + blen (rVal r).
Proof. exact (message_layout ms r max ms'). Qed.
Print Assumptions C25_message_layout.

(** The checksum does not match if up to four consecutive bytes are altered. *)
Theorem C25_corruption_detected a w c w' ts k v :
  obytes k = true -> obytes v = true -> w_msg_tail ts k v = a ++ w ++ c ->
  all_bytes w' = true -> length w = length w' -> (length w <= 4)%nat -> w <> w' ->
  crc32c_spec (a ++ w' ++ c) <> crc32c_spec (w_msg_tail ts k v).
Proof. exact (tail_corruption a w c w' ts k v). Qed.
Print Assumptions C25_corruption_detected.

(** The check value of CRC-32C, and a message for which both theorems apply. *)
Example C25_ex :
  crc32c_spec (w_text "123456789") = 0xe3069283 /\
  (exists ms', appendMessage (newMessageSetV1 5) (Rec 0 1000 (Some [1]) (Some [2; 3]) []) 100 = Some ms') /\
  w_msg_tail 1000 (Some [1]) (Some [2; 3]) =
    [1; 0; 0; 0; 0; 0; 0; 0; 3; 232; 0; 0; 0; 1] ++ [1] ++ [0; 0; 0; 2; 2; 3].
Proof. vm_compute. eauto. Qed.

(** ** C39: dispatch keys *)
Theorem C39_keys_distinct k1 v1 k2 v2 : makeApiKey k1 v1 = makeApiKey k2 v2 -> k1 = k2 /\ v1 = v2.
Proof. exact (makeApiKey_inj k1 v1 k2 v2). Qed.
Print Assumptions C39_keys_distinct.

Theorem C39_keys_parsed key ver :
  let '(a, b) := split_dot (makeApiKey key ver) in atoi a = key /\ atoi b = ver.
Proof. exact (parse_key key ver). Qed.
Print Assumptions C39_keys_parsed.

Example C39_ex : makeApiKey 18 0 = w_text "18.0" /\ makeApiKey (-1) 12 = w_text "-1.12".
Proof. vm_compute. auto. Qed.
