(** * Vectors: the project's own tests, run on the model

    Nothing is proved from this file.  It shows that the model gives the results
    that encoding_test.go and kafka-mock_test.go assert of the Go code, as a check
    of the transcription. *)
From Verif Require Import Codec Api LifeDemo.
From stdpp Require Import gmap list.
Open Scope Z_scope.
Open Scope list_scope.

(** What the tests do: encode the objects one after the other, decode as many with
    type [td], then expect nothing more. *)
Fixpoint write (l : list (ty * val)) : option bytes :=
  match l with [] => Some [] | (t, v) :: l' => oapp (encodeObject t v) (write l') end.
Fixpoint read (td : ty) (r : bytes) (off : Z) (n : nat) : option (list val * Z) :=
  match n with
  | O => Some ([], off)
  | S n' => match peekObject r off td with
            | DOk next v => match read td r next n' with Some (vs, e) => Some (v :: vs, e) | None => None end
            | _ => None
            end
  end.
Definition none_left (td : ty) (r : bytes) (off : Z) : bool := match peekObject r off td with DFail => true | _ => false end.
Definition test (l : list (ty * val)) (td : ty) : option (Z * list val * bool) :=
  match write l with
  | Some r => match read td r 0 (length l) with Some (vs, e) => Some (zlen r, vs, none_left td r e) | None => None end
  | None => None
  end.
(** The "Partial" tests: no proper part of what was written is accepted. *)
Definition partial (t : ty) (v : val) (td : ty) : bool :=
  match encodeObject t v with
  | Some r => forallb (fun i => none_left td (firstn i r) 0) (seq 1 (length r - 2))
  | None => false
  end.
Definition txt (s : string) : val := VStr (str s).
Definition compact (t : ty) : ty := TStruct [(FT false true, t)].
Definition rec1 (v : val) : val := VStruct [v].
Definition both (te : ty) (a b : val) : list (ty * val) := [(te, a); (te, b)].
Definition ints (l : list Z) : val := VSlice (Some (map VInt l)).

(** encoding_test.go:65-401 *)
Example t_bool : test [(TBool, VBool true)] TBool = Some (1, [VBool true], true).
Proof. vm_compute. reflexivity. Qed.
Example t_int8 : test (both TInt8 (VInt 123) (VInt 34)) TInt8 = Some (2, [VInt 123; VInt 34], true).
Proof. vm_compute. reflexivity. Qed.
Example t_int16 : test (both TInt16 (VInt 1234) (VInt 12345)) TInt16 = Some (4, [VInt 1234; VInt 12345], true).
Proof. vm_compute. reflexivity. Qed.
Example t_int32 : test (both TInt32 (VInt 12345) (VInt 123456)) TInt32 = Some (8, [VInt 12345; VInt 123456], true).
Proof. vm_compute. reflexivity. Qed.
Example t_int64 : test (both TInt64 (VInt 123456) (VInt (- 2 ^ 63))) TInt64 = Some (16, [VInt 123456; VInt (- 2 ^ 63)], true).
Proof. vm_compute. reflexivity. Qed.
Example t_uint8 : test (both TUint8 (VInt 123) (VInt 250)) TUint8 = Some (2, [VInt 123; VInt 250], true).
Proof. vm_compute. reflexivity. Qed.
Example t_uint16 : test (both TUint16 (VInt 1234) (VInt 65535)) TUint16 = Some (4, [VInt 1234; VInt 65535], true).
Proof. vm_compute. reflexivity. Qed.
Example t_uint32 : test (both TUint32 (VInt 12345) (VInt (2 ^ 32 - 1))) TUint32 = Some (8, [VInt 12345; VInt (2 ^ 32 - 1)], true).
Proof. vm_compute. reflexivity. Qed.
Example t_uint64 : test (both TUint64 (VInt 123456) (VInt (2 ^ 64 - 1))) TUint64 = Some (16, [VInt 123456; VInt (2 ^ 64 - 1)], true).
Proof. vm_compute. reflexivity. Qed.
(** 403-440: 123.456 is 0x405EDD2F1A9FBE77, math.MaxFloat64 is 0x7FEFFFFFFFFFFFFF. *)
Example t_float64 : test (both TFloat64 (VInt 4638387860618067575) (VInt 9218868437227405311)) TFloat64 =
  Some (16, [VInt 4638387860618067575; VInt 9218868437227405311], true).
Proof. vm_compute. reflexivity. Qed.

(** 442-611: strings *)
Example t_string : test (both TString (txt "test") (txt "test2")) TString = Some (13, [txt "test"; txt "test2"], true).
Proof. vm_compute. reflexivity. Qed.
Example t_string_util : peekString [0; 4; 116; 101; 115; 116; 0; 5; 116; 101; 115; 116; 50] 0 = DOk 6 (str "test") /\
  peekString [0; 4; 116; 101; 115; 116; 0; 5; 116; 101; 115; 116; 50] 6 = DOk 13 (str "test2") /\
  peekString [0; 4; 116; 101; 115] 0 = DFail.
Proof. vm_compute. auto. Qed.
Example t_nullable_string : test (both (TPtr TString) (VPtr (Some (txt "test"))) (VPtr (Some (txt "test")))) TNullableString =
  Some (12, [VNStr (Some (str "test")); VNStr (Some (str "test"))], true).
Proof. vm_compute. reflexivity. Qed.
Example t_string_from_nullable : test [(TNullableString, VNStr None)] TString = Some (2, [VStr []], true).
Proof. vm_compute. reflexivity. Qed.
Example t_nullable_string_nil : test [(TPtr TString, VPtr None)] TNullableString = Some (2, [VNStr None], true).
Proof. vm_compute. reflexivity. Qed.

(** 613-1097: varints *)
Example t_varint : test (both TVarInt (VInt 12) (VInt (2 ^ 31 - 1))) TVarInt = Some (6, [VInt 12; VInt (2 ^ 31 - 1)], true).
Proof. vm_compute. reflexivity. Qed.
Example t_varint_tag : test (both (compact TInt32) (rec1 (VInt 12)) (rec1 (VInt (2 ^ 31 - 1)))) TVarInt = Some (6, [VInt 12; VInt (2 ^ 31 - 1)], true).
Proof. vm_compute. reflexivity. Qed.
Example t_varint2 : test [(TVarInt, VInt (-1))] TVarInt = Some (1, [VInt (-1)], true).
Proof. vm_compute. reflexivity. Qed.
Example t_varint3 : test [(TVarInt, VInt (- 2 ^ 31))] TVarInt = Some (5, [VInt (- 2 ^ 31)], true).
Proof. vm_compute. reflexivity. Qed.
Example t_varint64 : test (both TVarInt64 (VInt 12) (VInt (2 ^ 63 - 1))) TVarInt64 = Some (11, [VInt 12; VInt (2 ^ 63 - 1)], true).
Proof. vm_compute. reflexivity. Qed.
Example t_varint64_tag : test (both (compact TInt64) (rec1 (VInt 12)) (rec1 (VInt (2 ^ 63 - 1)))) TVarInt64 = Some (11, [VInt 12; VInt (2 ^ 63 - 1)], true).
Proof. vm_compute. reflexivity. Qed.
Example t_varint642 : test [(TVarInt64, VInt (-1))] TVarInt64 = Some (1, [VInt (-1)], true).
Proof. vm_compute. reflexivity. Qed.
Example t_varint643 : test [(TVarInt64, VInt (- 2 ^ 63))] TVarInt64 = Some (10, [VInt (- 2 ^ 63)], true).
Proof. vm_compute. reflexivity. Qed.
Example t_varuint : test (both TVarUint (VInt 1234) (VInt (2 ^ 32 - 1))) TVarUint = Some (7, [VInt 1234; VInt (2 ^ 32 - 1)], true).
Proof. vm_compute. reflexivity. Qed.
Example t_varuint_tag : test (both (compact TUint32) (rec1 (VInt 1234)) (rec1 (VInt (2 ^ 32 - 1)))) TVarUint = Some (7, [VInt 1234; VInt (2 ^ 32 - 1)], true).
Proof. vm_compute. reflexivity. Qed.
Example t_varuint2 : test [(TVarUint, VInt 1)] TVarUint = Some (1, [VInt 1], true).
Proof. vm_compute. reflexivity. Qed.
Example t_varuint64 : test (both TVarUint64 (VInt 1234) (VInt (2 ^ 64 - 1))) TVarUint64 = Some (12, [VInt 1234; VInt (2 ^ 64 - 1)], true).
Proof. vm_compute. reflexivity. Qed.
Example t_varuint64_tag : test (both (compact TUint64) (rec1 (VInt 1234)) (rec1 (VInt (2 ^ 64 - 1)))) TVarUint64 = Some (12, [VInt 1234; VInt (2 ^ 64 - 1)], true).
Proof. vm_compute. reflexivity. Qed.
Example t_varuint642 : test [(TVarUint64, VInt 1)] TVarUint64 = Some (1, [VInt 1], true).
Proof. vm_compute. reflexivity. Qed.

(** 1099-1142: two identifiers *)
Definition id1 : val := VUuid (map Z.of_nat (seq 1 16)).
Definition id2 : val := VUuid (map Z.of_nat (seq 200 16)).
Example t_uuid : test (both TUuid id1 id2) TUuid = Some (32, [id1; id2], true).
Proof. vm_compute. reflexivity. Qed.

(** 1144-1393: compact strings *)
Example t_cstring : test (both TCompactString (txt "test") (txt "test2")) TCompactString = Some (11, [txt "test"; txt "test2"], true).
Proof. vm_compute. reflexivity. Qed.
Example t_cstring_from_nullable : test [(TCompactNullableString, VNStr None)] TCompactString = Some (1, [VStr []], true).
Proof. vm_compute. reflexivity. Qed.
Example t_cstring_tag : test (both (compact TString) (rec1 (txt "test")) (rec1 (txt "test2"))) TCompactString = Some (11, [txt "test"; txt "test2"], true).
Proof. vm_compute. reflexivity. Qed.
Example t_cnstring : let s := VNStr (Some (str "test")) in
  test (both TCompactNullableString s s) TCompactNullableString = Some (10, [s; s], true) /\
  partial TCompactNullableString s TCompactNullableString = true /\ partial TCompactNullableString (VNStr None) TCompactNullableString = true.
Proof. vm_compute. auto. Qed.
Example t_cnstring_tag : let s := VStruct [VPtr (Some (txt "test"))] in
  test (both (TStruct [(FT true true, TPtr TCompactString)]) s s) TCompactNullableString = Some (10, [VNStr (Some (str "test")); VNStr (Some (str "test"))], true).
Proof. vm_compute. reflexivity. Qed.
Example t_cnstring_nil : test [(TCompactNullableString, VNStr None)] TCompactNullableString = Some (1, [VNStr None], true).
Proof. vm_compute. reflexivity. Qed.

(** 1395-1695: byte strings *)
Example t_nbytes : let s := VBytes (Some (str "test")) in
  test (both TNullableBytes s s) TNullableBytes = Some (16, [s; s], true) /\
  partial TNullableBytes s TNullableBytes = true /\ partial TNullableBytes (VBytes None) TNullableBytes = true.
Proof. vm_compute. auto. Qed.
Example t_nbytes_tag : let s := rec1 (ints (str "test")) in
  test (both (TStruct [(FT false false, TSlice TUint8)]) s s) TNullableBytes = Some (16, [VBytes (Some (str "test")); VBytes (Some (str "test"))], true).
Proof. vm_compute. reflexivity. Qed.
Example t_nbytes_nil : test [(TNullableBytes, VBytes None)] TNullableBytes = Some (4, [VBytes None], true).
Proof. vm_compute. reflexivity. Qed.
Example t_cnbytes : let s := VBytes (Some (str "test")) in
  test (both TCompactNullableBytes s s) TCompactNullableBytes = Some (10, [s; s], true) /\
  partial TCompactNullableBytes s TCompactNullableBytes = true /\ partial TCompactNullableBytes (VBytes None) TCompactNullableBytes = true.
Proof. vm_compute. auto. Qed.
Example t_cnbytes_tag : let s := rec1 (ints (str "test")) in
  test (both (compact (TSlice TUint8)) s s) TCompactNullableBytes = Some (10, [VBytes (Some (str "test")); VBytes (Some (str "test"))], true).
Proof. vm_compute. reflexivity. Qed.
Example t_cnbytes_nil : test [(TCompactNullableBytes, VBytes None)] TCompactNullableBytes = Some (1, [VBytes None], true).
Proof. vm_compute. reflexivity. Qed.

(** 1697-1811, 1899-1955: arrays; a nil one is read as a nil interface *)
Example t_array : let a := ints [1; 2; 3] in test (both (TSlice TInt32) a a) (TSlice TInt32) = Some (32, [a; a], true).
Proof. vm_compute. reflexivity. Qed.
Example t_array_nil : test [(TSlice TInt32, VSlice None)] (TSlice TInt32) = Some (4, [VNil], true).
Proof. vm_compute. reflexivity. Qed.
Example t_carray : let a := ints [1; 2; 3] in test (both (compact (TSlice TInt32)) (rec1 a) (rec1 a)) (TArray TInt32) = Some (26, [a; a], true).
Proof. vm_compute. reflexivity. Qed.
Example t_carray_nil : test [(compact (TSlice TInt32), rec1 (VSlice None))] (TArray TInt32) = Some (1, [VNil], true).
Proof. vm_compute. reflexivity. Qed.
Example t_bytes : let a := ints [1; 2; 3] in test (both (TSlice TUint8) a a) (TSlice TUint8) = Some (14, [a; a], true).
Proof. vm_compute. reflexivity. Qed.
Example t_bytes_nil : test [(TSlice TUint8, VSlice None)] (TSlice TUint8) = Some (4, [VNil], true).
Proof. vm_compute. reflexivity. Qed.

(** 1813-1897: structs, by value and by pointer *)
Definition tTestValue : ty := fields [TUint; TUint].
Definition tTestStruct : ty :=
  TStruct [(plain, TInt); (plain, TString); (plain, TSlice TInt16); (plain, tTestValue); (plain, TPtr tTestValue); (FT false true, TSlice TInt16)].
Definition testRef : val :=
  VStruct [VInt 123; txt "test"; ints [5; 10; 15]; VStruct [VInt 4; VInt 24]; VPtr (Some (VStruct [VInt 222; VInt 444])); ints [100; 200]].
Example t_struct : test [(tTestStruct, testRef); (TPtr tTestStruct, VPtr (Some testRef))] tTestStruct = Some (82, [testRef; testRef], true) /\
  partial tTestStruct testRef tTestStruct = true.
Proof. vm_compute. auto. Qed.

(** 1957-2078: tags *)
Definition testTags : list (Z * (ty * val)) := [(2, (TCompactString, txt "test2")); (1, (TString, txt "test"))].
Definition testFields (z : Z) : option ty := if z =? 1 then Some TString else if z =? 2 then Some TCompactString else None.
Definition gone {A} (d : dres A) : bool := match d with DFail => true | _ => false end.
Example t_tags : let want := [(1, TagObj (txt "test")); (2, TagObj (txt "test2"))] in
  match oapp (encodeTags testTags) (encodeTags testTags) with
  | Some r => peekTags testFields r 0 = DOk 17 want /\ peekTags testFields r 17 = DOk 34 want /\ peekTags testFields r 34 = DFail
  | None => False
  end.
Proof. vm_compute. auto. Qed.
Example t_tags_partial :
  match encodeTags ((3, (TInt, VInt 123)) :: testTags) with
  | Some r => forallb (fun i => gone (peekTags testFields (firstn i r) 0)) (seq 1 (length r - 2)) = true
  | None => False
  end.
Proof. vm_compute. reflexivity. Qed.
Example t_tags_empty : encodeTags [] = Some [0] /\ peekTags testFields [0; 0] 0 = DOk 1 [] /\ peekTags testFields [0; 0] 1 = DOk 2 [] /\ peekTags testFields [0; 0] 2 = DFail.
Proof. vm_compute. auto. Qed.
Example t_tags_foreign :
  match encodeTags testTags with
  | Some r => peekTags (fun _ => None) r 0 = DOk 17 [(1, TagRaw [0; 4; 116; 101; 115; 116]); (2, TagRaw [12; 116; 101; 115; 116; 50])]
  | None => False
  end.
Proof. vm_compute. reflexivity. Qed.

(** 2080-2110 *)
Definition testVersions : val := VStruct [VInt 0; VSlice (Some [VStruct [VInt 1; VInt 0; VInt 1]; VStruct [VInt 13; VInt 1; VInt 6]])].
Example t_versions : test [(tApiVersionsResp, testVersions); (TPtr tApiVersionsResp, VPtr (Some testVersions))] tApiVersionsResp = Some (36, [testVersions; testVersions], true).
Proof. vm_compute. reflexivity. Qed.

(** kafka-mock_test.go:10-35 *)
Example t_no_start : In (LReturn 0) (tr (LCall CStop :: go 0 8)) /\ In (LReturn 1) (tr (LCall CStop :: go 0 8 ++ LCall CWait :: go 1 3)).
Proof. vm_compute. tauto. Qed.
Example t_no_start2 : In (LReturn 0) (tr (LCall CWait :: go 0 9)).
Proof. vm_compute. tauto. Qed.
Example t_start_stop :
  let es := LCall CStart :: go 0 10 ++ LCall CStop :: go 2 8 ++ LCall CWait :: go 3 3 ++ go 1 7 ++ go 2 8 ++ go 1 7 ++ go 3 3 in
  In (LReturn 0) (tr es) /\ In (LReturn 2) (tr es) /\ In (LReturn 3) (tr es) /\ lCrash (st es) = false.
Proof. vm_compute. tauto. Qed.
