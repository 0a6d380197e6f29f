(** * PropsDisagree: C58, what the two halves of the codec do not share *)
From Verif Require Import DisagreeProofs.
Open Scope Z_scope.

(** The encoder panics on a value exactly if there is a fixed array in it, a
    tagged named byte slice, a string that is both compact and nullable, or a nil
    pointer to anything but a string. *)
Theorem C58_encoder_panics t v : typed t v -> (encodeObject t v = None <-> trouble t false false v).
Proof. exact (enc_panics t false false v). Qed.
Print Assumptions C58_encoder_panics.

(** The decoder accepts something for a type exactly if the type is none of those
    listed in [undecodable] and its smallest values fit the window. *)
Theorem C58_decodable t : (exists r e v, peekObject r 0 t = DOk e v) <-> ~ undecodable t /\ least t false <= 4096.
Proof. exact (decodable t). Qed.
Print Assumptions C58_decodable.
Theorem C58_undecodable t : undecodable t -> forall r off e v, peekObject r off t <> DOk e v.
Proof. exact (fun U => dec_never t U false). Qed.
Print Assumptions C58_undecodable.

(** A fixed array that is not a field is read as a slice tagged compact, of
    whatever length. *)
Theorem C58_array_as_slice e r off n v : v <> VNil ->
  (peekObject r off (TArray e) = DOk n v <-> peekObject r off (TStruct [(FT false true, TSlice e)]) = DOk n (VStruct [v])).
Proof. exact (array_as_slice e r off n v). Qed.
Print Assumptions C58_array_as_slice.

(** A wide integer or a string in a field tagged compact is never read back, nor is
    CompactBytes: nothing is read, or not up to the end, or something else. *)
Theorem C58_compact_tag t v : In t [TInt32; TInt; TInt64; TUint32; TUint; TUint64; TString] -> wt t v = true ->
  misread (TStruct [(FT false true, t)]) (VStruct [v]).
Proof. exact (compact_tag t v). Qed.
Print Assumptions C58_compact_tag.
Theorem C58_compact_bytes o : wt TCompactBytes (VBytes o) = true ->
  exists bs, encodeObject TCompactBytes (VBytes o) = Some bs /\
    forall pre rest v, peekObject (pre ++ bs ++ rest) (zlen pre) TCompactBytes = DOk (zlen pre + zlen bs) v ->
      exists s, o = Some s /\ v <> VSlice (Some (map VInt s)) /\ v <> VBytes (Some s).
Proof. exact (compact_bytes o). Qed.
Print Assumptions C58_compact_bytes.

(** Go's int and uint have 64 bits; 32 arrive. *)
Theorem C58_int_cut z : exists bs, encodeObject TInt (VInt z) = Some bs /\ encodeObject TUint (VInt z) = Some bs /\ zlen bs = 4 /\
  forall pre rest, zlen pre + 4 <= 4096 ->
    peekObject (pre ++ bs ++ rest) (zlen pre) TInt = DOk (zlen pre + 4) (VInt (swrap 32 z)) /\
    peekObject (pre ++ bs ++ rest) (zlen pre) TUint = DOk (zlen pre + 4) (VInt (uwrap 32 z)).
Proof. exact (int_cut z). Qed.
Print Assumptions C58_int_cut.

(** Pointers. *)
Theorem C58_pointers :
  encodeObject (TPtr TString) (VPtr None) = Some (w_int16 (-1)) /\
  (forall s, zlen s <= 32767 -> encodeObject (TPtr TString) (VPtr (Some (VStr s))) = Some (w_int16 (zlen s) ++ s)) /\
  (encodeObject (TStruct [(FT false true, TPtr TString)]) (VStruct [VPtr None]) = Some [0] /\
   forall s, encodeObject (TStruct [(FT false true, TPtr TString)]) (VStruct [VPtr (Some (VStr s))]) = None) /\
  (forall fs v, encodeObject (TPtr (TStruct fs)) (VPtr (Some v)) = encodeObject (TStruct fs) v) /\
  forall e n c, e <> TString -> enc (TPtr e) n c (VPtr None) = None.
Proof. exact pointer_format. Qed.
Print Assumptions C58_pointers.

(** A type with a compact *string and a slice of pointers, with and without a nil
    among these. *)
Example C58_ex_encoder : (exists v, typed ex_mixed v /\ trouble ex_mixed false false v) /\ (exists v, typed ex_mixed v /\ encodeObject ex_mixed v <> None).
Proof. exact trouble_demo. Qed.
(** A struct with a fixed array; a type whose values may contain such structs in a
    slice; a fixed array by itself. *)
Example C58_ex_decoder : undecodable ex_matrix /\ (~ undecodable ex_holds /\ least ex_holds false <= 4096) /\ peekObject [4; 0; 9] 0 (TArray TInt16) = DOk 3 (VSlice (Some [VInt 9])).
Proof. exact decodable_demo. Qed.
Example C58_ex_compact : wt TInt64 (VInt (-5000000000)) = true /\ wt TString (VStr [104; 105]) = true /\ wt TCompactBytes (VBytes (Some [1; 2; 3])) = true.
Proof. split; [|split]; vm_compute; reflexivity. Qed.
