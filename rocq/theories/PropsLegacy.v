(** * PropsLegacy: the response writer of outbound-utils.go (C40) *)
From Verif Require Import Legacy CodecSpec LegacySpec LegacyProofs.
From Coq Require Import Permutation Sorting.Sorted.
Open Scope Z_scope.
Open Scope list_scope.

(** Whatever the old writer can write, the live encoder can too; the bytes are
    the same exactly for the values of [same_on]. *)
Theorem C40_legacy_agrees v b : byte_data v -> writeValue v = Some b ->
  exists c, liveValue v = Some c /\ (b = c <-> same_on v).
Proof. exact (legacy_agrees v b). Qed.
Print Assumptions C40_legacy_agrees.

(** It panics exactly on values that are, or contain, one of another type. *)
Theorem C40_legacy_panics v : writeValue v = None <-> foreign v.
Proof. exact (legacy_panics v). Qed.
Print Assumptions C40_legacy_panics.

(** Tagged fields agree only when there are none. *)
Theorem C40_legacy_tags m a c : zlen m < 2 ^ 31 -> writeTags m = Some a -> liveTags m = Some c -> (a = c <-> m = []).
Proof. exact (legacy_tags m a c). Qed.
Print Assumptions C40_legacy_tags.

(** What a reader that follows the live format makes of the differences: null
    strings and null bytes come out empty, *)
Theorem C40_legacy_null_read :
  (forall rest, peekObject (writeNullableString None ++ rest) 0 TNullableString = DOk 2 (VNStr (Some []))) /\
  (forall rest, peekObject (writeNullableBytes None ++ rest) 0 TNullableBytes = DOk 4 (VBytes (Some []))).
Proof. exact legacy_null_read. Qed.
Print Assumptions C40_legacy_null_read.

(** and a compact string loses its last byte, which is left for the next field. *)
Theorem C40_legacy_compact_read s x rest : zlen s <= bufsize - 5 ->
  exists n, peekObject (writeCompactString (s ++ [x]) ++ rest) 0 TCompactString = DOk n (VStr s) /\
            zlen (writeCompactString (s ++ [x])) = n + 1.
Proof. exact (legacy_compact_read s x rest). Qed.
Print Assumptions C40_legacy_compact_read.

(** What the old tag section is, byte by byte: the count and, in ascending order
    of the id, id and length are doubled, and the data are preceded by a second
    length of four bytes. *)
Theorem C40_legacy_tags_wire m a : m <> [] -> zlen m < 2 ^ 30 -> writeTags m = Some a ->
  (forall id v, In (id, v) m -> 0 <= id < 2 ^ 30) ->
  (forall id v d, In (id, v) m -> writeValue v = Some d -> zlen d < 2 ^ 30) ->
  exists n m' es b, a = n ++ b /\ leb128 (2 * zlen m) n /\ Permutation m' m /\ StronglySorted Z.le (map fst m') /\
    Forall2 (fun e f => fst e = fst f /\ writeValue (snd e) = Some (snd f)) m' es /\ old_tags es b.
Proof. exact (legacy_tags_wire m a). Qed.
Print Assumptions C40_legacy_tags_wire.

Example C40_ex :
  let arr := LArray (Some [LInt16 (-2); LString [104; 105]; LArray None]) in
  byte_data arr /\
  writeValue arr = Some [0; 0; 0; 4; 255; 254; 0; 2; 104; 105; 0; 0; 0; 0] /\
  liveValue arr = Some [0; 0; 0; 3; 255; 254; 0; 2; 104; 105; 255; 255; 255; 255] /\
  writeValue (LBytes (Some [7; 8])) = liveValue (LBytes (Some [7; 8])) /\
  writeValue (LCompactString [104; 105]) = Some [4; 104; 105] /\
  liveValue (LCompactString [104; 105]) = Some [6; 104; 105] /\
  peekObject [4; 104; 105; 9] 0 TCompactString = DOk 2 (VStr [104]) /\
  writeValue (LArray (Some [LInt8 1; LOther (Some (TBool, VBool true))])) = None /\
  foreign (LArray (Some [LInt8 1; LOther (Some (TBool, VBool true))])) /\
  writeTags [(3, LInt8 5); (1, LInt16 6)] = Some [4; 2; 4; 0; 0; 0; 2; 0; 6; 6; 2; 0; 0; 0; 1; 5] /\
  liveTags [(3, LInt8 5); (1, LInt16 6)] = Some [2; 1; 2; 0; 6; 3; 1; 5].
Proof.
  cbv zeta. repeat split; try (vm_compute; reflexivity).
  eapply foreign_in; [right; left; reflexivity|constructor].
Qed.
