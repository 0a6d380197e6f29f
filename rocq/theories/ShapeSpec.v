(** * ShapeSpec: which byte strings are requests.

    The layouts of the eleven requests of the Kafka protocol the mock knows, and
    what it means for bytes to follow a layout.  Independent of the codec. *)
From Verif Require Export TraceSpec.
From stdpp Require Import list.
Open Scope Z_scope.
Open Scope list_scope.

Inductive shape :=
| SInt (n : Z)                 (* n bytes, any *)
| SStr                         (* int16 length, then that many bytes; a negative length is null *)
| SArr (e : shape)             (* int32 count, then that many elements *)
| SRec (fs : list shape).      (* one after the other *)

Inductive parses : shape -> bytes -> Prop :=
| p_int n b : zlen b = n -> parses (SInt n) b
| p_null n : l_i16 n = true -> n < 0 -> parses SStr (w_int16 n)
| p_str s : l_string s = true -> parses SStr (w_string s)
| p_arr e bs : zlen bs < 2 ^ 31 -> Forall (parses e) bs -> parses (SArr e) (w_int32 (zlen bs) ++ concat bs)
| p_rec fs bs : Forall2 parses fs bs -> parses (SRec fs) (concat bs).

(** [null_at sh b]: following [sh] one meets, after parts that parse, an array
    with a negative count; anything may follow. *)
Inductive null_at : shape -> bytes -> Prop :=
| n_here e n rest : l_i32 n = true -> n < 0 -> null_at (SArr e) (w_int32 n ++ rest)
| n_elem e n bs b : zlen bs < n -> l_i32 n = true -> Forall (parses e) bs -> null_at e b ->
    null_at (SArr e) (w_int32 n ++ concat bs ++ b)
| n_field fs1 bs f fs2 b : Forall2 parses fs1 bs -> null_at f b ->
    null_at (SRec (fs1 ++ f :: fs2)) (concat bs ++ b).

(** The layouts (protocol guide, versions as served). *)
Definition s_topics (part : shape) : shape := SArr (SRec [SStr; SArr part]).
Definition layout (key ver : Z) : option shape :=
  match key, ver with
  | 1, 2 => Some (SRec [SInt 4; SInt 4; SInt 4; s_topics (SRec [SInt 4; SInt 8; SInt 4])])
  | 2, 1 => Some (SRec [SInt 4; s_topics (SRec [SInt 4; SInt 8])])
  | 3, 1 => Some (SRec [SArr SStr])
  | 8, 2 => Some (SRec [SStr; SInt 4; SStr; SInt 8; s_topics (SRec [SInt 4; SInt 8; SStr])])
  | 9, 1 => Some (SRec [SStr; s_topics (SInt 4)])
  | 10, 0 => Some (SRec [SStr])
  | 11, 1 => Some (SRec [SStr; SInt 4; SInt 4; SStr; SStr; SArr (SRec [SStr; SArr (SInt 1)])])
  | 12, 0 => Some (SRec [SStr; SInt 4; SStr])
  | 13, 0 => Some (SRec [SStr; SStr])
  | 14, 0 => Some (SRec [SStr; SInt 4; SStr; SArr (SRec [SStr; SArr (SInt 1)])])
  | 18, 0 => Some (SRec [])
  | _, _ => None
  end.

(** A header, and a request with body [b] of layout [sh] followed by [extra]. *)
Definition is_header (h : bytes) (key ver corr : Z) : Prop :=
  exists client, h = w_int16 key ++ w_int16 ver ++ w_int32 corr ++ client /\ parses SStr client /\
    l_i16 key = true /\ l_i16 ver = true /\ l_i32 corr = true.
Definition is_request (m : bytes) (key ver corr : Z) (h b extra : bytes) : Prop :=
  m = h ++ b ++ extra /\ is_header h key ver corr /\ zlen h <= 4096 /\
  exists sh, layout key ver = Some sh /\ parses sh b /\ zlen b <= 4096.
Definition well_formed (m : bytes) : Prop := exists key ver corr h b, is_request m key ver corr h b [].
(** Well-formed but for bytes after the end of a Fetch request. *)
Definition fetch_with_more (m : bytes) : Prop :=
  exists corr h b x extra, is_request m 1 2 corr h b (x :: extra).

(** The body of a SyncGroup request with [n] assignments. *)
Definition sync_body (b : bytes) (n : Z) : Prop :=
  exists group gen member assigned,
    b = group ++ gen ++ member ++ w_int32 (zlen assigned) ++ concat assigned /\ n = zlen assigned /\ n < 2 ^ 31 /\
    parses SStr group /\ zlen gen = 4 /\ parses SStr member /\
    Forall (parses (SRec [SStr; SArr (SInt 1)])) assigned.
