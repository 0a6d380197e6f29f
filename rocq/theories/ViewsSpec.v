(** * ViewsSpec: vocabulary of property C57. *)
From Verif Require Export Views.
From Coq Require Import List ZArith.
Import ListNotations.
Open Scope Z_scope.

(** The types none of whose parts is handed out as a part of the buffer. *)
Fixpoint windowless (t : ty) : bool :=
  match t with
  | TNullableBytes | TCompactNullableBytes => false
  | TSlice e | TArray e | TPtr e | TMsgSet e => windowless e
  | TStruct fs => forallb (fun f => windowless (snd f)) fs
  | _ => true
  end.

(** A value without the contents of its byte strings (their lengths stay). *)
Fixpoint blank (v : val) : val :=
  match v with
  | VBytes (Some s) => VBytes (Some (repeat 0 (length s)))
  | VSlice (Some l) => VSlice (Some (map blank l))
  | VPtr (Some v') => VPtr (Some (blank v'))
  | VStruct l => VStruct (map blank l)
  | _ => v
  end.

(** What of the message is left after these calls. *)
Fixpoint rest_of (msg : bytes) (cs : list bcall) : bytes :=
  match cs with
  | [] => msg
  | BPeek _ :: cs' => rest_of msg cs'
  | BDiscard n :: cs' => rest_of (skipn (Z.to_nat n) msg) cs'
  end.

(** A request as the message alone gives it: header, client id, tags, body. *)
Definition request_in (th tb : ty) (tagged : bool) (msg : bytes) : dres (val * bytes * list (Z * val) * val) :=
  match peekObject msg 0 th with
  | DOk n1 h =>
      match peekString msg n1 with
      | DOk n2 c =>
          match (if tagged then peekTags (fun _ => None) msg n2 else DOk n2 []) with
          | DOk n3 tags =>
              dmap (fun v => (h, c, map (fun e => (fst e, match snd e with TagRaw d => VBytes (Some d) | TagObj v => v end)) tags, v))
                   (peekObject (discard msg n3) 0 tb)
          | DFail => DFail
          | DPanic => DPanic
          end
      | DFail => DFail
      | DPanic => DPanic
      end
  | DFail => DFail
  | DPanic => DPanic
  end.
(** The same as [m_request] returned it, while the buffer holds [buf]. *)
Definition request_seen (buf : bytes) (m : dres (wval * bytes * list (Z * wval) * wval)) : dres (val * bytes * list (Z * val) * val) :=
  dmap (fun q => match q with (h, c, tags, w) => (seen buf h, c, map (fun e => (fst e, seen buf (snd e))) tags, seen buf w) end) m.
