(** * Alias: records share memory with the caller's slices.

    Server.v gives a record the content it was posted with.  In the code a
    record only holds the slices: the caller can change the content later, and a
    Fetch reads it twice, once for the checksum and once for the reply.  This is
    a machine of one partition, one Fetch and a caller, at that granularity.

    Simplifications: one partition is fetched, the rest of the reply is left
    out.  Copying one slice is one step (a caller that writes in the middle of
    the copy is not covered).  Other goroutines of the mock do not write to the
    caller's slices, so they can be left out; all posts to the partition are
    there. *)
From Verif Require Export Api.
Open Scope Z_scope.
Open Scope list_scope.

(** A slice of a backing array; a nil slice is [None] where one is possible. *)
Record slice := Slice { sArr : nat; sOff : nat; sLen : nat }.
(** The backing arrays. *)
Definition heap := list bytes.
Definition read_slice (h : heap) (s : slice) : bytes := firstn (sLen s) (skipn (sOff s) (nth (sArr s) h [])).
Definition view (h : heap) (o : option slice) : option bytes := option_map (read_slice h) o.
Definition slen (o : option slice) : Z := match o with Some s => Z.of_nat (sLen s) | None => 0 end.

(** datastore.go:36-41 (kafkaRecord), without headers and attributes, which
    reach no reply. *)
Record arec := ARec { aTs : Z; aKey : option slice; aVal : option slice }.
(** encoder.go:35-44 (messageV1): the slices are still shared. *)
Record amsg := AMsg { amOffset : Z; amSize : Z; amCrc : Z; amTs : Z; amKey : option slice; amVal : option slice }.

(** Where the Fetch is. *)
Inductive fpc :=
| PScan                                            (* fetch.go:82: about to look for a record *)
| PCrcKey (r : arec)                               (* encoder.go:520: crc copies the key *)
| PCrcVal (r : arec) (k : option bytes)            (* and the value *)
| PEncKey (todo : list amsg) (out : bytes)         (* encoder.go:479: next message, up to its key *)
| PEncVal (m : amsg) (todo : list amsg) (out : bytes)   (* its value *)
| PDone (out : bytes)
| PPanic.                                          (* fetch.go:84, negative index *)

(** fetch.go:44-49 and encoder.go:29-33 *)
Record fetcher := Fetcher {
  fPc : fpc; fOffset : Z; fMax : Z; fHasOne : bool;
  fMsgs : list amsg; fMsOffset : Z; fTotal : Z }.
Record asys := ASys { aHeap : heap; aLog : list arec; aFetch : fetcher }.

(** fetch.go:60-76, 78: the Fetch as it enters its loop. *)
Definition afetch (off max : Z) : fetcher := Fetcher PScan off max false [] off 0.

Inductive aevent :=
| AWrite (a i : nat) (b : Z)                       (* the caller sets a byte *)
| APost (ts : Z) (k v : option slice)              (* the caller posts *)
| AFetch (expired : bool).                         (* the Fetch does one step *)

Fixpoint set_nth {A} (l : list A) (n : nat) (x : A) : list A :=
  match l, n with
  | [], _ => []
  | _ :: l', O => x :: l'
  | y :: l', S n' => y :: set_nth l' n' x
  end.
Definition write_byte (h : heap) (a i : nat) (b : Z) : heap := set_nth h a (set_nth (nth a h []) i (uwrap 8 b)).

Definition goto (f : fetcher) (pc : fpc) : fetcher :=
  Fetcher pc (fOffset f) (fMax f) (fHasOne f) (fMsgs f) (fMsOffset f) (fTotal f).

(** encoder.go:233-245 on a messageV1, the fields before the value. *)
Definition enc_head (m : amsg) (k : option bytes) : bytes :=
  enc_i64 (amOffset m) ++ enc_i32 (amSize m) ++ enc_i32 (amCrc m) ++ enc_i8 1 ++ enc_i8 0 ++ enc_i64 (amTs m) ++
  enc_nbytes k.

(** encoder.go:493-515 (appendMessage), the checksum being over the content
    [k], [v] read before. *)
Definition append_shared (f : fetcher) (r : arec) (k v : option bytes) : fetcher :=
  let size := swrap 32 (34 + slen (aKey r) + slen (aVal r)) in
  let crc := swrap 32 (message_crc (Msg (fMsOffset f) size 0 1 0 (aTs r) k v)) in
  let newSize := fTotal f + size in
  if fMax f <? newSize then Fetcher PScan (fOffset f) (fMax f) true (fMsgs f) (fMsOffset f) (fTotal f)
  else Fetcher PScan (fOffset f + 1) (fMax f) true
         (fMsgs f ++ [AMsg (fMsOffset f) size crc (aTs r) (aKey r) (aVal r)]) (fMsOffset f + 1) newSize.

(** One step of the Fetch.  The end of the waiting time is given from outside. *)
Definition fetch_step (expired : bool) (h : heap) (log : list arec) (f : fetcher) : fetcher :=
  match fPc f with
  | PScan =>
      (* fetch.go:81-120 *)
      if fOffset f <? zlen log then
        if fOffset f <? 0 then goto f PPanic
        else match nth_error log (Z.to_nat (fOffset f)) with
             | Some r => goto f (PCrcKey r)
             | None => goto f PPanic
             end
      else if fHasOne f || expired then goto f (PEncKey (fMsgs f) (enc_i32 (fTotal f)))
      else f
  | PCrcKey r => goto f (PCrcVal r (view h (aKey r)))
  | PCrcVal r k => append_shared f r k (view h (aVal r))
  | PEncKey [] out => goto f (PDone out)
  | PEncKey (m :: todo) out => goto f (PEncVal m todo (out ++ enc_head m (view h (amKey m))))
  | PEncVal m todo out => goto f (PEncKey todo (out ++ enc_nbytes (view h (amVal m))))
  | PDone _ | PPanic => f
  end.

Definition share_step (s : asys) (e : aevent) : asys :=
  match e with
  | AWrite a i b => ASys (write_byte (aHeap s) a i b) (aLog s) (aFetch s)
  | APost ts k v => ASys (aHeap s) (aLog s ++ [ARec ts k v]) (aFetch s)       (* datastore.go:102-119 *)
  | AFetch x => ASys (aHeap s) (aLog s) (fetch_step x (aHeap s) (aLog s) (aFetch s))
  end.
Definition arun (s : asys) (es : list aevent) : asys := fold_left share_step es s.
