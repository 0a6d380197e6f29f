(** * ReplySpec: what a right reply is, in terms of the trace.

    [A] is the trace up to and including the moment the request was taken up,
    [B] what happened since. *)
From Verif Require Export TraceSpec CrcSpec.
From stdpp Require Import list.
Open Scope Z_scope.
Open Scope list_scope.

(** At some moment while the request was being handled. *)
Definition sometime (A B : list obs) (P : list obs -> Prop) : Prop :=
  exists B1, B1 `prefix_of` B /\ P (A ++ B1).

(** The reply's topics are the request's, in order and multiplicity, and so are
    the partitions of each, every entry being right for its request entry. *)
Definition entrywise {P E} (right : bytes -> P -> E -> Prop)
    (ts : list (bytes * list P)) (ents : list (bytes * list E)) : Prop :=
  Forall2 (fun t e => fst e = fst t /\ Forall2 (right (fst t)) (snd t) (snd e)) ts ents.

(** Size of a request: topics plus partitions. *)
Definition entries {P} (ts : list (bytes * list P)) : nat :=
  length ts + length (concat (map snd ts)).

(** ** ListOffsets *)

(** [o] is the position found for timestamp [T], [tm] the time reported. *)
Definition by_time (log : list krecord) (T o tm : Z) : Prop :=
  0 <= o <= zlen log /\
  (forall k r, o <= Z.of_nat k -> nth_error log k = Some r -> T <= rTs r) /\
  (o = 0 \/ exists r, nth_error log (Z.to_nat (o - 1)) = Some r /\ rTs r < T /\ tm = rTs r) /\
  (o = 0 -> tm = match log with [] => 0 | r :: _ => rTs r end).

Definition list_right (os : list obs) (t : bytes) (p : Z * Z) (e : Z * Z * Z * Z) : Prop :=
  let '(idx, T) := p in
  let '(i, er, tm, o) := e in
  i = idx /\
  if tr_has t idx os then
    er = 0 /\
    if T =? -1 then o = zlen (tr_log t idx os) /\ tm = tr_wall os
    else if T =? -2 then o = 0 /\ tm = match tr_log t idx os with [] => 0 | r :: _ => rTs r end
    else by_time (tr_log t idx os) T o tm
  else er = 3 /\ tm = 0 /\ o = 0.

Definition list_reply (A : list obs) (corr : Z) (ts : list (bytes * list (Z * Z)))
    (B : list obs) (r : bytes) : Prop :=
  exists ents, r = w_reply corr (w_list_resp ents) /\
    entrywise (fun t p e => sometime A B (fun os => list_right os t p e)) ts ents.

(** ** OffsetCommit *)

(** The commits connection c performed: topic, partition, group, offset. *)
Definition commits (c : nat) (os : list obs) : list (bytes * Z * bytes * Z) :=
  flat_map (fun o => match o with
                     | OCommit c' t p g x => if Nat.eqb c c' then [(t, p, g, x)] else []
                     | _ => [] end) os.

Definition commit_right (A B : list obs) (t : bytes) (p : Z * Z * option bytes) (e : Z * Z) : Prop :=
  let '(idx, o, m) := p in
  fst e = idx /\
  ((snd e = 0 /\ tr_has t idx (A ++ B) = true) \/
   (snd e = 3 /\ sometime A B (fun os => tr_has t idx os = false))).

(** The commits acknowledged by a reply, in request order. *)
Definition acked (g : bytes) (ts : list (bytes * list (Z * Z * option bytes)))
    (ents : list (bytes * list (Z * Z))) : list (bytes * Z * bytes * Z) :=
  flat_map (fun te : (bytes * list (Z * Z * option bytes)) * (bytes * list (Z * Z)) =>
    let '((t, ps), (_, es)) := te in
    flat_map (fun pe : (Z * Z * option bytes) * (Z * Z) =>
      let '((idx, o, _), (_, er)) := pe in
      if er =? 0 then [(t, idx, g, o)] else []) (combine ps es)) (combine ts ents).

Definition commit_reply (A : list obs) (c : nat) (corr : Z) (g : bytes)
    (ts : list (bytes * list (Z * Z * option bytes))) (B : list obs) (r : bytes) : Prop :=
  exists ents, r = w_reply corr (w_commit_resp ents) /\
    entrywise (commit_right A B) ts ents /\ commits c B = acked g ts ents.

(** ** OffsetFetch *)

(** The requested partitions, in order. *)
Definition flat {P} (ts : list (bytes * list P)) : list (bytes * P) :=
  concat (map (fun t => map (pair (fst t)) (snd t)) ts).

(** [inc] are the requested partitions that are reported: those found to exist. *)
Inductive found (A B : list obs) : list (bytes * Z) -> list (bytes * Z) -> Prop :=
| found_nil : found A B [] []
| found_yes t p req inc : tr_has t p (A ++ B) = true -> found A B req inc ->
    found A B ((t, p) :: req) ((t, p) :: inc)
| found_no t p req inc : sometime A B (fun os => tr_has t p os = false) -> found A B req inc ->
    found A B ((t, p) :: req) inc.

Definition off_right (A B : list obs) (g t : bytes) (e : Z * Z * option bytes * Z) : Prop :=
  let '(i, o, m, er) := e in
  m = None /\ er = 0 /\ sometime A B (fun os => o = tr_off t i g os).

Definition off_reply (A : list obs) (corr : Z) (g : bytes) (ts : list (bytes * list Z))
    (B : list obs) (r : bytes) : Prop :=
  exists ents inc, r = w_reply corr (w_off_resp ents) /\
    found A B (flat ts) inc /\
    NoDup (map fst ents) /\
    (forall t, In t (map fst ents) <-> In t (map fst inc)) /\
    (forall t l, In (t, l) ents ->
       map (fun e : Z * Z * option bytes * Z => let '(i, _, _, _) := e in i) l =
       map snd (List.filter (fun q => bool_decide (fst q = t)) inc) /\
       Forall (off_right A B g t) l).

(** ** SyncGroup *)
Definition sync_reply (A : list obs) (corr : Z) (B : list obs) (r : bytes) : Prop :=
  exists asg, r = w_reply corr (w_sync_resp 0 (w_assignment 1 asg None)) /\
    NoDup (map fst asg) /\
    sometime A B (fun os =>
      (forall t, In t (map fst asg) <-> tr_topic t os = true) /\
      (forall t ps, In (t, ps) asg -> NoDup ps /\ forall p, In p ps <-> tr_has t p os = true)).

(** ** Fetch *)
Definition blen (o : option bytes) : Z := match o with Some b => zlen b | None => 0 end.
(** Bytes a record takes in a message set. *)
Definition rec_size (r : krecord) : Z := 34 + blen (rKey r) + blen (rVal r).
Definition log_size (rs : list krecord) : Z := fold_right (fun r n => rec_size r + n) 0 rs.
(** The record as message number [off]. *)
Definition w_record (off : Z) (r : krecord) : bytes :=
  w_message off (rec_size r) (crc32c_spec (w_msg_tail (rTs r) (rKey r) (rVal r))) (rTs r) (rKey r) (rVal r).
Fixpoint w_records (off : Z) (rs : list krecord) : bytes :=
  match rs with [] => [] | r :: rs' => w_record off r ++ w_records (off + 1) rs' end.

(** No record has 2 GiB or more (its size would not fit the size field). *)
Definition posts_small (os : list obs) : Prop :=
  forall i t p r, In (OPosted i t p r) os -> rec_size r <= 2147483647.

(** [x] is the high watermark and the message set for the requested partition
    [q]: records of the log from the fetch offset on, within the limit, and all
    that there were at some moment. *)
Definition fetched (A B : list obs) (q : bytes * (Z * Z * Z)) (x : Z * bytes) : Prop :=
  let '(t, (idx, off, max)) := q in
  exists rs, fst x = off + zlen rs /\ snd x = w_records off rs /\
    (rs = [] \/ (0 <= off /\ zlen (snd x) <= max)) /\
    rs = firstn (length rs) (skipn (Z.to_nat off) (tr_log t idx (A ++ B))) /\
    sometime A B (fun os => tr_has t idx os = false \/ zlen (tr_log t idx os) <= off + zlen rs).

(** Why the reply was given: there was a record, or the time was up, or
    FinishRequests had been called. *)
Definition fetch_due (A B : list obs) (wait : Z) (res : list (Z * bytes)) : Prop :=
  Exists (fun x => snd x <> []) res \/
  sometime A B (fun os => tr_now A + wait * 1000000 < tr_now os) \/
  sometime A B (fun os => tr_cancelled os = true).

(** All partitions of the k-th topic carry the k-th result. *)
Fixpoint fetch_ents (ts : list (bytes * list (Z * Z * Z))) (res : list (Z * bytes))
  : list (bytes * list (Z * Z * Z * bytes)) :=
  match ts, res with
  | (t, ps) :: ts', x :: res' =>
      (t, map (fun p : Z * Z * Z => (fst (fst p), 0, fst x, snd x)) ps) :: fetch_ents ts' res'
  | _, _ => []
  end.

Definition fetch_reply (A : list obs) (corr wait : Z) (ts : list (bytes * list (Z * Z * Z)))
    (B : list obs) (r : bytes) : Prop :=
  posts_small (A ++ B) ->
  exists res, Forall2 (fetched A B) (flat ts) res /\ fetch_due A B wait res /\
    r = w_reply corr (w_fetch_resp 0 (fetch_ents ts res)).

(** All there is fits the limit, nothing is too big. *)
Definition fits (os : list obs) (q : bytes * (Z * Z * Z)) : Prop :=
  let '(t, (idx, off, max)) := q in log_size (skipn (Z.to_nat off) (tr_log t idx os)) <= Z.max 0 max.

(** A reply is due: FinishRequests was called, or it is later than [E], or one of
    the partitions (known when the request was taken up) has a record. *)
Definition fetch_ready (A : list obs) (E : Z) (ts : list (bytes * list (Z * Z * Z))) (os : list obs) : Prop :=
  tr_cancelled os = true \/ E < tr_now os \/
  Exists (fun q : bytes * (Z * Z * Z) => let '(t, (idx, off, max)) := q in
    tr_has t idx A = true /\ off < zlen (tr_log t idx os)) (flat ts).

(** Number of records in the logs asked for. *)
Definition fetch_recs (ts : list (bytes * list (Z * Z * Z))) (os : list obs) : nat :=
  list_sum (map (fun q : bytes * (Z * Z * Z) => length (tr_log (fst q) (fst (fst (snd q))) os)) (flat ts)).
