(** * Race: the data-store operations, one memory access at a time.

    Server.v runs a critical section as one step.  Here the same operations are
    taken apart into locking, unlocking and single accesses to shared memory, so
    that data races can be spoken of.

    Simplifications: a Go map is one location, and so is a slice header with its
    backing array; the fields of a partition that are only set when it is made
    (Index, ErrorCode, Metadata) are one location, and so are the fields of a
    record.  A read sees the latest write even where it races.  Memory that only
    one goroutine can reach (requests, replies, the caller's slices) is left
    out. *)
From Verif Require Export Server.
From stdpp Require Import gmap.
Open Scope Z_scope.
Open Scope list_scope.

(** datastore.go:10, 15, 20: the mutexes. *)
Inductive mutex := MDs | MTopic (t : bytes) | MPart (t : bytes) (p : Z).
Global Instance mutex_dec : EqDecision mutex.
Proof. solve_decision. Defined.

(** datastore.go:9-41: the shared memory. *)
Inductive loc :=
| LTopics                           (* ds.Topics *)
| LParts (t : bytes)                (* kt.Partitions *)
| LMade (t : bytes) (p : Z)         (* kp.Index, kp.ErrorCode, kp.Metadata *)
| LRecs (t : bytes) (p : Z)         (* kp.Records *)
| LOffs (t : bytes) (p : Z)         (* kp.GroupCommittedOffsets *)
| LRec (t : bytes) (p n : Z).       (* the fields of *kp.Records[n] *)
Global Instance loc_dec : EqDecision loc.
Proof. solve_decision. Defined.

(** One operation of a goroutine.  [Rd l k]: read [l] and go on with what [k]
    makes of the store.  [Wr l u]: write [l].  [Init l]: write [l] in memory just
    allocated, which no other goroutine can reach yet. *)
Inductive mop :=
| MLock (m : mutex)
| MUnlock (m : mutex)
| Rd (l : loc) (k : store -> list mop)
| Wr (l : loc) (u : store -> store)
| Init (l : loc).

(** datastore.go:50-62 *)
Definition m_createTopic (t : bytes) : list mop :=
  [MLock MDs;
   Rd LTopics (fun s => if getTopic s t then [] else [Init (LParts t); Wr LTopics (fun s => createTopic s t)]);
   MUnlock MDs].
(** datastore.go:64-69; [k] is given whether the topic was found. *)
Definition m_getTopic (t : bytes) (k : bool -> list mop) : list mop :=
  [MLock MDs; Rd LTopics (fun s => MUnlock MDs :: k (getTopic s t))].
(** datastore.go:71-85 *)
Definition m_createPartition (t : bytes) (p : Z) : list mop :=
  [MLock (MTopic t);
   Rd (LParts t) (fun s => if hasPart s t p then []
     else [Init (LMade t p); Init (LRecs t p); Init (LOffs t p);
           Wr (LParts t) (fun s => createPartition s t p)]);
   MUnlock (MTopic t)].
(** datastore.go:87-92 *)
Definition m_getPartition (t : bytes) (p : Z) (k : bool -> list mop) : list mop :=
  [MLock (MTopic t); Rd (LParts t) (fun s => MUnlock (MTopic t) :: k (hasPart s t p))].

Definition recs_of (s : store) (t : bytes) (p : Z) : list krecord :=
  match lookupPart s t p with Some kp => pRecs kp | None => [] end.
Definition offs_of (s : store) (t : bytes) (p : Z) (g : bytes) : option Z :=
  match lookupPart s t p with Some kp => pOffs kp !! g | None => None end.

(** datastore.go:102-119.  The new record is named by the place it will get. *)
Definition m_postRecord (t : bytes) (p : Z) (r : krecord) : list mop :=
  [MLock (MPart t p);
   Rd (LRecs t p) (fun s => [Init (LRec t p (zlen (recs_of s t p)));
                             Wr (LRecs t p) (fun s => postRecord s t p r)]);
   MUnlock (MPart t p)].
(** datastore.go:121-130 *)
Definition m_groupCommittedOffset (t : bytes) (p : Z) (g : bytes) : list mop :=
  [MLock (MPart t p);
   Rd (LOffs t p) (fun s => match offs_of s t p g with
                            | Some _ => []
                            | None => [Wr (LOffs t p) (fun s => setOffset s t p g 0)] end);
   MUnlock (MPart t p)].

(** kafka-mock.go:96-106, 181-200.  The timestamp of a SimplePost, read from the
    clock between the calls, is part of the operation here. *)
Definition m_call (wall : Z) (c : call) : list mop :=
  match c with
  | CallPost t p k v h ts =>
      m_createTopic t ++ m_createPartition t (swrap 32 p) ++
      m_postRecord t (swrap 32 p) (Rec 0 (match ts with Some x => x | None => wall end) k v h)
  | CallCreate ts p => flat_map (fun t => m_createTopic t ++ m_createPartition t (swrap 32 p)) ts
  | CallSet t p g o =>
      m_getTopic t (fun b => if b then m_getPartition t (swrap 32 p) (fun b => if b then
        [MLock (MPart t (swrap 32 p));
         Wr (LOffs t (swrap 32 p)) (fun s => setOffset s t (swrap 32 p) g o);
         MUnlock (MPart t (swrap 32 p))] else []) else [])
  end.

(** offset_commit.go:46-79 *)
Definition m_commit1 (g t : bytes) (p : commit_part) : list mop :=
  m_getPartition t (cpIndex p) (fun b => if b then
    [MLock (MPart t (cpIndex p));
     Rd (LOffs t (cpIndex p)) (fun s =>
       if default 0 (offs_of s t (cpIndex p) g) <? cpOffset p
       then [Wr (LOffs t (cpIndex p)) (fun s => setOffset s t (cpIndex p) g (cpOffset p))] else []);
     MUnlock (MPart t (cpIndex p))] else []).
Definition m_commit (rq : commit_req) : list mop :=
  flat_map (fun tp => m_getTopic (fst tp) (fun b =>
    if b then flat_map (m_commit1 (cqGroup rq) (fst tp)) (snd tp) else [])) (cqTopics rq).

(** list_offsets.go:73-82: [n] is i+1. *)
Definition rec_time (s : store) (t : bytes) (p : Z) (n : nat) : Z :=
  match nth_error (recs_of s t p) n with Some r => rTs r | None => 0 end.
Fixpoint m_list_scan (t : bytes) (p T : Z) (n : nat) : list mop :=
  match n with
  | O => []
  | S i =>
      [Rd (LRecs t p) (fun _ =>
        [Rd (LRec t p (Z.of_nat i)) (fun s => if rec_time s t p i <? T then [] else m_list_scan t p T i)])]
  end.
(** list_offsets.go:61-84, without the lock. *)
Definition m_list1 (t : bytes) (p : list_part) : list mop :=
  m_getPartition t (lpIndex p) (fun b => if b then
    if lpTime p =? -1 then [Rd (LRecs t (lpIndex p)) (fun _ => [])]
    else if lpTime p =? -2 then
      [Rd (LRecs t (lpIndex p)) (fun s => match recs_of s t (lpIndex p) with
         | [] => []
         | _ => [Rd (LRecs t (lpIndex p)) (fun _ => [Rd (LRec t (lpIndex p) 0) (fun _ => [])])] end)]
    else [Rd (LRecs t (lpIndex p)) (fun s => m_list_scan t (lpIndex p) (lpTime p) (length (recs_of s t (lpIndex p))))]
    else []).
(** list_offsets.go:47-91 *)
Definition m_list (rq : list_req) : list mop :=
  flat_map (fun tp => m_getTopic (fst tp) (fun b =>
    if b then flat_map (m_list1 (fst tp)) (snd tp) else [])) (lqTopics rq).

(** offset_fetch.go:62-75; the order of the topics is that of a map. *)
Definition m_offRead (g : bytes) (tp : bytes * Z) : list mop :=
  Rd (LMade (fst tp) (snd tp)) (fun _ => []) :: m_groupCommittedOffset (fst tp) (snd tp) g ++
  [Rd (LMade (fst tp) (snd tp)) (fun _ => [])].
(** offset_fetch.go:41-59: [data] collects the partitions found. *)
Fixpoint m_offOpen (g : bytes) (ch : list nat) (ops : list (wop Z)) (kt : option bytes)
    (data : list (bytes * list Z)) : list mop :=
  match ops with
  | WTopic n :: ops' => m_getTopic n (fun b => m_offOpen g ch ops' (if b then Some n else None) data)
  | WPart p :: ops' =>
      match kt with
      | Some n => m_getPartition n p (fun b => m_offOpen g ch ops' kt (if b then add_data n p data else data))
      | None => m_offOpen g ch ops' kt data
      end
  | [] => flat_map (m_offRead g) (flat_map (fun e => map (pair (fst e)) (snd e)) (shuffle ch data))
  end.

(** fetch.go:79-96, one element: the record is read under the lock, its fields
    after it.  A negative offset panics with the lock held. *)
Definition m_fetchOne (fd : fdata) (k : fdata -> list mop) : list mop :=
  match fdKp fd with
  | None => k fd
  | Some (t, p) =>
      [MLock (MPart t p);
       Rd (LRecs t p) (fun s =>
         match fetchOne s fd with
         | None => []
         | Some (fd', got) =>
             MUnlock (MPart t p) ::
             (if got then [Rd (LRec t p (fdOff fd)) (fun _ => [])] else []) ++ k fd'
         end)]
  end.
Fixpoint m_fetchRound (todo done : list fdata) (k : list fdata -> list mop) : list mop :=
  match todo with
  | [] => k done
  | fd :: todo' => m_fetchOne fd (fun fd' => m_fetchRound todo' (done ++ [fd']) k)
  end.
(** fetch.go:78-120, [n] rounds of the loop. *)
Fixpoint m_fetchScan (n : nat) (fds : list fdata) : list mop :=
  match n with
  | O => []
  | S n' => m_fetchRound fds [] (m_fetchScan n')
  end.
(** fetch.go:60-76 *)
Fixpoint m_fetchOpen (n : nat) (ops : list (wop fetch_part)) (kt : option bytes) (fds : list fdata) : list mop :=
  match ops with
  | WTopic t :: ops' => m_getTopic t (fun b => m_fetchOpen n ops' (if b then Some t else None) fds)
  | WPart p :: ops' =>
      let fd kp := FD kp (fpOffset p) (fpMax p) (newMessageSetV1 (fpOffset p)) in
      match kt with
      | Some t => m_getPartition t (fpIndex p)
                    (fun b => m_fetchOpen n ops' kt (fds ++ [fd (if b then Some (t, fpIndex p) else None)]))
      | None => m_fetchOpen n ops' kt (fds ++ [fd None])
      end
  | [] => m_fetchScan n fds
  end.

(** sync_group.go:56-67; the iteration orders are [ch] and [chs]. *)
Definition m_sync_topic (ch : list nat) (t : bytes) : list mop :=
  [Rd (LParts t) (fun _ => []);
   Rd (LParts t) (fun s => map (fun p => Rd (LMade t p) (fun _ => []))
     (match s !! t with Some kt => shuffle ch (map fst (map_to_list kt)) | None => [] end))].
Definition m_sync (ch : list nat) (chs : bytes -> list nat) : list mop :=
  [Rd LTopics (fun _ => []);
   Rd LTopics (fun s => flat_map (fun t => m_sync_topic (chs t) t) (shuffle ch (map fst (map_to_list s))))].

(** The operations that touch the data store: the calls of the API and the
    requests of a client.  A Fetch goes through its loop [n] times. *)
Inductive dsop :=
| DCall (wall : Z) (c : call)
| DFetch (rq : fetch_req) (n : nat)
| DCommit (rq : commit_req)
| DList (rq : list_req)
| DOffset (rq : off_req) (ch : list nat)
| DSync (ch : list nat) (chs : bytes -> list nat).
Definition dsop_code (o : dsop) : list mop :=
  match o with
  | DCall w c => m_call w c
  | DFetch rq n => m_fetchOpen n (plan (fqTopics rq)) None []
  | DCommit rq => m_commit rq
  | DList rq => m_list rq
  | DOffset rq ch => m_offOpen (oqGroup rq) ch (plan (oqTopics rq)) None []
  | DSync ch chs => m_sync ch chs
  end.

(** ** Executions: any number of operations at once, interleaved in any way.
    Every step is recorded with the store after it. *)
Inductive act := ALock (m : mutex) | AUnlock (m : mutex) | ARead (l : loc) | AWrite (l : loc) | AInit (l : loc).
Record ev := Ev { evTid : nat; evAct : act; evStore : store }.
Record fsys := FSys { fDs : store; fMu : mutex -> option nat; fTh : list (list mop) }.

Definition finit (ds : store) (os : list dsop) : fsys := FSys ds (fun _ => None) (map dsop_code os).
Definition set_mu (f : mutex -> option nat) (m : mutex) (v : option nat) : mutex -> option nat :=
  fun m' => if decide (m' = m) then v else f m'.
Definition fstep (s : fsys) (i : nat) : fsys * list ev :=
  match fTh s !! i with
  | Some (o :: c) =>
      match o with
      | MLock m =>
          match fMu s m with
          | Some _ => (s, [])
          | None => (FSys (fDs s) (set_mu (fMu s) m (Some i)) (<[i := c]> (fTh s)), [Ev i (ALock m) (fDs s)])
          end
      | MUnlock m =>
          (FSys (fDs s) (set_mu (fMu s) m None) (<[i := c]> (fTh s)), [Ev i (AUnlock m) (fDs s)])
      | Rd l k => (FSys (fDs s) (fMu s) (<[i := k (fDs s) ++ c]> (fTh s)), [Ev i (ARead l) (fDs s)])
      | Wr l u => (FSys (u (fDs s)) (fMu s) (<[i := c]> (fTh s)), [Ev i (AWrite l) (u (fDs s))])
      | Init l => (FSys (fDs s) (fMu s) (<[i := c]> (fTh s)), [Ev i (AInit l) (fDs s)])
      end
  | _ => (s, [])
  end.
Fixpoint frun (s : fsys) (is_ : list nat) : fsys * list ev :=
  match is_ with
  | [] => (s, [])
  | i :: is' => let '(s1, e1) := fstep s i in let '(s2, e2) := frun s1 is' in (s2, e1 ++ e2)
  end.
