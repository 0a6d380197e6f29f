(** * Server: the running mock as a small-step machine.

    One step is one action of one goroutine between two synchronisation points:
    at most one critical section, clock read, cancellation check, socket read or
    socket write.  The scheduler is the list of events. *)
From Verif Require Export Api.
From stdpp Require Import gmap.
Open Scope Z_scope.
Open Scope list_scope.

(** ** Observations: what a step does that someone outside could notice, or
    (the first group) when a data-store operation takes effect. *)
Inductive obs :=
| OPosted (i : nat) (t : bytes) (p : Z) (r : krecord)      (* call i appended r *)
| OTopic (i : nat) (t : bytes)                             (* call i ensured topic t exists *)
| OMade (i : nat) (t : bytes) (p : Z)                      (* call i ensured (t,p) exists *)
| OSet (i : nat) (t : bytes) (p : Z) (g : bytes) (o : Z)   (* call i set an offset *)
| OCommit (c : nat) (t : bytes) (p : Z) (g : bytes) (o : Z)(* connection c committed *)
| OReturn (i : nat)                                        (* call i returned *)
| ORead (c : nat) (chunk : bytes)                          (* bytes read from the socket *)
| OFrame (c : nat) (msg : bytes)                           (* request taken up *)
| OWrite (c : nat) (b : bytes)                             (* bytes written to the socket *)
| OClosed (c : nat)                                        (* connection goroutine ended *)
| OCrash (c : nat)                                         (* connection c's goroutine panicked *)
| OClock (d : Z)                                           (* d nanoseconds passed *)
| OWall (w : Z)                                            (* the wall clock shows w ms *)
| OCancel                                                  (* kc.l.Done() got closed *)
| ORestart.                                                (* a new server on the same store *)

(** ** Handlers in progress *)

(** The nested loops over topics and partitions of a request, flattened: on
    [WTopic] the topic is looked up, on [WPart] one partition of it. *)
Inductive wop (P : Type) := WTopic (name : bytes) | WPart (p : P).
Arguments WTopic {P}. Arguments WPart {P}.
Definition plan {P} (ts : list (topic_req P)) : list (wop P) :=
  flat_map (fun t => WTopic (fst t) :: map WPart (snd t)) ts.

(** A reply under construction: topics with entries; [add_last] appends an
    entry to the topic added last. *)
Fixpoint add_last {A} (x : A) (acc : list (bytes * list A)) : list (bytes * list A) :=
  match acc with
  | [] => []
  | [(n, l)] => [(n, l ++ [x])]
  | e :: acc' => e :: add_last x acc'
  end.

(** fetch.go:44-49 (fetchData); the partition pointer as (topic, number). *)
Record fdata := FD { fdKp : option (bytes * Z); fdOff : Z; fdMax : Z; fdMs : msgset }.

Inductive task :=
| TkRet (t : ty) (v : val)                                   (* response ready *)
| TkVersions                                                 (* api_versions.go:21 *)
| TkSync                                                     (* sync_group.go:50 *)
| TkFetchOpen (rq : fetch_req) (ops : list (wop fetch_part)) (kt : option bytes) (fds : list fdata)
| TkFetchScan (rq : fetch_req) (exp : Z) (hasOne more : bool) (done todo : list fdata)
| TkFetchPoll (rq : fetch_req) (exp : Z) (fds : list fdata)
| TkFetchSleep (rq : fetch_req) (exp wake : Z) (fds : list fdata)
| TkCommit (rq : commit_req) (ops : list (wop commit_part)) (kt : option bytes)
           (pend : option commit_part) (acc : list (bytes * list (Z * Z)))
| TkList (rq : list_req) (ops : list (wop list_part)) (kt : option bytes)
         (pend : option list_part) (acc : list (bytes * list (Z * (Z * Z * Z))))
| TkOffOpen (rq : off_req) (ops : list (wop Z)) (kt : option bytes) (data : list (bytes * list Z))
| TkOffRead (rq : off_req) (ops : list (wop Z)) (kt : option bytes)
            (acc : list (bytes * list (Z * Z * option bytes * Z))).

(** Go map [data] of offset_fetch.go:41, kept in insertion order;
    offset_fetch.go:51-56. *)
Fixpoint add_data (name : bytes) (pi : Z) (data : list (bytes * list Z)) : list (bytes * list Z) :=
  match data with
  | [] => [(name, [pi])]
  | (n, l) :: data' =>
      if beqb n name then (n, l ++ [pi]) :: data' else (n, l) :: add_data name pi data'
  end.

(** fetch.go:122-149.  [fds[n]] with n the index of the topic; [None]: index out
    of range. *)
Definition fetchPartVal (fd : fdata) (p : fetch_part) : val :=
  VStruct [VInt (fpIndex p); VInt 0; VInt (fdOff fd);
           VPtr (Some (VMsgSet (msTotal (fdMs fd)) (map message_val (msMsgs (fdMs fd)))))].
Fixpoint fetchTopicVals (ts : list (topic_req fetch_part)) (fds : list fdata) : option (list val) :=
  match ts with
  | [] => Some []
  | (name, ps) :: ts' =>
      match fds with
      | [] => None
      | fd :: fds' =>
          match fetchTopicVals ts' fds' with
          | Some l => Some (VStruct [VStr name; vslice (map (fetchPartVal fd) ps)] :: l)
          | None => None
          end
      end
  end.
Definition fetchReply (rq : fetch_req) (fds : list fdata) : option val :=
  option_map (fun l => VStruct [VInt 0; vslice l]) (fetchTopicVals (fqTopics rq) fds).

(** offset_commit.go:82-85 *)
Definition commitReply (acc : list (bytes * list (Z * Z))) : val :=
  VStruct [vslice (map (fun t => VStruct [VStr (fst t);
    vslice (map (fun e => VStruct [VInt (fst e); VInt (snd e)]) (snd t))]) acc)].
(** list_offsets.go:88-94 *)
Definition listReply (acc : list (bytes * list (Z * (Z * Z * Z)))) : val :=
  VStruct [vslice (map (fun t => VStruct [VStr (fst t);
    vslice (map (fun e : Z * (Z * Z * Z) => let '(i, (er, ts, o)) := e in
       VStruct [VInt i; VInt er; VInt ts; VInt o]) (snd t))]) acc)].
(** offset_fetch.go:65-75 *)
Definition offReply (acc : list (bytes * list (Z * Z * option bytes * Z))) : val :=
  VStruct [vslice (map (fun t => VStruct [VStr (fst t);
    vslice (map (fun e : Z * Z * option bytes * Z => let '(i, o, m, er) := e in
       VStruct [VInt i; VInt o; VNStr m; VInt er]) (snd t))]) acc)].

(** Choices of map iteration orders made during a step. *)
Record choice := Ch { chTop : list nat; chIn : list (list nat) }.

(** What the goroutine sees of the rest of the process. *)
Record env := Env {
  eMono : Z;                 (* monotonic clock, ns *)
  eWall : Z;                 (* time.Now().UnixMilli() *)
  eCancel : bool;            (* kc.l.Done() is closed *)
  eVers : gmap Z vrange      (* apiVersions *)
}.

Inductive tres :=
| TCont (ds : store) (t : task) (os : list obs)
| TPanic.

Definition ms20 : Z := 20 * 1000000.

Definition ptr (t : ty) (v : val) : task := TkRet (TPtr t) (VPtr (Some v)).

(** fetch.go:122-150; the response is a struct, not a pointer. *)
Definition fetchFinish (ds : store) (rq : fetch_req) (fds : list fdata) : tres :=
  match fetchReply rq fds with
  | Some v => TCont ds (TkRet tFetchResp v) []
  | None => TPanic
  end.

(** fetch.go:79-96, one element of [fds]: (fd, was there a record?), [None]:
    negative index. *)
Definition fetchOne (ds : store) (fd : fdata) : option (fdata * bool) :=
  match fdKp fd with
  | None => Some (fd, false)
  | Some (t, p) =>
      match lookupPart ds t p with
      | None => Some (fd, false)
      | Some kp =>
          if fdOff fd <? zlen (pRecs kp) then
            if fdOff fd <? 0 then None
            else
              match nth_error (pRecs kp) (Z.to_nat (fdOff fd)) with
              | None => None
              | Some r =>
                  match appendMessage (fdMs fd) r (fdMax fd) with
                  | Some ms => Some (FD (fdKp fd) (fdOff fd + 1) (fdMax fd) ms, true)
                  | None => Some (fd, true)
                  end
              end
          else Some (fd, false)
      end
  end.

(** One step of a handler of connection [c]. *)
Definition tstep (c : nat) (e : env) (ch : choice) (ds : store) (tk : task) : tres :=
  match tk with
  | TkRet t v => TCont ds tk []
  | TkVersions =>
      (* api_versions.go:22-42 *)
      TCont ds (TkRet tApiVersionsResp (apiVersionsReply (eVers e) (chTop ch))) []
  | TkSync =>
      (* sync_group.go:50-52 *)
      match syncReply ds (chTop ch) (chIn ch) with
      | Some v => TCont ds (ptr tSyncResp v) []
      | None => TPanic
      end
  | TkFetchOpen rq ops kt fds =>
      (* fetch.go:60-76 *)
      match ops with
      | WTopic n :: ops' =>
          TCont ds (TkFetchOpen rq ops' (if getTopic ds n then Some n else None) fds) []
      | WPart p :: ops' =>
          let kp := match kt with
                    | Some n => if hasPart ds n (fpIndex p) then Some (n, fpIndex p) else None
                    | None => None end in
          TCont ds (TkFetchOpen rq ops' kt
                      (fds ++ [FD kp (fpOffset p) (fpMax p) (newMessageSetV1 (fpOffset p))])) []
      | [] =>
          TCont ds (TkFetchScan rq (eMono e + fqWait rq * 1000000) false false [] fds) []
      end
  | TkFetchScan rq exp hasOne more done todo =>
      match todo with
      | fd :: todo' =>
          match fetchOne ds fd with
          | Some (fd', got) =>
              TCont ds (TkFetchScan rq exp (hasOne || got) (more || got) (done ++ [fd']) todo') []
          | None => TPanic
          end
      | [] =>
          if more then TCont ds (TkFetchScan rq exp hasOne false [] done) []
          else if hasOne || (exp <? eMono e) then fetchFinish ds rq done
          else TCont ds (TkFetchPoll rq exp done) []
      end
  | TkFetchPoll rq exp fds =>
      (* fetch.go:104-118 *)
      if eCancel e then fetchFinish ds rq fds
      else TCont ds (TkFetchSleep rq exp (eMono e + ms20) fds) []
  | TkFetchSleep rq exp wake fds =>
      if wake <=? eMono e then TCont ds (TkFetchScan rq exp false false [] fds) []
      else TCont ds tk []
  | TkCommit rq ops kt pend acc =>
      (* offset_commit.go:46-86 *)
      match pend with
      | Some p =>
          match kt with
          | Some n =>
              TCont (commitOffset ds n (cpIndex p) (cqGroup rq) (cpOffset p))
                    (TkCommit rq ops kt None (add_last (cpIndex p, 0) acc))
                    [OCommit c n (cpIndex p) (cqGroup rq) (cpOffset p)]
          | None => TCont ds (TkCommit rq ops kt None acc) []   (* not reached *)
          end
      | None =>
          match ops with
          | WTopic n :: ops' =>
              TCont ds (TkCommit rq ops' (if getTopic ds n then Some n else None) None
                          (acc ++ [(n, [])])) []
          | WPart p :: ops' =>
              match kt with
              | Some n =>
                  if hasPart ds n (cpIndex p)
                  then TCont ds (TkCommit rq ops' kt (Some p) acc) []
                  else TCont ds (TkCommit rq ops' kt None (add_last (cpIndex p, 3) acc)) []
              | None => TCont ds (TkCommit rq ops' kt None (add_last (cpIndex p, 3) acc)) []
              end
          | [] => TCont ds (ptr tCommitResp (commitReply acc)) []
          end
      end
  | TkList rq ops kt pend acc =>
      (* list_offsets.go:47-95 *)
      match pend with
      | Some p =>
          match kt with
          | Some n =>
              TCont ds (TkList rq ops kt None
                 (add_last (lpIndex p, listOne (lookupPart ds n (lpIndex p)) (lpTime p) (eWall e)) acc)) []
          | None => TCont ds (TkList rq ops kt None acc) []      (* not reached *)
          end
      | None =>
          match ops with
          | WTopic n :: ops' =>
              TCont ds (TkList rq ops' (if getTopic ds n then Some n else None) None
                          (acc ++ [(n, [])])) []
          | WPart p :: ops' =>
              match kt with
              | Some n =>
                  if hasPart ds n (lpIndex p)
                  then TCont ds (TkList rq ops' kt (Some p) acc) []
                  else TCont ds (TkList rq ops' kt None
                         (add_last (lpIndex p, listOne None (lpTime p) (eWall e)) acc)) []
              | None => TCont ds (TkList rq ops' kt None
                         (add_last (lpIndex p, listOne None (lpTime p) (eWall e)) acc)) []
              end
          | [] => TCont ds (ptr tListResp (listReply acc)) []
          end
      end
  | TkOffOpen rq ops kt data =>
      (* offset_fetch.go:41-62 *)
      match ops with
      | WTopic n :: ops' =>
          TCont ds (TkOffOpen rq ops' (if getTopic ds n then Some n else None) data) []
      | WPart p :: ops' =>
          match kt with
          | Some n =>
              if hasPart ds n p
              then TCont ds (TkOffOpen rq ops' kt (add_data n p data)) []
              else TCont ds (TkOffOpen rq ops' kt data) []
          | None => TCont ds (TkOffOpen rq ops' kt data) []
          end
      | [] => TCont ds (TkOffRead rq (plan (shuffle (chTop ch) data)) None []) []
      end
  | TkOffRead rq ops kt acc =>
      (* offset_fetch.go:62-75 *)
      match ops with
      | WTopic n :: ops' => TCont ds (TkOffRead rq ops' (Some n) (acc ++ [(n, [])])) []
      | WPart p :: ops' =>
          match kt with
          | Some n =>
              match lookupPart ds n p with
              | Some kp =>
                  TCont (touchGroup ds n p (oqGroup rq))
                    (TkOffRead rq ops' kt
                      (add_last (pIndex kp, offsetOf kp (oqGroup rq), pMeta kp, pError kp) acc)) []
              | None => TPanic    (* not reached: partitions are never removed *)
              end
          | None => TPanic        (* not reached *)
          end
      | [] => TCont ds (ptr tOffResp (offReply acc)) []
      end
  end.

(** ** Connections *)

(** inbound-utils.go:21-33 (getMessage) and kafka-client.go:129.  The slice
    bound [4+msgSize] is computed in uint32 and may wrap below 4. *)
Inductive gres := GNone | GMsg (msg rest : bytes) | GPanic.
Definition getMessage (inbound : bytes) : gres :=
  if zlen inbound <? 4 then GNone
  else
    let size := be_get (firstn 4 inbound) in
    if zlen inbound <? size + 4 then GNone
    else
      let hi := uwrap 32 (4 + size) in
      if hi <? 4 then GPanic
      else
        let msg := skipn 4 (firstn (Z.to_nat hi) inbound) in
        GMsg msg (skipn (Z.to_nat (4 + zlen msg)) inbound).

(** inbound-utils.go:35-50 (readRequest): decoded request and remaining bytes;
    [None]: error or panic. *)
Definition readRequest (t : ty) (body : bytes) : option (val * bytes) :=
  match peekObject body 0 t with
  | DOk next v => Some (v, discard body next)
  | _ => None
  end.

Definition with_req {A} (t : ty) (f : val -> option A) (body : bytes) (k : A -> option task)
  : option (bytes * task) :=
  match readRequest t body with
  | Some (v, rest) =>
      match f v with
      | Some rq => match k rq with Some tk => Some (rest, tk) | None => None end
      | None => None
      end
  | None => None
  end.
Definition any_req (v : val) : option unit := Some tt.

(** The handlers up to their first access to shared state; [None]: they return
    an error or panic. *)
Definition startApi (a : api) (port : Z) (body : bytes) : option (bytes * task) :=
  match a with
  | ApiMetadata =>            (* metadata.go:43-62 *)
      with_req tMetadataReq metadata_req_of body (fun ts => Some (ptr tMetadataResp (metadataReply port ts)))
  | ApiFindCoordinator =>     (* find_coordinator.go:20-32 *)
      with_req tFindReq any_req body (fun _ => Some (ptr tFindResp (findReply port)))
  | ApiHeartbeat =>           (* heartbeat.go:19-27 *)
      with_req tHeartbeatReq any_req body (fun _ => Some (ptr tHeartbeatResp zeroReply))
  | ApiLeaveGroup =>          (* leave_group.go:18-25 *)
      with_req tLeaveReq any_req body (fun _ => Some (ptr tLeaveResp zeroReply))
  | ApiJoinGroup =>           (* join_group.go:37-52 *)
      with_req tJoinReq any_req body (fun _ => Some (ptr tJoinResp joinReply))
  | ApiSyncGroup =>           (* sync_group.go:39-54 *)
      with_req tSyncReq sync_req_of body (fun n => if n =? 0 then Some TkSync else None)
  | ApiApiVersions =>         (* api_versions.go:21: reads no body *)
      Some (body, TkVersions)
  | ApiListOffsets =>         (* list_offsets.go:41-47 *)
      with_req tListReq list_req_of body (fun rq => Some (TkList rq (plan (lqTopics rq)) None None []))
  | ApiOffsetCommit =>        (* offset_commit.go:40-46 *)
      with_req tCommitReq commit_req_of body (fun rq => Some (TkCommit rq (plan (cqTopics rq)) None None []))
  | ApiOffsetFetch =>         (* offset_fetch.go:35-41 *)
      with_req tOffReq off_req_of body (fun rq => Some (TkOffOpen rq (plan (oqTopics rq)) None []))
  | ApiFetch =>               (* fetch.go:52-60 *)
      with_req tFetchReq fetch_req_of body (fun rq => Some (TkFetchOpen rq (plan (fqTopics rq)) None []))
  end.

(** kafka-client.go:164-218: header, client id, look-up, start of the handler.
    [apiHasTags] (api-keys.go:91) is empty, so header tags are never read.
    Result: correlation id, bytes after the body, handler. *)
Definition beginRequest (port : Z) (msg : bytes) : option (Z * bytes * task) :=
  match peekObject msg 0 tHeader0 with
  | DOk next (VStruct [VInt key; VInt ver; VInt corr]) =>
      match peekString msg next with
      | DOk next2 client =>
          match dispatch key ver with
          | Some a =>
              match startApi a port (discard msg next2) with
              | Some (rest, tk) => Some (corr, rest, tk)
              | None => None
              end
          | None => None
          end
      | _ => None
      end
  | _ => None
  end.

(** kafka-client.go:223-235 and kafka-message.go:28-47: after the handler, the
    three writes of the reply.  [None]: bytes left over, or encoding panics. *)
Definition finishRequest (corr : Z) (extra : bytes) (t : ty) (v : val) : option (list bytes) :=
  match extra with
  | _ :: _ => None
  | [] =>
      match encodeObject t v with
      | Some payload =>
          Some [enc_i32 (swrap 32 (4 + zlen payload)); enc_i32 (swrap 32 corr); payload]
      | None => None
      end
  end.

Inductive cstate :=
| CLoop                                     (* kafka-client.go:88-93 *)
| CRead                                     (* kafka-client.go:104-107 *)
| CBusy (corr : Z) (extra : bytes) (t : task) (* in dispatcher *)
| CSend (chunks : list bytes)               (* kafka-message.go:33-44 *)
| CClosed.                                  (* handle returned *)

(** kafka-client.go:20-34, as far as used. *)
Record conn := Conn { cIn : bytes; cSt : cstate }.

(** ** Calls of the public API by the test program *)
Inductive call :=
| CallPost (t : bytes) (p : Z) (k v : option bytes) (hdrs : list (bytes * option bytes)) (ts : option Z)
    (* SimplePost ([ts = None], no headers) and ExtendedPost ([Some] Unix ms) *)
| CallCreate (ts : list bytes) (p : Z)
| CallSet (t : bytes) (p : Z) (g : bytes) (o : Z).

(** Strings and slices of a call hold bytes, numbers are Go ints (64 bits). *)
Definition int64 (z : Z) : bool := swrap 64 z =? z.
Definition obytes (o : option bytes) : bool := match o with Some b => all_bytes b | None => true end.
Definition call_ok (c : call) : bool :=
  match c with
  | CallPost t p k v h ts =>
      all_bytes t && obytes k && obytes v && forallb (fun e => all_bytes (fst e) && obytes (snd e)) h &&
      (int64 p && match ts with Some x => int64 x | None => true end)
  | CallCreate ts p => forallb all_bytes ts && int64 p
  | CallSet t p g o => all_bytes t && all_bytes g && (int64 p && int64 o)
  end.

Inductive athread :=
| APostTopic (t : bytes) (p : Z) (k v : option bytes) (hdrs : list (bytes * option bytes)) (ts : option Z)
| APostPart (t : bytes) (p : Z) (k v : option bytes) (hdrs : list (bytes * option bytes)) (ts : option Z)
| APostNow (t : bytes) (p : Z) (k v : option bytes) (hdrs : list (bytes * option bytes)) (ts : option Z)
| APostRec (t : bytes) (p : Z) (r : krecord)
| ACreateTopic (ts : list bytes) (p : Z)
| ACreatePart (t : bytes) (ts : list bytes) (p : Z)
| ASetTopic (t : bytes) (p : Z) (g : bytes) (o : Z)
| ASetPart (t : bytes) (p : Z) (g : bytes) (o : Z)
| ASetWrite (t : bytes) (p : Z) (g : bytes) (o : Z)
| AReturned.

Definition startCall (c : call) : athread :=
  match c with
  | CallPost t p k v h ts => APostTopic t p k v h ts
  | CallCreate ts p => ACreateTopic ts p
  | CallSet t p g o => ASetTopic t p g o
  end.

(** kafka-mock.go:96-106 (SimplePost, ExtendedPost), 181-186
    (CreatePartitionTopics), 189-200 (SetConsumerGroupOffset); one step per
    critical section.  The partition number is converted by [int32(partition)]. *)
Definition astep (i : nat) (wall : Z) (ds : store) (a : athread) : store * athread * list obs :=
  match a with
  | APostTopic t p k v h ts => (createTopic ds t, APostPart t p k v h ts, [OTopic i t])
  | APostPart t p k v h ts =>
      (createPartition ds t (swrap 32 p), APostNow t p k v h ts, [OMade i t (swrap 32 p)])
  | APostNow t p k v h ts =>
      let tm := match ts with Some x => x | None => wall end in
      (ds, APostRec t p (Rec 0 tm k v h), [])
  | APostRec t p r =>
      (postRecord ds t (swrap 32 p) r, AReturned, [OPosted i t (swrap 32 p) r; OReturn i])
  | ACreateTopic [] p => (ds, AReturned, [OReturn i])
  | ACreateTopic (t :: ts) p => (createTopic ds t, ACreatePart t ts p, [OTopic i t])
  | ACreatePart t ts p =>
      (createPartition ds t (swrap 32 p), ACreateTopic ts p, [OMade i t (swrap 32 p)])
  | ASetTopic t p g o =>
      if getTopic ds t then (ds, ASetPart t p g o, []) else (ds, AReturned, [OReturn i])
  | ASetPart t p g o =>
      if hasPart ds t (swrap 32 p) then (ds, ASetWrite t p g o, []) else (ds, AReturned, [OReturn i])
  | ASetWrite t p g o =>
      (setOffset ds t (swrap 32 p) g o, AReturned, [OSet i t (swrap 32 p) g o; OReturn i])
  | AReturned => (ds, AReturned, [])
  end.

(** ** The whole process *)
Record sys := Sys {
  sDs : store;
  sConns : list conn;
  sThreads : list athread;
  sMono : Z;
  sWall : Z;
  sCancel : bool;
  sCrash : bool;
  sPort : Z;
  sVers : gmap Z vrange
}.

Definition init (port : Z) (ch : list nat) : sys :=
  Sys new_store [] [] 0 0 false false port (initApiVersions ch).

Inductive event :=
| EvCall (c : call)                     (* the test program calls the API *)
| EvApi (i : nat)                       (* call i takes a step *)
| EvAccept                              (* a client connects *)
| EvConn (c : nat) (ch : choice)        (* connection c's goroutine takes a step *)
| EvRecv (c : nat) (chunk : bytes)      (* its Read returns data *)
| EvTimeout (c : nat)                   (* its Read times out *)
| EvPeerClose (c : nat)                 (* its Read reports EOF / reset *)
| EvReadErr (c : nat)                   (* its Read reports another error *)
| EvSendFail (c : nat) (gone : bool)    (* its Write fails; isConnected = negb gone *)
| EvTick (d : Z)                        (* time passes *)
| EvWall (w : Z)                        (* the wall clock shows w ms *)
| EvCancel                              (* FinishRequests / RequestStop *)
| EvRestart.                            (* Restart, once every client is gone *)

Definition set_conn (s : sys) (c : nat) (k : conn) (ds : store) : sys :=
  Sys ds (<[c := k]> (sConns s)) (sThreads s) (sMono s) (sWall s) (sCancel s) (sCrash s) (sPort s) (sVers s).
Definition crash (s : sys) : sys :=
  Sys (sDs s) (sConns s) (sThreads s) (sMono s) (sWall s) (sCancel s) true (sPort s) (sVers s).
Definition env_of (s : sys) : env := Env (sMono s) (sWall s) (sCancel s) (sVers s).

Definition closed (k : conn) : bool := match cSt k with CClosed => true | _ => false end.

(** kafka-client.go:88-139: one step of the goroutine of connection [c]. *)
Definition conn_step (s : sys) (c : nat) (ch : choice) (k : conn) : sys * list obs :=
  match cSt k with
  | CLoop =>
      match getMessage (cIn k) with
      | GNone =>
          if sCancel s then (set_conn s c (Conn (cIn k) CClosed) (sDs s), [OClosed c])
          else (set_conn s c (Conn (cIn k) CRead) (sDs s), [])
      | GPanic => (crash s, [OCrash c])
      | GMsg msg rest =>
          match beginRequest (sPort s) msg with
          | Some (corr, extra, tk) =>
              (set_conn s c (Conn rest (CBusy corr extra tk)) (sDs s), [OFrame c msg])
          | None => (crash s, [OFrame c msg; OCrash c])
          end
      end
  | CBusy corr extra (TkRet t v) =>
      match finishRequest corr extra t v with
      | Some chunks => (set_conn s c (Conn (cIn k) (CSend chunks)) (sDs s), [])
      | None => (crash s, [OCrash c])
      end
  | CBusy corr extra tk =>
      match tstep c (env_of s) ch (sDs s) tk with
      | TCont ds tk' os => (set_conn s c (Conn (cIn k) (CBusy corr extra tk')) ds, os)
      | TPanic => (crash s, [OCrash c])
      end
  | CSend (b :: bs) =>
      (set_conn s c (Conn (cIn k) (match bs with [] => CLoop | _ => CSend bs end)) (sDs s), [OWrite c b])
  | CSend [] => (set_conn s c (Conn (cIn k) CLoop) (sDs s), [])
  | CRead | CClosed => (s, [])
  end.

(** The whole machine; an event that is not enabled changes nothing. *)
Definition step (s : sys) (ev : event) : sys * list obs :=
  if sCrash s then (s, []) else
  match ev with
  | EvCall c =>
      if call_ok c then
      (Sys (sDs s) (sConns s) (sThreads s ++ [startCall c]) (sMono s) (sWall s) (sCancel s)
           (sCrash s) (sPort s) (sVers s), [])
      else (s, [])
  | EvApi i =>
      match sThreads s !! i with
      | Some a =>
          let '(ds, a', os) := astep i (sWall s) (sDs s) a in
          (Sys ds (sConns s) (<[i := a']> (sThreads s)) (sMono s) (sWall s) (sCancel s)
               (sCrash s) (sPort s) (sVers s), os)
      | None => (s, [])
      end
  | EvAccept =>
      (* kafka-mock.go:129-162; after cancellation the connection is closed at once *)
      if sCancel s then (s, []) else
      (Sys (sDs s) (sConns s ++ [Conn [] CLoop]) (sThreads s) (sMono s) (sWall s) (sCancel s)
           (sCrash s) (sPort s) (sVers s), [])
  | EvConn c ch =>
      match sConns s !! c with Some k => conn_step s c ch k | None => (s, []) end
  | EvRecv c chunk =>
      (* kafka-client.go:105-126 *)
      match sConns s !! c with
      | Some (Conn inb CRead) =>
          if (0 <? zlen chunk) && (zlen chunk <=? 8192) && all_bytes chunk
          then (set_conn s c (Conn (inb ++ chunk) CLoop) (sDs s), [ORead c chunk])
          else (s, [])
      | _ => (s, [])
      end
  | EvTimeout c =>
      match sConns s !! c with
      | Some (Conn inb CRead) => (set_conn s c (Conn inb CLoop) (sDs s), [])
      | _ => (s, [])
      end
  | EvPeerClose c =>
      match sConns s !! c with
      | Some (Conn inb CRead) => (set_conn s c (Conn inb CClosed) (sDs s), [OClosed c])
      | _ => (s, [])
      end
  | EvReadErr c =>
      match sConns s !! c with
      | Some (Conn inb CRead) => (crash s, [OCrash c])
      | _ => (s, [])
      end
  | EvSendFail c gone =>
      (* kafka-client.go:238-244 *)
      match sConns s !! c with
      | Some (Conn inb (CSend _)) =>
          if gone then (set_conn s c (Conn inb CLoop) (sDs s), []) else (crash s, [OCrash c])
      | _ => (s, [])
      end
  | EvTick d =>
      (Sys (sDs s) (sConns s) (sThreads s) (sMono s + Z.max 0 d) (sWall s) (sCancel s)
           (sCrash s) (sPort s) (sVers s), [OClock (Z.max 0 d)])
  | EvWall w =>
      (* time.Now().UnixMilli() is an int64 *)
      (Sys (sDs s) (sConns s) (sThreads s) (sMono s) (swrap 64 w) (sCancel s) (sCrash s) (sPort s) (sVers s),
       [OWall (swrap 64 w)])
  | EvCancel =>
      (Sys (sDs s) (sConns s) (sThreads s) (sMono s) (sWall s) true (sCrash s) (sPort s) (sVers s), [OCancel])
  | EvRestart =>
      (* kafka-mock.go:173-178: the data store is kept *)
      if forallb closed (sConns s) then
        (Sys (sDs s) (sConns s) (sThreads s) (sMono s) (sWall s) false (sCrash s) (sPort s) (sVers s), [ORestart])
      else (s, [])
  end.

Fixpoint run (s : sys) (evs : list event) : sys * list obs :=
  match evs with
  | [] => (s, [])
  | ev :: evs' =>
      let '(s1, o1) := step s ev in
      let '(s2, o2) := run s1 evs' in
      (s2, o1 ++ o2)
  end.

Definition reachable (s : sys) : Prop := exists port ch evs, s = fst (run (init port ch) evs).
