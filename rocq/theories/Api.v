(** * Api: request and response schemas, message sets, dispatch tables. *)
From Verif Require Export Store Crc.
From Coq Require Export String Ascii.
From stdpp Require Import gmap.
Open Scope Z_scope.
Open Scope list_scope.

(** Text of a Go string literal. *)
Definition str (s : string) : bytes :=
  map (fun c => Z.of_N (N_of_ascii c)) (list_ascii_of_string s).

Definition fields (l : list ty) : ty := TStruct (map (fun t => (plain, t)) l).

(** ** Schemas: the Go struct types, none of which carries a kafka tag. *)

(** kafka-client.go:46-50 *)
Definition tHeader0 := fields [TInt16; TInt16; TInt32].

(** metadata.go:8-10, 12-16, 18-23, 25-30, 32-38 *)
Definition tMetadataReq := fields [TSlice TString].
Definition tBroker := fields [TInt32; TString; TInt32; TNullableString].
Definition tPartitionV1 := fields [TInt16; TInt32; TInt32; TSlice TInt32; TSlice TInt32].
Definition tTopicV1 := fields [TInt16; TString; TBool; TSlice tPartitionV1].
Definition tMetadataResp := fields [TSlice tBroker; TInt32; TSlice tTopicV1].

(** find_coordinator.go:8-17 *)
Definition tFindReq := fields [TString].
Definition tFindResp := fields [TInt16; TInt32; TString; TInt32].

(** heartbeat.go:8-16 *)
Definition tHeartbeatReq := fields [TString; TInt32; TString].
Definition tHeartbeatResp := fields [TInt16].

(** leave_group.go:8-15 *)
Definition tLeaveReq := fields [TString; TString].
Definition tLeaveResp := fields [TInt16].

(** join_group.go:8-34 *)
Definition tJoinProtocol := fields [TString; TSlice TUint8].
Definition tJoinReq := fields [TString; TInt32; TInt32; TString; TString; TSlice tJoinProtocol].
Definition tJoinMember := fields [TString; TSlice TUint8].
Definition tJoinResp := fields [TInt16; TInt32; TString; TString; TString; TSlice tJoinMember].

(** sync_group.go:10-36 *)
Definition tSyncAssign := fields [TString; TSlice TUint8].
Definition tSyncReq := fields [TString; TInt32; TString; TSlice tSyncAssign].
Definition tMemberPart := fields [TString; TSlice TInt32].
Definition tMemberAssignment := fields [TInt16; TSlice tMemberPart; TSlice TUint8].
Definition tSyncResp := fields [TInt16; TSlice TUint8].

(** api_versions.go:9-18 *)
Definition tApiKey := fields [TInt16; TInt16; TInt16].
Definition tApiVersionsResp := fields [TInt16; TSlice tApiKey].

(** list_offsets.go:9-38 *)
Definition tListReqPart := fields [TInt32; TInt64].
Definition tListReqTopic := fields [TString; TSlice tListReqPart].
Definition tListReq := fields [TInt32; TSlice tListReqTopic].
Definition tListRespPart := fields [TInt32; TInt16; TInt64; TInt64].
Definition tListRespTopic := fields [TString; TSlice tListRespPart].
Definition tListResp := fields [TSlice tListRespTopic].

(** offset_commit.go:6-37 *)
Definition tCommitReqPart := fields [TInt32; TInt64; TNullableString].
Definition tCommitReqTopic := fields [TString; TSlice tCommitReqPart].
Definition tCommitReq := fields [TString; TInt32; TString; TInt64; TSlice tCommitReqTopic].
Definition tCommitRespPart := fields [TInt32; TInt16].
Definition tCommitRespTopic := fields [TString; TSlice tCommitRespPart].
Definition tCommitResp := fields [TSlice tCommitRespTopic].

(** offset_fetch.go:8-32 *)
Definition tOffReqTopic := fields [TString; TSlice TInt32].
Definition tOffReq := fields [TString; TSlice tOffReqTopic].
Definition tOffRespPart := fields [TInt32; TInt64; TNullableString; TInt16].
Definition tOffRespTopic := fields [TString; TSlice tOffRespPart].
Definition tOffResp := fields [TSlice tOffRespTopic].

(** encoder.go:35-44 (messageV1) *)
Definition tMessageV1 :=
  fields [TInt64; TInt32; TInt32; TInt8; TInt8; TInt64; TSlice TUint8; TSlice TUint8].

(** fetch.go:9-42 *)
Definition tFetchReqPart := fields [TInt32; TInt64; TInt32].
Definition tFetchReqTopic := fields [TString; TSlice tFetchReqPart].
Definition tFetchReq := fields [TInt32; TInt32; TInt32; TSlice tFetchReqTopic].
Definition tFetchRespPart := fields [TInt32; TInt16; TInt64; TPtr (TMsgSet tMessageV1)].
Definition tFetchRespTopic := fields [TString; TSlice tFetchRespPart].
Definition tFetchResp := fields [TInt32; TSlice tFetchRespTopic].

(** ** Typed requests, and reading them out of the decoder's result
    (inbound-utils.go:42, the type assertion [r.(T)]). *)

Definition list_of {A} (f : val -> option A) (v : val) : option (list A) :=
  match v with VSlice (Some l) => mapM f l | _ => None end.
Definition zint (v : val) : option Z := match v with VInt z => Some z | _ => None end.
Definition zstr (v : val) : option bytes := match v with VStr s => Some s | _ => None end.

(** One topic of a request with its list of per-partition entries. *)
Definition topic_req (P : Type) : Type := (bytes * list P)%type.
Definition topic_of {P} (f : val -> option P) (v : val) : option (topic_req P) :=
  match v with
  | VStruct [VStr name; ps] =>
      match list_of f ps with Some l => Some (name, l) | None => None end
  | _ => None
  end.

Record fetch_part := FetchPart { fpIndex : Z; fpOffset : Z; fpMax : Z }.
Record fetch_req := FetchReq {
  fqReplica : Z; fqWait : Z; fqMin : Z; fqTopics : list (topic_req fetch_part) }.
Definition fetch_part_of (v : val) : option fetch_part :=
  match v with
  | VStruct [VInt i; VInt o; VInt m] => Some (FetchPart i o m)
  | _ => None end.
Definition fetch_req_of (v : val) : option fetch_req :=
  match v with
  | VStruct [VInt r; VInt w; VInt m; ts] =>
      match list_of (topic_of fetch_part_of) ts with
      | Some l => Some (FetchReq r w m l) | None => None end
  | _ => None end.

Record commit_part := CommitPart { cpIndex : Z; cpOffset : Z; cpMeta : option bytes }.
Record commit_req := CommitReq {
  cqGroup : bytes; cqGen : Z; cqMember : bytes; cqRetention : Z;
  cqTopics : list (topic_req commit_part) }.
Definition commit_part_of (v : val) : option commit_part :=
  match v with
  | VStruct [VInt i; VInt o; VNStr m] => Some (CommitPart i o m)
  | _ => None end.
Definition commit_req_of (v : val) : option commit_req :=
  match v with
  | VStruct [VStr g; VInt gen; VStr m; VInt ret; ts] =>
      match list_of (topic_of commit_part_of) ts with
      | Some l => Some (CommitReq g gen m ret l) | None => None end
  | _ => None end.

Record off_req := OffReq { oqGroup : bytes; oqTopics : list (topic_req Z) }.
Definition off_req_of (v : val) : option off_req :=
  match v with
  | VStruct [VStr g; ts] =>
      match list_of (topic_of zint) ts with
      | Some l => Some (OffReq g l) | None => None end
  | _ => None end.

Record list_part := ListPart { lpIndex : Z; lpTime : Z }.
Record list_req := ListReq { lqReplica : Z; lqTopics : list (topic_req list_part) }.
Definition list_part_of (v : val) : option list_part :=
  match v with
  | VStruct [VInt i; VInt t] => Some (ListPart i t)
  | _ => None end.
Definition list_req_of (v : val) : option list_req :=
  match v with
  | VStruct [VInt r; ts] =>
      match list_of (topic_of list_part_of) ts with
      | Some l => Some (ListReq r l) | None => None end
  | _ => None end.

Definition metadata_req_of (v : val) : option (list bytes) :=
  match v with VStruct [ts] => list_of zstr ts | _ => None end.

(** Number of assignments in a SyncGroup request (all the handler looks at). *)
Definition sync_req_of (v : val) : option Z :=
  match v with
  | VStruct [_; _; _; VSlice (Some l)] => Some (zlen l)
  | _ => None end.

(** ** Message sets *)

(** encoder.go:35-44 *)
Record message := Msg {
  mOffset : Z; mSize : Z; mCrc : Z; mMagic : Z; mAttr : Z; mTs : Z;
  mKey : option bytes; mVal : option bytes }.

(** A [[]byte] as reflect value. *)
Definition vbytes (o : option bytes) : val := VSlice (option_map (map VInt) o).

Definition message_val (m : message) : val :=
  VStruct [VInt (mOffset m); VInt (mSize m); VInt (mCrc m); VInt (mMagic m);
           VInt (mAttr m); VInt (mTs m); vbytes (mKey m); vbytes (mVal m)].

(** encoder.go:29-33 *)
Record msgset := MsgSet { msMsgs : list message; msOffset : Z; msTotal : Z }.

(** encoder.go:486-491 *)
Definition newMessageSetV1 (offset : Z) : msgset := MsgSet [] offset 0.

Definition olen (o : option bytes) : Z := match o with Some b => zlen b | None => 0 end.

(** encoder.go:517-524 (crc).  Encoding a messageV1 never panics. *)
Definition message_crc (m : message) : Z :=
  match encodeObject (TPtr tMessageV1) (VPtr (Some (message_val m))) with
  | Some b => crc32c (skipn 16 b)
  | None => 0
  end.

(** encoder.go:493-515 (appendMessage); [None] is the result false. *)
Definition appendMessage (ms : msgset) (r : krecord) (maxSize : Z) : option msgset :=
  let size := swrap 32 (34 + olen (rKey r) + olen (rVal r)) in
  let m0 := Msg (msOffset ms) size 0 1 0 (rTs r) (rKey r) (rVal r) in
  let m := Msg (msOffset ms) size (swrap 32 (message_crc m0)) 1 0 (rTs r) (rKey r) (rVal r) in
  let newSize := msTotal ms + size in
  if maxSize <? newSize then None
  else Some (MsgSet (msMsgs ms ++ [m]) (msOffset ms + 1) newSize).

(** ** Dispatch *)

(** fmt's %d. *)
Fixpoint dec_digits (fuel : nat) (n : Z) (acc : bytes) : bytes :=
  match fuel with
  | O => acc
  | S f => if n <? 10 then (48 + n) :: acc
           else dec_digits f (n / 10) ((48 + n mod 10) :: acc)
  end.
Definition decimal (n : Z) : bytes :=
  let m := Z.abs n in
  let d := dec_digits (S (Z.to_nat (Z.log2 m))) m [] in
  if n <? 0 then 45 :: d else d.

(** api-keys.go:168-170 (makeApiKey) *)
Definition makeApiKey (key ver : Z) : bytes := decimal key ++ [46] ++ decimal ver.

Inductive api :=
| ApiMetadata | ApiFindCoordinator | ApiOffsetFetch | ApiJoinGroup | ApiSyncGroup
| ApiLeaveGroup | ApiApiVersions | ApiHeartbeat | ApiListOffsets | ApiFetch | ApiOffsetCommit.

(** api-keys.go:180-192 (constants of lines 17-87) *)
Definition apiTable : list (bytes * api) :=
  [ (makeApiKey 3 1, ApiMetadata);
    (makeApiKey 10 0, ApiFindCoordinator);
    (makeApiKey 9 1, ApiOffsetFetch);
    (makeApiKey 11 1, ApiJoinGroup);
    (makeApiKey 14 0, ApiSyncGroup);
    (makeApiKey 13 0, ApiLeaveGroup);
    (makeApiKey 18 0, ApiApiVersions);
    (makeApiKey 12 0, ApiHeartbeat);
    (makeApiKey 2 1, ApiListOffsets);
    (makeApiKey 1 2, ApiFetch);
    (makeApiKey 8 2, ApiOffsetCommit) ].

Definition beqb (a b : bytes) : bool := bool_decide (a = b).

(** kafka-client.go:207: [apiTable[k]] *)
Fixpoint lookupApi (tab : list (bytes * api)) (k : bytes) : option api :=
  match tab with
  | [] => None
  | (k', a) :: tab' => if beqb k k' then Some a else lookupApi tab' k
  end.
Definition dispatch (key ver : Z) : option api := lookupApi apiTable (makeApiKey key ver).

(** strings.Split(s, "."), first two parts. *)
Fixpoint split_dot (s : bytes) : bytes * bytes :=
  match s with
  | [] => ([], [])
  | c :: s' => if c =? 46 then ([], s') else let '(a, b) := split_dot s' in (c :: a, b)
  end.
(** strconv.Atoi on optionally signed decimal text. *)
Definition atoi_digits (s : bytes) : Z := fold_left (fun a c => a * 10 + (c - 48)) s 0.
Definition atoi (s : bytes) : Z :=
  match s with
  | c :: s' => if c =? 45 then - atoi_digits s' else atoi_digits s
  | [] => 0
  end.

(** api-keys.go:10-15 *)
Definition vrange : Type := (Z * Z)%type.

(** api-keys.go:196-213, one iteration.  The else branch updates a copy only. *)
Definition addVersion (m : gmap Z vrange) (keyVer : bytes) : gmap Z vrange :=
  let '(a, b) := split_dot keyVer in
  let key := atoi a in
  let ver := atoi b in
  match m !! key with
  | None => <[key := (swrap 16 ver, swrap 16 ver)]> m
  | Some _ => m
  end.

(** api-keys.go:194-213: the table is iterated in any order [ch]. *)
Definition initApiVersions (ch : list nat) : gmap Z vrange :=
  fold_left addVersion (shuffle ch (map fst apiTable)) ∅.

(** sort.Ints *)
Fixpoint ins_int (x : Z) (l : list Z) : list Z :=
  match l with [] => [x] | y :: l' => if x <=? y then x :: l else y :: ins_int x l' end.
Definition sort_ints (l : list Z) : list Z := fold_right ins_int [] l.

(** api_versions.go:21-43; [ch] is the order in which the map is iterated. *)
Definition apiVersionsReply (vers : gmap Z vrange) (ch : list nat) : val :=
  let keys := map fst (List.filter (fun e => -2 <? fst (snd e)) (shuffle ch (map_to_list vers))) in
  let one (k : Z) : val :=
    match vers !! k with
    | Some (mn, mx) =>
        if negb (mn =? -1) then VStruct [VInt (swrap 16 k); VInt mn; VInt mx]
        else VStruct [VInt (swrap 16 k); VInt 0; VInt 0]
    | None => VStruct [VInt (swrap 16 k); VInt 0; VInt 0]
    end in
  VStruct [VInt 0; VSlice (Some (map one (sort_ints keys)))].

(** ** Replies that do not depend on the store *)

Definition vslice (l : list val) : val := VSlice (Some l).

(** metadata.go:41-62 *)
Definition metadataReply (port : Z) (topics : list bytes) : val :=
  let topic (t : bytes) : val :=
    VStruct [VInt 0; VStr t; VBool false;
      vslice [VStruct [VInt 0; VInt 2; VInt 100; vslice [VInt 1]; vslice [VInt 1]]]] in
  VStruct [vslice [VStruct [VInt 100; VStr (str "localhost"); VInt (swrap 32 port); VNStr None]];
           VInt 500; vslice (map topic topics)].

(** find_coordinator.go:26-31 *)
Definition findReply (port : Z) : val :=
  VStruct [VInt 0; VInt 100; VStr (str "localhost"); VInt (swrap 32 port)].

(** join_group.go:43-50 *)
Definition joinReply : val :=
  VStruct [VInt 0; VInt 0; VStr (str "roundrobin"); VStr (str "me"); VStr (str "1");
           vslice [VStruct [VStr (str "you"); VSlice None]]].

(** heartbeat.go:25, leave_group.go:23 *)
Definition zeroReply : val := VStruct [VInt 0].

(** sync_group.go:56-79 (makeMemberAssignment) on one view of the store; [ch]
    orders the topics, the elements of [chs] the partitions of each topic. *)
Fixpoint assign_topics (l : list (bytes * ktopic)) (chs : list (list nat)) : list val :=
  match l with
  | [] => []
  | (name, kt) :: l' =>
      VStruct [VStr name;
               vslice (map (fun q => VInt (pIndex (snd q)))
                           (shuffle (hd [] chs) (map_to_list kt)))]
      :: assign_topics l' (tl chs)
  end.
Definition memberAssignmentVal (ds : store) (ch : list nat) (chs : list (list nat)) : val :=
  VStruct [VInt 1; vslice (assign_topics (shuffle ch (map_to_list ds)) chs); VSlice None].
Definition makeMemberAssignment (ds : store) (ch : list nat) (chs : list (list nat)) : option bytes :=
  encodeObject tMemberAssignment (memberAssignmentVal ds ch chs).

(** sync_group.go:50-52; [None]: encoding panicked. *)
Definition syncReply (ds : store) (ch : list nat) (chs : list (list nat)) : option val :=
  option_map (fun b => VStruct [VInt 0; vbytes (Some b)]) (makeMemberAssignment ds ch chs).

(** ** ListOffsets by timestamp *)

(** list_offsets.go:73-82, scanning [recs] from the end: [rs] is the reversed
    list, [i] the index of its head; result (offset, ts). *)
Fixpoint list_scan (rs : list krecord) (i : Z) (ts T : Z) : Z * Z :=
  match rs with
  | [] => (0, ts)
  | r :: rs' => if rTs r <? T then (i + 1, rTs r) else list_scan rs' (i - 1) (rTs r) T
  end.

(** list_offsets.go:59-85: (error, timestamp, offset) for one partition.
    Reading [kp.Records] without the lock is treated as one atomic read
    (see Race.v). [wall] is time.Now().UnixMilli(). *)
Definition listOne (kp : option kpart) (T wall : Z) : Z * Z * Z :=
  match kp with
  | None => (3, 0, 0)
  | Some kp =>
      if T =? -1 then (0, wall, zlen (pRecs kp))
      else if T =? -2 then
        match pRecs kp with
        | [] => (0, 0, 0)
        | r :: _ => (0, rTs r, 0)
        end
      else
        let '(o, ts) := list_scan (rev (pRecs kp)) (zlen (pRecs kp) - 1) 0 T in
        (0, ts, o)
  end.
