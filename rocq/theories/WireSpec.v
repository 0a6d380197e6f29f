(** * WireSpec: the Kafka wire grammar for the eleven supported requests.

    Written from the protocol, not from the code: plain concatenations of
    big-endian integers, length-prefixed strings and arrays.  No definition of
    Codec.v, Api.v or Server.v is used. *)
From Coq Require Export String Ascii List ZArith.
From Verif Require Export GoBase.
Open Scope Z_scope.
Open Scope list_scope.

(** [n] base-256 digits of [z], most significant first (two's complement for
    negative [z]). *)
Fixpoint w_be (n : nat) (z : Z) : bytes :=
  match n with
  | O => []
  | S k => (z / 256 ^ Z.of_nat k) mod 256 :: w_be k z
  end.

Definition w_bool (b : bool) : bytes := [if b then 1 else 0].
Definition w_int8 (z : Z) : bytes := w_be 1 z.
Definition w_int16 (z : Z) : bytes := w_be 2 z.
Definition w_int32 (z : Z) : bytes := w_be 4 z.
Definition w_int64 (z : Z) : bytes := w_be 8 z.

(** STRING and NULLABLE_STRING: int16 length (-1 for null), then the bytes. *)
Definition w_string (s : bytes) : bytes := w_int16 (zlen s) ++ s.
Definition w_nstring (o : option bytes) : bytes :=
  match o with Some s => w_string s | None => w_int16 (-1) end.
(** BYTES: int32 length (-1 for null), then the bytes. *)
Definition w_bytes (o : option bytes) : bytes :=
  match o with Some s => w_int32 (zlen s) ++ s | None => w_int32 (-1) end.
(** ARRAY: int32 count, then the elements. *)
Definition w_array {A} (f : A -> bytes) (l : list A) : bytes :=
  w_int32 (zlen l) ++ concat (map f l).

(** Text. *)
Definition w_text (s : string) : bytes :=
  map (fun c => Z.of_nat (nat_of_ascii c)) (list_ascii_of_string s).

(** ** Framing *)

(** A frame: int32 size, then that many bytes. *)
Definition w_frame (body : bytes) : bytes := w_int32 (zlen body) ++ body.

(** Request header v1: api key, api version, correlation id, client id. *)
Definition w_request (key ver corr : Z) (client : option bytes) (body : bytes) : bytes :=
  w_int16 key ++ w_int16 ver ++ w_int32 corr ++ w_nstring client ++ body.

(** Response header v0: correlation id. *)
Definition w_reply (corr : Z) (body : bytes) : bytes := w_frame (w_int32 corr ++ body).

(** ** Metadata v1 (key 3) *)
Definition w_metadata_req (topics : list bytes) : bytes := w_array w_string topics.
(** brokers [node host port rack], controller, topics [error name internal
    [error partition leader replicas isr]] *)
Definition w_broker (b : Z * bytes * Z * option bytes) : bytes :=
  let '(id, host, port, rack) := b in
  w_int32 id ++ w_string host ++ w_int32 port ++ w_nstring rack.
Definition w_meta_part (p : Z * Z * Z * list Z * list Z) : bytes :=
  let '(err, idx, leader, reps, isr) := p in
  w_int16 err ++ w_int32 idx ++ w_int32 leader ++ w_array w_int32 reps ++ w_array w_int32 isr.
Definition w_meta_topic (t : Z * bytes * bool * list (Z * Z * Z * list Z * list Z)) : bytes :=
  let '(err, name, internal, ps) := t in
  w_int16 err ++ w_string name ++ w_bool internal ++ w_array w_meta_part ps.
Definition w_metadata_resp brokers (controller : Z) topics : bytes :=
  w_array w_broker brokers ++ w_int32 controller ++ w_array w_meta_topic topics.

(** ** FindCoordinator v0 (key 10) *)
Definition w_find_req (key : bytes) : bytes := w_string key.
Definition w_find_resp (err node : Z) (host : bytes) (port : Z) : bytes :=
  w_int16 err ++ w_int32 node ++ w_string host ++ w_int32 port.

(** ** Heartbeat v0 (key 12), LeaveGroup v0 (key 13) *)
Definition w_heartbeat_req (group : bytes) (gen : Z) (member : bytes) : bytes :=
  w_string group ++ w_int32 gen ++ w_string member.
Definition w_leave_req (group member : bytes) : bytes := w_string group ++ w_string member.
Definition w_error_resp (err : Z) : bytes := w_int16 err.

(** ** JoinGroup v1 (key 11) *)
Definition w_join_req (group : bytes) (session rebalance : Z) (member ptype : bytes)
    (protocols : list (bytes * bytes)) : bytes :=
  w_string group ++ w_int32 session ++ w_int32 rebalance ++ w_string member ++ w_string ptype ++
  w_array (fun p => w_string (fst p) ++ w_bytes (Some (snd p))) protocols.
Definition w_join_resp (err gen : Z) (protocol leader member : bytes)
    (members : list (bytes * option bytes)) : bytes :=
  w_int16 err ++ w_int32 gen ++ w_string protocol ++ w_string leader ++ w_string member ++
  w_array (fun m => w_string (fst m) ++ w_bytes (snd m)) members.

(** ** SyncGroup v0 (key 14) *)
Definition w_sync_req (group : bytes) (gen : Z) (member : bytes)
    (assignments : list (bytes * bytes)) : bytes :=
  w_string group ++ w_int32 gen ++ w_string member ++
  w_array (fun p => w_string (fst p) ++ w_bytes (Some (snd p))) assignments.
Definition w_sync_resp (err : Z) (assignment : bytes) : bytes :=
  w_int16 err ++ w_bytes (Some assignment).
(** Consumer protocol: version, topics with partitions, user data. *)
Definition w_assignment (ver : Z) (ts : list (bytes * list Z)) (user : option bytes) : bytes :=
  w_int16 ver ++ w_array (fun t => w_string (fst t) ++ w_array w_int32 (snd t)) ts ++ w_bytes user.

(** ** ApiVersions v0 (key 18) *)
Definition w_versions_resp (err : Z) (keys : list (Z * Z * Z)) : bytes :=
  w_int16 err ++ w_array (fun k : Z * Z * Z => let '(a, b, c) := k in w_int16 a ++ w_int16 b ++ w_int16 c) keys.

(** ** ListOffsets v1 (key 2) *)
Definition w_list_req (replica : Z) (ts : list (bytes * list (Z * Z))) : bytes :=
  w_int32 replica ++
  w_array (fun t => w_string (fst t) ++ w_array (fun p => w_int32 (fst p) ++ w_int64 (snd p)) (snd t)) ts.
(** per partition: index, error, timestamp, offset *)
Definition w_list_resp (ts : list (bytes * list (Z * Z * Z * Z))) : bytes :=
  w_array (fun t => w_string (fst t) ++
    w_array (fun p : Z * Z * Z * Z => let '(i, e, tm, o) := p in
      w_int32 i ++ w_int16 e ++ w_int64 tm ++ w_int64 o) (snd t)) ts.

(** ** OffsetCommit v2 (key 8); per partition: index, offset, metadata *)
Definition w_commit_req (group : bytes) (gen : Z) (member : bytes) (retention : Z)
    (ts : list (bytes * list (Z * Z * option bytes))) : bytes :=
  w_string group ++ w_int32 gen ++ w_string member ++ w_int64 retention ++
  w_array (fun t => w_string (fst t) ++
    w_array (fun p : Z * Z * option bytes => let '(i, o, m) := p in
      w_int32 i ++ w_int64 o ++ w_nstring m) (snd t)) ts.
(** per partition: index, error *)
Definition w_commit_resp (ts : list (bytes * list (Z * Z))) : bytes :=
  w_array (fun t => w_string (fst t) ++
    w_array (fun p => w_int32 (fst p) ++ w_int16 (snd p)) (snd t)) ts.

(** ** OffsetFetch v1 (key 9) *)
Definition w_off_req (group : bytes) (ts : list (bytes * list Z)) : bytes :=
  w_string group ++ w_array (fun t => w_string (fst t) ++ w_array w_int32 (snd t)) ts.
(** per partition: index, offset, metadata, error *)
Definition w_off_resp (ts : list (bytes * list (Z * Z * option bytes * Z))) : bytes :=
  w_array (fun t => w_string (fst t) ++
    w_array (fun p : Z * Z * option bytes * Z => let '(i, o, m, e) := p in
      w_int32 i ++ w_int64 o ++ w_nstring m ++ w_int16 e) (snd t)) ts.

(** ** Fetch v2 (key 1); per partition: index, offset, max bytes *)
Definition w_fetch_req (replica wait minb : Z) (ts : list (bytes * list (Z * Z * Z))) : bytes :=
  w_int32 replica ++ w_int32 wait ++ w_int32 minb ++
  w_array (fun t => w_string (fst t) ++
    w_array (fun p : Z * Z * Z => let '(i, o, m) := p in
      w_int32 i ++ w_int64 o ++ w_int32 m) (snd t)) ts.
(** The part of a message (format version 1) covered by its checksum. *)
Definition w_msg_tail (ts : Z) (key value : option bytes) : bytes :=
  w_int8 1 ++ w_int8 0 ++ w_int64 ts ++ w_bytes key ++ w_bytes value.
(** offset, size field, crc field, then the checksummed part *)
Definition w_message (offset size crc ts : Z) (key value : option bytes) : bytes :=
  w_int64 offset ++ w_int32 size ++ w_int32 crc ++ w_msg_tail ts key value.
(** per partition: index, error, high watermark, size of message set, messages *)
Definition w_fetch_resp (throttle : Z) (ts : list (bytes * list (Z * Z * Z * bytes))) : bytes :=
  w_int32 throttle ++
  w_array (fun t => w_string (fst t) ++
    w_array (fun p : Z * Z * Z * bytes => let '(i, e, hw, set) := p in
      w_int32 i ++ w_int16 e ++ w_int64 hw ++ w_int32 (zlen set) ++ set) (snd t)) ts.

(** ** Legal field values: what fits the fields of the grammar. *)
Definition l_string (s : bytes) : bool := zlen s <=? 32767.
Definition l_nstring (o : option bytes) : bool := match o with Some s => l_string s | None => true end.
Definition l_i16 (z : Z) : bool := (-32768 <=? z) && (z <=? 32767).
Definition l_i32 (z : Z) : bool := (-2147483648 <=? z) && (z <=? 2147483647).
Definition l_i64 (z : Z) : bool := (-9223372036854775808 <=? z) && (z <=? 9223372036854775807).
Definition l_count {A} (l : list A) : bool := zlen l <? 2147483647.
Definition l_bytes (b : bytes) : bool := l_count b && all_bytes b.
Definition l_topics {P} (ok : P -> bool) (ts : list (bytes * list P)) : bool :=
  l_count ts && forallb (fun t => l_string (fst t) && (l_count (snd t) && forallb ok (snd t))) ts.

(** A request header the mock can read: it has to fit 4096 bytes. *)
Definition l_header (key ver corr : Z) (client : option bytes) : bool :=
  l_i16 key && l_i16 ver && l_i32 corr && l_nstring client &&
  (10 + match client with Some s => zlen s | None => 0 end <=? 4096).

Definition l_metadata (topics : list bytes) : bool := l_count topics && forallb l_string topics.
Definition l_heartbeat (group : bytes) (gen : Z) (member : bytes) : bool :=
  l_string group && l_i32 gen && l_string member.
Definition l_leave (group member : bytes) : bool := l_string group && l_string member.
Definition l_named (ps : list (bytes * bytes)) : bool :=
  l_count ps && forallb (fun p => l_string (fst p) && l_bytes (snd p)) ps.
Definition l_join (group : bytes) (session rebalance : Z) (member ptype : bytes)
    (ps : list (bytes * bytes)) : bool :=
  l_string group && l_i32 session && l_i32 rebalance && l_string member && l_string ptype && l_named ps.
Definition l_sync (group : bytes) (gen : Z) (member : bytes) (ps : list (bytes * bytes)) : bool :=
  l_string group && l_i32 gen && l_string member && l_named ps.
Definition l_list (replica : Z) (ts : list (bytes * list (Z * Z))) : bool :=
  l_i32 replica && l_topics (fun p => l_i32 (fst p) && l_i64 (snd p)) ts.
Definition l_commit (group : bytes) (gen : Z) (member : bytes) (retention : Z)
    (ts : list (bytes * list (Z * Z * option bytes))) : bool :=
  l_string group && l_i32 gen && l_string member && l_i64 retention &&
  l_topics (fun p : Z * Z * option bytes => let '(i, o, m) := p in l_i32 i && l_i64 o && l_nstring m) ts.
Definition l_off (group : bytes) (ts : list (bytes * list Z)) : bool :=
  l_string group && l_topics l_i32 ts.
Definition l_fetch (replica wait minb : Z) (ts : list (bytes * list (Z * Z * Z))) : bool :=
  l_i32 replica && l_i32 wait && l_i32 minb &&
  l_topics (fun p : Z * Z * Z => let '(i, o, m) := p in l_i32 i && l_i64 o && l_i32 m) ts.
