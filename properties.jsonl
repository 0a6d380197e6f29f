{"id": "C01", "title": "Primitive wire round-trip", "statement": "Every bool, int8..int64, uint8..uint64, int, uint, float64, UUID, zig-zag VarInt/VarInt64, VarUint/VarUint64 value written with encodeObject and read back with peekObject at the position where it was written yields the same value and reports exactly the bytes written as consumed, whatever bytes precede or follow it, as long as it ends inside the reader's 4096-byte window.", "quantifier": "all values of each primitive type, all preceding and following bytes", "why_tests_cant": "The 64-bit and varint domains cannot be enumerated; the existing tests try two values per type.", "anchors": ["encoder.go:encodeObjectWorker", "encoder.go:makeZigzag32", "encoder.go:makeZigzag64", "encoder.go:makeVarUint", "decoder.go:peekObjectWorker", "decoder.go:peekVarUint", "decoder.go:peekVarInt"]}
{"id": "C02", "title": "Varint size, sign mapping and rejection of over-long input", "statement": "A VarInt/VarUint takes between 1 and 5 bytes and a VarInt64/VarUint64 between 1 and 10, values of magnitude below 64 (unsigned below 128) take exactly one byte, all bytes but the last have the continuation bit set and the last does not; reading a varint whose first 5 (10) bytes all carry the continuation bit, or which is cut short, reports failure.", "quantifier": "all 32- and 64-bit values; all byte sequences of any length", "why_tests_cant": "Size bound and rejection must hold for 2^64 values and for every malformed byte sequence.", "anchors": ["encoder.go:makeVarUint", "encoder.go:makeVarUint64", "decoder.go:peekVarUint", "decoder.go:peekVarUint64"]}
{"id": "C03", "title": "Composite wire round-trip", "statement": "For every message schema built from the types on which encoder and decoder agree (all request and response schemas of the mock are such, except the message-set field of Fetch), encoding any value with no null array and decoding the bytes in place gives back an equal value and the exact end position, whatever surrounds the bytes. An array of any element type is written as its length and its elements, a nil array as length -1; in a field tagged compact the length is written as a varint one greater, 0 for nil.", "quantifier": "all schemas in the agreed fragment (any nesting of structs, arrays, pointers to structs, strings, bytes), all values of them, all surrounding bytes, end position at most 4096", "why_tests_cant": "Schemas nest without bound and arrays have any length; a test fixes one struct.", "anchors": ["encoder.go:encodeStruct", "encoder.go:encodeArray", "encoder.go:encodeCompactArray", "decoder.go:peekObjectStruct", "decoder.go:peekObjectFixedArray"]}
{"id": "C04", "title": "Truncated input is never accepted", "statement": "If the bytes available are a strict prefix of a valid encoding, or the encoding would end beyond the reader's 4096-byte window, decoding reports failure; it never yields a value and never panics.", "quantifier": "all schemas of the agreed fragment, all values, every cut point", "why_tests_cant": "Every cut point of every encodable value, of any size.", "anchors": ["decoder.go:peekObjectWorker", "decoder.go:peekFixedData", "decoder.go:peekNullableData16"]}
{"id": "C05", "title": "Request size limit of the mock", "statement": "A supported request whose body is well-formed is answered only if its body is at most 4096 bytes (and its header at most 4096); every well-formed body longer than 4096 bytes terminates the process instead of being answered.", "quantifier": "all requests of the ten APIs that carry a body, all sizes", "why_tests_cant": "The boundary is a function of every field of every request.", "anchors": ["kafka-client.go:kafkaClient.dispatcher", "inbound-utils.go:readRequest", "decoder.go:peekFixedData"]}
{"id": "C06", "title": "Null arrays in requests", "statement": "A request in which an array (or byte-array) field is null (length negative) is never answered: decoding it panics and the process ends, even where Kafka gives null a meaning (Metadata v1: all topics).", "quantifier": "all requests containing a null array at any position reached by the decoder", "why_tests_cant": "Must hold for every position and every request; it is about all inputs, and the process dies in the failing case.", "anchors": ["decoder.go:peekObjectFixedArray", "decoder.go:peekObjectStruct", "metadata.go:metadataRequestV1"]}
{"id": "C07", "title": "Strings up to 32767 bytes survive, longer ones are corrupted", "statement": "A string of at most 32767 bytes is written with its true length; a string of 32768 to 65535 bytes is written with a negative length, so that a reader sees an absent/empty string followed by garbage. Nil strings and byte slices are written as length -1, and in the compact types, whose length is a varint one greater, as 0.", "quantifier": "all strings", "why_tests_cant": "Boundary is a property of every length, not of examples.", "anchors": ["encoder.go:encodeNullableString", "decoder.go:peekNullableData16"]}
{"id": "C08", "title": "Tagged-field round-trip", "statement": "Writing a set of tagged fields and reading it back yields the same tags with their raw bytes (or the typed value for known fields), in ascending tag order on the wire, consuming exactly the bytes written.", "quantifier": "all finite maps from tag numbers to encodable values", "why_tests_cant": "Any number of tags with any values.", "anchors": ["encoder.go:encodeTags", "decoder.go:peekTags"]}
{"id": "C09", "title": "Request framing is independent of TCP chunking", "statement": "However the bytes sent by a client are split into reads, the sequence of requests the server processes is the sequence of length-prefixed frames of the byte stream: nothing is lost, duplicated, merged or reordered, and an incomplete trailing frame waits for its remaining bytes; a frame of 2^32-4 bytes or more, once complete, ends the process.", "quantifier": "all byte streams, all ways to cut them in chunks, all interleavings with processing", "why_tests_cant": "TCP segmentation is decided by the network; there are exponentially many splits.", "anchors": ["inbound-utils.go:getMessage", "kafka-client.go:kafkaClient.handle"]}
{"id": "C10", "title": "One correctly framed reply per request, in order, with its correlation id", "statement": "On one connection the bytes the server writes are the concatenation of one reply frame per answered request, in request order; each frame's length prefix equals the bytes that follow it and its correlation id equals the request's, for every 32-bit correlation id.", "quantifier": "all request sequences, all correlation ids, all schedules of other connections and API calls", "why_tests_cant": "Quantifies over histories and interleavings.", "anchors": ["kafka-message.go:kafkaMessage.send", "kafka-client.go:kafkaClient.dispatcher", "kafka-client.go:kafkaClient.handle"]}
{"id": "C11", "title": "Only supported well-formed requests are answered; the rest end the process", "statement": "A frame is answered only if its header parses, its (api key, version) pair is one of the eleven supported, its body parses, header and body are at most 4096 bytes each and no byte follows the body; in every other case nothing is ever written for it and no later request of the connection is taken up, and the process panics after a bounded number of steps of the connection, except that a Fetch request followed by more bytes panics only when the Fetch completes (which it does under the conditions, and within the steps, under which a Fetch is answered). Conversely every such frame that is not a Fetch, nor a SyncGroup with assignments, is answered after a bounded number of steps under its own correlation id; a SyncGroup with assignments ends the process at once.", "quantifier": "all byte strings as frame content", "why_tests_cant": "All byte strings; failing cases kill the test process.", "anchors": ["kafka-client.go:kafkaClient.dispatcher", "api-keys.go:initializeApis"]}
{"id": "C12", "title": "Advertised API versions are exactly the dispatched ones", "statement": "The ApiVersions reply lists, in ascending key order and without duplicates, exactly the api keys the server dispatches, and a (key, version) pair is dispatched if and only if version lies in the advertised range of key, whatever order the internal tables are iterated in.", "quantifier": "all 2^16 keys x 2^16 versions, all map iteration orders", "why_tests_cant": "Go randomises map iteration; a test samples an order.", "anchors": ["api_versions.go:apiVersionsV0", "api-keys.go:initializeApis", "api-keys.go:makeApiKey"]}
{"id": "C13", "title": "Posted records form an append-only log", "statement": "In every state reachable under any schedule the records of a topic partition are exactly the records posted to it, in the order in which the posts took effect; no request, commit, restart or post to another partition changes, drops, reorders or duplicates them.", "quantifier": "all histories and interleavings of API calls and client requests", "why_tests_cant": "All histories and schedules.", "anchors": ["datastore.go:kafkaPartition.postRecord", "kafka-mock.go:SimplePost", "kafka-mock.go:ExtendedPost"]}
{"id": "C14", "title": "Creating topics and partitions is idempotent and non-destructive", "statement": "CreatePartitionTopics and the implicit creation in SimplePost/ExtendedPost make the (topic, partition) exist afterwards and forever, and leave the records and offsets of existing partitions unchanged; nothing else creates topics or partitions.", "quantifier": "all histories, all topic names, all int partition numbers (taken modulo 2^32)", "why_tests_cant": "All histories.", "anchors": ["datastore.go:createTopic", "datastore.go:createPartition", "kafka-mock.go:CreatePartitionTopics"]}
{"id": "C15", "title": "Committed offsets only move forward", "statement": "OffsetCommit raises the group's offset of a partition to the maximum of the old value and the committed one, never lowers it; under any interleaving the stored offset after a commit completes is at least the committed value until SetConsumerGroupOffset is called, it is always 0 or a value someone supplied, and a commit touches no other group, partition or topic.", "quantifier": "all histories and interleavings of commits, fetches, posts and SetConsumerGroupOffset", "why_tests_cant": "Concurrent commits from several connections interleave arbitrarily.", "anchors": ["offset_commit.go:offsetCommitV2", "datastore.go:kafkaPartition"]}
{"id": "C16", "title": "OffsetCommit reports unknown partitions and acknowledges known ones", "statement": "The OffsetCommit reply has the request's topics and partitions in request order, with error code 0 for an existing partition and 3 (UNKNOWN_TOPIC_OR_PARTITION) for a missing one; a missing one is not created.", "quantifier": "all requests, all store contents", "why_tests_cant": "All inputs.", "anchors": ["offset_commit.go:offsetCommitV2", "kafka-errors.go"]}
{"id": "C17", "title": "SetConsumerGroupOffset sets exactly one offset", "statement": "SetConsumerGroupOffset on an existing partition makes the group's offset equal to the given value, forwards or backwards, and changes nothing else; on a missing topic or partition it changes nothing and creates nothing.", "quantifier": "all states, topics, partitions, groups, offsets", "why_tests_cant": "All states.", "anchors": ["kafka-mock.go:SetConsumerGroupOffset"]}
{"id": "C18", "title": "OffsetFetch reports the committed offsets", "statement": "The OffsetFetch reply contains, for each requested existing partition (per request occurrence, grouped by topic), the group's committed offset (0 if none), error code 0 and null metadata; missing topics and partitions are omitted; it does not observably change any offset. Metadata sent with a commit is never returned.", "quantifier": "all requests, all stores, all map iteration orders", "why_tests_cant": "Reply order depends on Go map iteration order; all stores.", "anchors": ["offset_fetch.go:offsetFetchV1", "datastore.go:groupCommittedOffset"]}
{"id": "C19", "title": "ListOffsets latest and earliest", "statement": "For timestamp -1 the reply gives the number of records in the partition and the current time; for -2 it gives offset 0 with the first record's timestamp (0 if empty); a missing topic or partition gives error code 3 and offset 0; order and multiplicity follow the request.", "quantifier": "all requests, all stores, all clocks", "why_tests_cant": "All inputs.", "anchors": ["list_offsets.go:listOffsetsV1"]}
{"id": "C20", "title": "ListOffsets by timestamp", "statement": "For any other timestamp T the returned offset o satisfies: every record at or after o has timestamp >= T, and o = 0 or record o-1 has timestamp < T; hence if record timestamps are non-decreasing o is the first offset with timestamp >= T. With decreasing timestamps an earlier record with timestamp >= T may be skipped, and the returned timestamp is that of record o-1 (record 0 if o = 0), not of record o.", "quantifier": "all record lists, all timestamps", "why_tests_cant": "All lists of timestamps.", "anchors": ["list_offsets.go:listOffsetsV1"]}
{"id": "C21", "title": "Fetched records are a contiguous, correctly numbered slice of the log", "statement": "If a Fetch asks one partition per topic, each partition's records in the reply are the log records at FetchOffset, FetchOffset+1, ... in order, each with its true offset, timestamp, key and value, with no gap or duplicate, even while other goroutines post concurrently; the reported high watermark is the offset after the last returned record; a missing partition or an offset at/after the end yields no records and error 0.", "quantifier": "all logs of records below 2 GiB, fetch offsets >= 0, all schedules of concurrent posts", "why_tests_cant": "All interleavings of posts with the scan.", "anchors": ["fetch.go:fetchV2", "encoder.go:appendMessage"]}
{"id": "C22", "title": "Fetch respects the per-partition byte limit", "statement": "The message set returned for a partition never exceeds the requested PartitionMaxBytes and its declared size equals the number of bytes of the messages that follow. A record whose size is between 2 GiB and 4 GiB passes any limit: its size is computed in int32 and comes out negative.", "quantifier": "all logs of records below 2 GiB, all limits, all schedules", "why_tests_cant": "All record sizes and limits.", "anchors": ["encoder.go:appendMessage", "encoder.go:encodeMessageSetV1", "fetch.go:fetchV2"]}
{"id": "C23", "title": "When a Fetch is answered", "statement": "A Fetch is answered within a bounded number of its own steps and one 20 ms tick once every requested record fits its limit and a record is available, its MaxWaitMs has elapsed, or FinishRequests was called; it does not answer an empty result earlier. If at the moment it is taken up the records of a requested partition from the requested offset on do not all fit the byte limit, the Fetch is never answered under any later schedule, even after FinishRequests, and whatever else is wrong with the request (bytes after it, fewer partitions than topics).", "quantifier": "all logs of records below 2 GiB, limits, clocks, schedules of posts and cancellation", "why_tests_cant": "Non-termination and all schedules are beyond testing.", "anchors": ["fetch.go:51-151", "kafka-message.go"]}
{"id": "C24", "title": "Fetch of several partitions of one topic", "statement": "In the reply to a Fetch, all partitions listed under the k-th topic carry the data of the k-th partition of the whole request (flattened), so every partition gets its own data only if each topic lists exactly one partition; a request with fewer partitions than topics is never answered and ends the process where, and when, the reply would be made, and a negative fetch offset on an existing partition panics within a bounded number of steps.", "quantifier": "all requests and logs", "why_tests_cant": "All request shapes.", "anchors": ["fetch.go:51-151"]}
{"id": "C25", "title": "Message layout and CRC", "statement": "Each fetched message is laid out as offset, size, crc, magic 1, attributes 0, timestamp, key, value; its crc field is the CRC-32C of the bytes from magic to value, so changing any single byte there is detected; it does not depend on the offset. Its size field is 34+|key|+|value|, i.e. 12 more than the number of bytes following it.", "quantifier": "all records and offsets, all single-byte corruptions", "why_tests_cant": "All payloads.", "anchors": ["encoder.go:messageV1", "encoder.go:appendMessage", "encoder.go:crc"]}
{"id": "C26", "title": "Metadata reply", "statement": "Metadata answers every requested topic in request order, existing or not, with error 0 and the single partition 2 led by node 100, which is the only listed broker, at localhost and the server's port; it never creates topics and never depends on the store.", "quantifier": "all requests, all stores, all ports", "why_tests_cant": "All inputs and stores.", "anchors": ["metadata.go:metadataV1"]}
{"id": "C27", "title": "Group join never elects the client, and sync assigns everything to it", "statement": "JoinGroup always names a leader different from the member id it hands out; SyncGroup with no assignments returns an assignment which, read by the consumer protocol, lists every existing topic exactly once with every existing partition exactly once and nothing else; SyncGroup with assignments is rejected (process panic).", "quantifier": "all stores, all map iteration orders, all requests", "why_tests_cant": "All stores and iteration orders.", "anchors": ["join_group.go:joinGroupV1", "sync_group.go:syncGroupV0", "sync_group.go:makeMemberAssignment"]}
{"id": "C28", "title": "Read-only requests do not change the store", "statement": "Metadata, FindCoordinator, ApiVersions, JoinGroup, SyncGroup, LeaveGroup, Heartbeat, ListOffsets, Fetch and OffsetFetch leave all records and all observable offsets unchanged.", "quantifier": "all requests, all stores, all schedules", "why_tests_cant": "All histories.", "anchors": ["find_coordinator.go", "heartbeat.go", "leave_group.go", "metadata.go", "list_offsets.go", "fetch.go", "offset_fetch.go"]}
{"id": "C29", "title": "Consumer loop delivers every record exactly once, in order", "statement": "A client that repeatedly reads its group's offset, fetches from it, and commits the offset after the last record it got, receives over time exactly the records of the partition in posting order with no loss or duplicate, across any interleaved posts and across Restart; resetting the group offset with SetConsumerGroupOffset to k makes it receive again from record k.", "quantifier": "all post histories and all batch sizes", "why_tests_cant": "End-to-end over unbounded histories.", "anchors": ["fetch.go", "offset_commit.go", "offset_fetch.go", "kafka-mock.go:Restart"]}
{"id": "C30", "title": "Headers posted with ExtendedPost are not delivered", "statement": "The reply to any request is the same whatever headers records were posted with.", "quantifier": "all histories differing only in headers", "why_tests_cant": "A relational property over histories.", "anchors": ["datastore.go:postRecord", "encoder.go:messageV1"]}
{"id": "C31", "title": "Start/stop protocol", "statement": "Start panics exactly when the server is already started; RequestStop is idempotent and harmless before Start; FinishRequests before the first Start panics and otherwise cancels; after WaitForTermination returns, unless a Start overlaps it, the server is stopped and Start may be called again; when Restart returns the new server listens, and it keeps the data store; short of socket and protocol errors no sequence of calls ends the process, if wait groups release their waiters in one step (see C46 for what remains otherwise).", "quantifier": "all sequences of API calls", "why_tests_cant": "All call sequences.", "anchors": ["kafka-mock.go:Start", "kafka-mock.go:RequestStop", "kafka-mock.go:WaitForTermination", "kafka-mock.go:Restart", "kafka-mock.go:FinishRequests"]}
{"id": "C32", "title": "WaitForTermination waits for every connection", "statement": "WaitForTermination returns only when the accept loop and every client goroutine have finished; the wait counters never go negative and every accepted connection is counted until it is done, in every schedule.", "quantifier": "all schedules of accepts, disconnects, stop requests", "why_tests_cant": "All interleavings.", "anchors": ["kafka-mock.go:run", "kafka-mock.go:WaitForTermination", "kafka-client.go:handle"]}
{"id": "C33", "title": "A stop request is not lost", "statement": "If a RequestStop takes effect (sets the stopped flag) and no Start or Restart overlaps it, it closes the listener, cancels the lane, and the accept loop ends once the clients hang up: the system comes to rest within a bounded number of steps, with the server down and no call hanging. If RequestStop overlaps Start, the stop may be lost for good: the server keeps listening, no later stop has any effect, and WaitForTermination and Restart never end.", "quantifier": "all interleavings of Start, RequestStop and the accept goroutine", "why_tests_cant": "Depends on a narrow scheduling window.", "anchors": ["kafka-mock.go:Start", "kafka-mock.go:RequestStop", "kafka-mock.go:run"]}
{"id": "C34", "title": "The client table does not follow the connections", "statement": "A disconnect removes the table entry of the most recently accepted connection instead of its own; so the table of connected clients has been exact throughout a history iff only the most recently accepted connection ever disconnected in it.", "quantifier": "all sequences of connects and disconnects", "why_tests_cant": "All histories.", "anchors": ["kafka-mock.go:run (closure over cxnNumber)"]}
{"id": "C35", "title": "Data races", "statement": "Two operations on the mock race (touch the same memory without a common lock, one writing) exactly in these cases: ListOffsets against a post to the same partition, and SyncGroup against an operation that creates a topic or partition; every other pair of data-store operations is race free.", "quantifier": "all pairs of API operations and requests with all arguments", "why_tests_cant": "The race detector only sees executed schedules.", "anchors": ["list_offsets.go:listOffsetsV1", "sync_group.go:makeMemberAssignment", "datastore.go"]}
{"id": "C36", "title": "Posted byte slices are shared, not copied", "statement": "A Fetch delivers the content the caller's key and value slices have when the reply is encoded, with the checksum of the content they had when the record was picked up. So records are delivered as posted if the caller does not write to the slices; with the newer content and a correct checksum if it writes before the Fetch starts; and with a wrong checksum if up to four neighbouring bytes of the value are changed between the two readings. That the checksum always matches is refuted.", "quantifier": "all memories, all slices, all interleavings of caller writes, posts and steps of the Fetch", "why_tests_cant": "All aliasing patterns.", "anchors": ["datastore.go:postRecord", "encoder.go:appendMessage"]}
{"id": "C37", "title": "Graceful finish", "statement": "After FinishRequests, every complete request already received on a connection is still answered before the connection is closed; at most one read that was already in progress still delivers bytes on each connection and none does after it is closed; an idle connection closes as soon as its read times out; and no new connection is served.", "quantifier": "all buffered requests, all schedules", "why_tests_cant": "All schedules.", "anchors": ["kafka-client.go:handle", "kafka-mock.go:FinishRequests", "kafka-mock.go:run"]}
{"id": "C38", "title": "FindCoordinator, Heartbeat, LeaveGroup replies", "statement": "FindCoordinator always names node 100 at localhost and the server's port with error 0, consistent with the broker list in Metadata; Heartbeat and LeaveGroup always answer error 0, for any group or member.", "quantifier": "all requests and stores", "why_tests_cant": "All inputs.", "anchors": ["find_coordinator.go", "heartbeat.go", "leave_group.go"]}
{"id": "C39", "title": "Dispatch keys never collide", "statement": "The textual dispatch key of an (api key, version) pair determines the pair: two different pairs never share a handler entry, and the tables derived by parsing the text recover the pair.", "quantifier": "all pairs of integers", "why_tests_cant": "Infinite domain.", "anchors": ["api-keys.go:makeApiKey", "api-keys.go:initializeApis"]}
{"id": "C40", "title": "Legacy response writer", "statement": "The unused kafkaResponse writer agrees with the live encoder on integers, floats, UUIDs, strings that are present, bytes that are present, compact bytes and nil compact strings, and disagrees on every null string, null byte slice, present compact string, array and non-empty set of tagged fields. It panics exactly on values that are or contain another type. Read by the live decoder, null strings and bytes come out empty and a compact string loses its last byte. Its section of tagged fields is, byte for byte: twice the number of fields, then by ascending id twice the id, twice the length, the length again in four bytes, and the data (the doublings because unsigned numbers are written as signed ones).", "quantifier": "all values", "why_tests_cant": "All values.", "anchors": ["outbound-utils.go"]}
{"id": "C41", "title": "WaitGroup reuse panic", "statement": "RequestStop, WaitForTermination and Restart panic only if a Start or Restart overlaps them; WaitForTermination does panic (WaitGroup reused before Wait returned) when Start is called between the end of the accept loop and its own wake-up, if wait groups release their waiters in one step (see C46).", "quantifier": "all interleavings of API calls, connections and the accept loop", "why_tests_cant": "Needs a preemption inside sync.WaitGroup.Wait.", "anchors": ["kafka-mock.go:WaitForTermination", "kafka-mock.go:Start", "kafka-mock.go:RequestStop"]}
{"id": "C42", "title": "Critical sections are atomic", "statement": "Whatever the interleaving of the single memory accesses of concurrent API calls and requests, the data store is always in a state that is also reached by running whole critical sections (Lock to Unlock) one after the other, each goroutine in program order; in particular no update is lost, although ListOffsets and SyncGroup read without a lock.", "quantifier": "all stores, all sets of concurrent operations (any number), all interleavings of single accesses, every moment of the run", "why_tests_cant": "the number of interleavings of single accesses is unbounded; a test only sees the few schedules the runtime happens to choose", "anchors": ["datastore.go:50-130", "kafka-mock.go:96-106", "kafka-mock.go:181-200", "offset_commit.go:46-79", "offset_fetch.go:41-75", "fetch.go:60-96", "list_offsets.go:47-91", "sync_group.go:56-67"]}
{"id": "C43", "title": "Data-store operations never deadlock", "statement": "A goroutine that is waiting for a data-store mutex waits for one whose holder can go on: no goroutine ever waits while holding a mutex, there is no endless run of the operations, and when nothing can move every operation is over and every mutex is free. The one exception is a Fetch of a negative offset, which panics while holding the partition's mutex.", "quantifier": "all stores, all sets of concurrent operations, all interleavings", "why_tests_cant": "a deadlock shows only under particular schedules; absence of deadlock is a statement about all of them", "anchors": ["datastore.go:50-130", "offset_commit.go:46-79", "fetch.go:78-120"]}
{"id": "C44", "title": "bufio shows exactly the message and passes on exactly what was written", "statement": "Reading a message through the 4096-byte buffer of bufio.Reader, each Peek(n) returns the next min(n, 4096, bytes left) bytes after those discarded so far and succeeds iff that is n bytes and n is not negative; each Discard moves forward by n, at most to the end. Writing through bufio.Writer and flushing yields exactly the concatenation of the writes. No call panics or loops for ever, whatever the sizes.", "quantifier": "all messages, all sequences of Peek, Discard, Write and WriteByte calls with any sizes", "why_tests_cant": "the buffers slide, refill and flush at boundaries that depend on the whole history of calls; tests use messages far below 4096 bytes", "anchors": ["kafka-client.go:133", "kafka-client.go:165-166", "kafka-client.go:214-235", "inbound-utils.go:37-46", "decoder.go:15-60", "encoder.go:246-300", "encoder.go:467-473"]}
{"id": "C45", "title": "The server does not end under a request, and ends when the clients hang up", "statement": "Serving and starting/stopping put together: each part behaves as its own properties say, and connections see the lane of the server that accepted them. Unless the process crashed: when a WaitForTermination gets through its wait, when the server is down or a new one is made, every connection ever let in is closed, every request sent on it in full has been answered (no write having failed), and nothing happens on it any more. From taking up a request until its reply is written the server does not end; so one Fetch request whose next record does not fit makes every WaitForTermination wait for ever, RequestStop or not. If no request is in hand, the clients hanging up suffices for everything to come to rest without a crash.", "quantifier": "all interleavings of API calls, start/stop goroutines, connections, clocks, clients and socket failures; all requests", "why_tests_cant": "it joins the order of deferred functions, wait groups and lanes with the state of each connection at that moment; tests stop an idle server", "anchors": ["kafka-mock.go:47-92", "kafka-mock.go:109-165", "kafka-client.go:85-142", "fetch.go:60-120"]}
{"id": "C46", "title": "Wait groups taken apart", "statement": "With sync.WaitGroup modelled access by access (counter, waiter count, semaphore; the look again, the store of zero and the releases inside Done as separate steps): if no Start or Restart overlaps a RequestStop, WaitForTermination or Restart, no wait group reports misuse, every trace is one of the coarser machine, the process ends by socket and protocol errors only and no waiter is left asleep; conversely every trace of the coarser machine occurs. If a Start does overlap a waiting WaitForTermination, the process may end with a misuse panic, or the Start panics and leaves a mock that counts as started without a server and that no later call can start.", "quantifier": "all interleavings of API calls, connections, the accept loop and the steps inside the wait groups", "why_tests_cant": "Needs preemptions inside sync.WaitGroup.Done and Wait.", "anchors": ["kafka-mock.go:Start", "kafka-mock.go:run", "kafka-mock.go:WaitForTermination", "kafka-mock.go:Restart"]}
{"id": "C47", "title": "What kafkaClient.Close would do", "statement": "If kafkaClient.Close is called on a connection (nothing in the repository does), the rest of the server goes on as before. When Close returns, the connection's goroutine has ended and nothing more is read from, started on or written to the connection. Once Close has set its stopping flag no byte read is kept, but every complete request already in the buffer is still started. If there is none at that moment, no other request is started, Close does not panic, and when it returns every request has been answered in full. If there is one, three things its comments rule out can happen: work on it starts, the wait for in-flight requests panics (wait group reused) and ends the process, or the socket is closed between two writes of its reply. Close never sleeps for nothing: once no request is in progress or buffered it can return.", "quantifier": "all executions of the server with any number of concurrent calls of Close on a connection, all schedules, all request contents and chunkings", "why_tests_cant": "The outcomes depend on where Close falls between steps of the connection's goroutine; the windows (between a Done and the next Add, between two writes) are microseconds wide.", "anchors": ["kafka-client.go:78-140", "kafka-client.go:142-158", "kafka-client.go:238-259", "net-utils.go:11-29"]}
{"id": "C48", "title": "Which socket errors end what", "statement": "Every error value that Read on a connection can return, however nested, is dealt with in exactly one of three ways: if a passed deadline (os.ErrDeadlineExceeded) is anywhere in it the goroutine goes on; otherwise, if io.EOF or net.ErrClosed is anywhere in it, or it is exactly an OpError of a SyscallError of ECONNRESET, the connection's goroutine ends; otherwise the whole process ends. The store, the callers and other connections are left as they were. Of the errors TCP's Read returns, every errno but ECONNRESET ends the process (for example ETIMEDOUT, when a client vanishes); a reset wrapped once more is not recognised. The accept loop is left for the same errors that end a connection and panics otherwise. A reply that cannot be written ends the process exactly when the socket can be examined and peeking at its input gives an error; otherwise the rest of the reply is dropped and the connection goes on.", "quantifier": "all error trees, all server states with the connection in Read or writing, all errno values", "why_tests_cant": "Most of these errors need a failing network or kernel to be produced; the error trees are unbounded.", "anchors": ["net-utils.go:11-29", "kafka-client.go:105-119", "kafka-client.go:236-258", "kafka-mock.go:128-136"]}
{"id": "C49", "title": "Data races of starting and stopping", "statement": "Of the plain fields Start, RequestStop, WaitForTermination, FinishRequests, Restart, the accept loop and the connection callbacks share, the table of connections and the connection numbers never race. A race on km.l or km.cancelFn is between a Start or Restart that makes its lane and an overlapping call other than Start; a race on km.listener is between a call and the accept loop of a server made by a Start or Restart that overlaps this call. So there is none if no Start or Restart overlaps another call. Both kinds do occur otherwise (FinishRequests during Start; RequestStop between started.Swap and initializing.Add of Start). What each operation is taken to touch is all that its step reads or writes: a step changes no other field, and does the same whatever another field contains.", "quantifier": "all interleavings of API calls, connections and the accept loop", "why_tests_cant": "A race detector only reports races of schedules that happen; the ones here need RequestStop inside a few instructions of Start.", "anchors": ["kafka-mock.go:Start", "kafka-mock.go:RequestStop", "kafka-mock.go:run", "kafka-mock.go:WaitForTermination", "kafka-mock.go:FinishRequests"]}
{"id": "C50", "title": "Reading without the lock", "statement": "ListOffsets and SyncGroup read the data store without its lock. With the server going on between any two of their accesses: neither indexes out of range; the answer of ListOffsets by time or for the earliest offset is right for the log as it was at one moment between its begin and its end; for the latest offset, offset and time are each right at some such moment, but not always at the same one; an assignment of SyncGroup has each topic and partition there was at the beginning, none that is not there at the end, and none twice, but it need not be right for any one moment. (Assumed: a read sees the latest write, and the Go runtime does not notice the concurrent map access, which would end the process.)", "quantifier": "all schedules of a server and one reader, all reachable data stores, all map iteration orders", "why_tests_cant": "The results depend on writes that fall between two instructions of the reader.", "anchors": ["list_offsets.go:listOffsetsV1", "sync_group.go:makeMemberAssignment"]}
{"id": "C51", "title": "Memory set aside for requests", "statement": "Before it reads the elements of an array the decoder sets aside room for as many as the count on the wire says. For a value that is decoded, of any type, the room is exactly the lengths of its slices. A request the server goes on with was given room for no more elements than the message has bytes. For any message at all, all but two of the slices together have no more elements than the message has bytes, and the other two less than 2^31 each; this is reached: a Metadata request of 14 bytes gets room for any n < 2^31 strings (16 bytes each), and an OffsetFetch request of 22 bytes for any n topics and m partitions. (Such requests then fail, which ends the process, C11.)", "quantifier": "all messages; all types and inputs for the first part", "why_tests_cant": "The counts range over 2^31 values, and the tests only send what a well-behaved client sends.", "anchors": ["decoder.go:peekObjectFixedArray", "decoder.go:peekObjectVarArray", "decoder.go:peekObjectCompactVarArray"]}
{"id": "C52", "title": "Clients of a consumer group that stop and start", "statement": "Any number of clients of one group ask for the group's offset on a partition, fetch from it and commit the offset behind the batch; each may stop at any point, on any connection, across posts and restarts. As long as the group's offset is moved only by commits of what somebody has received before, it never goes back, each batch holds the records from its offset on, and every record the offset has passed has been received by somebody. A record may be received twice (a client that stops before it commits).", "quantifier": "all executions, any number of clients and connections", "why_tests_cant": "All interleavings of all clients, with unbounded histories.", "anchors": ["offset_commit.go:offsetCommitV2", "offset_fetch.go:offsetFetchV1", "fetch.go:fetchV2"]}
{"id": "C53", "title": "The same request written differently", "statement": "A string of a request may be written with any negative length (null). A well-formed request with such strings is treated like the one in which every null string has length 0 (where the request holds a plain string) or -1 (where it holds a nullable one): for every execution in which a connection takes up the first, there is one, the same but for the bytes of this request, in which it takes up the second, and the state of the server afterwards is the same. So the replies to all eleven APIs are the stated ones for every well-formed request (and a SyncGroup request with assignments, however written, ends the process).", "quantifier": "all executions, all well-formed requests", "why_tests_cant": "Every string of every request has 32768 ways to be null, in every state of the server.", "anchors": ["decoder.go:peekNullableData16", "kafka-client.go:dispatcher", "inbound-utils.go:readRequest"]}
{"id": "C54", "title": "Connections that only read are not noticed", "statement": "A connection affects others only by committing offsets or by bringing the process down. For every execution and every set of connections that do neither in it, there is an execution in which these connections are sent nothing, everyone else does the same things in the same order, and everything else observed (all replies to others, all calls, records, offsets, closings) is the same. Two executions without Restart in which only such connections behave differently look the same to all others.", "quantifier": "all executions, all sets of connections, all requests and schedules", "why_tests_cant": "It compares pairs of executions, for every interleaving and every behaviour of the reading connections.", "anchors": ["datastore.go:groupCommittedOffset", "kafka-client.go:handle", "offset_fetch.go", "fetch.go", "list_offsets.go", "sync_group.go"]}
{"id": "C55", "title": "A request that names several partitions is not a snapshot", "statement": "ListOffsets, OffsetCommit and OffsetFetch look at the partitions a request names one after the other: each entry of the reply is right at a moment of its own between taking up the request and the reply, and these moments follow the order of the request (for OffsetFetch, of the reply); an OffsetCommit commits the entries one by one in this order. So a partition listed twice is not reported shorter the second time. The entries need not be right at one moment: a ListOffsets can show one partition before a post and the next after a later one.", "quantifier": "all executions, all requests, all interleavings with posts, commits and other requests", "why_tests_cant": "The interleaving between two entries of one request is not under a test's control.", "anchors": ["list_offsets.go", "offset_commit.go", "offset_fetch.go"]}
{"id": "C56", "title": "Partition numbers given to the API count modulo 2^32", "statement": "SimplePost, ExtendedPost, CreatePartitionTopics and SetConsumerGroupOffset take the partition as an int and convert it with int32(partition), without a check. Two executions whose calls differ only in that partition numbers differ by multiples of 2^32 are the same in everything observable (store, replies, crashes); numbers that differ otherwise are told apart.", "quantifier": "all executions, all schedules, all 64-bit partition numbers", "why_tests_cant": "Tests use small partition numbers; that nothing else in the program sees the high bits is a statement about all later requests.", "anchors": ["kafka-mock.go"]}
{"id": "C57", "title": "Decoded byte strings that are parts of the read buffer", "statement": "The two nullable byte types and the tags the decoder does not know are handed out as slices of the bufio buffer, everything else is copied. Running the decoder on the real sliding buffer: (1) an object of a type without nullable byte strings is decoded exactly as the bytes not yet discarded say, and what was decoded never changes whatever the buffer holds later; every request type of the mock is of this kind, so header, client id and body of every request the mock reads are exactly those of the message. (2) An object of any type, and the tags of a header, decoded before anything was discarded stay right however much is peeked at afterwards. (3) In every other case only the contents of those byte strings can be wrong, never the outcome, the end position, other parts, or lengths. (4) They can be wrong: a request type with a compact nullable byte string after the 10-byte header would show the handler other bytes than the client sent, and the tags of a header are no longer what was sent once a Metadata request of more than 4096 bytes has been read.", "quantifier": "all types of the codec, all messages, all sequences of Peek and Discard calls before, all Peek calls after (or all later buffer contents); (4) is existential", "why_tests_cant": "The tests decode from readers from which nothing was discarded and compare at once; whether a slice is overwritten depends on header length, body length and which later field happens to peek past the end of what is buffered.", "anchors": ["decoder.go:72-92", "decoder.go:164-184", "decoder.go:186-229", "inbound-utils.go:35-50", "kafka-client.go:164-214"]}
{"id": "C58", "title": "Types and values only one half of the codec handles", "statement": "For every value of every type the switches know, the encoder panics exactly if the value contains a fixed array, a named byte slice with a tag or behind a pointer, a string both compact and nullable, or a nil pointer to something other than a string. The decoder accepts some input for a type exactly if the type is not a message set, a pointer to something other than a struct, a struct with a fixed-array field or with a field of such a type, and its smallest value fits the 4096-byte window. A fixed array outside a struct is read as a compact slice of any length. An int32, int, int64, uint32, uint, uint64 or string in a field tagged compact, and CompactBytes, are never read back, whatever the value and whatever surrounds it. Of a Go int or uint the low 32 bits arrive.", "quantifier": "all types of the codec, all values, all surrounding bytes", "why_tests_cant": "That no value at all of a type survives, or that no input at all is accepted, is a claim about infinitely many byte strings; a compact int64 needs an argument about all 2^64 values.", "anchors": ["encoder.go:encodeObjectWorker", "encoder.go:targetType", "decoder.go:peekObjectWorker", "decoder.go:peekObjectStruct", "decoder.go:peekObjectFixedArray"]}
{"id": "C59", "title": "Times in the log", "statement": "A record of SimplePost carries a time the wall clock showed between the call and the moment the record entered the log. If the clock never goes back, no record posted by SimplePost lies in the future, a post that had returned when another was made precedes it in the log with a time not later, and a partition written only by SimplePosts made one after the other has its log in time order, so that ListOffsets finds exactly the first record at or after the time asked for. Answers are exact for every time if and only if the log is in time order. SimplePosts that overlap can leave the log out of time order even with a clock that only goes forward, because the time is taken before the partition is locked; so can a clock set back.", "quantifier": "all runs, all schedules of calls and connections, all movements of the clock, all times asked for", "why_tests_cant": "The order of the times depends on how concurrent posts interleave with the clock; a test sees one schedule and the repository's tests only post one after the other.", "anchors": ["kafka-mock.go:SimplePost", "kafka-mock.go:ExtendedPost", "datastore.go:postRecord", "list_offsets.go:listOffsetsV1"]}
{"id": "C60", "title": "What the records say steers nothing", "statement": "Take two histories of calls, connections, requests and clock that agree except that the posts of the second carry other key bytes and value bytes of the same lengths, other headers and other times, and its wall clock shows other values. Then the same things happen in the same order in both: the same requests are taken up, the same offsets are committed, the same calls return, the same connections close, the same panics happen, and every write has the same length; every write that does not answer a Fetch or a ListOffsets has the same bytes. In particular a client that sends neither cannot tell the two apart, and the mock neither crashes nor stalls because of what a record says. The lengths do matter: one value longer by some bytes can leave a Fetch unanswered.", "quantifier": "all pairs of histories that agree in schedule, requests and lengths; all record contents, headers, times and clocks", "why_tests_cant": "It compares pairs of runs over all record contents; a test posts a few fixed keys and values and sees one run at a time.", "anchors": ["fetch.go:fetchV2", "encoder.go:appendMessage", "list_offsets.go:listOffsetsV1", "datastore.go:postRecord", "kafka-mock.go:ExtendedPost"]}
{"id": "C61", "title": "Several mocks in one process", "statement": "The tables of handlers and of advertised versions are global to the process and are filled in by whichever NewKafkaMock comes first. However many goroutines call NewKafkaMock, in whatever interleaving, no two accesses to the tables race, neither among the callers nor with requests that mocks already made are serving; whoever has a mock finds both tables complete; they never change afterwards; every mock answers ApiVersions with the same bytes; and each caller can always still get its mock. The advertised versions come out right because no API key has two versions in the table: for any table, in any iteration order, each key is advertised with exactly one of its versions, so the advertised ranges cover the table if and only if no key occurs twice; with two versions of a key the iteration order of a Go map decides which one is advertised.", "quantifier": "all numbers of callers, all interleavings, all iteration orders; all tables of API keys and versions", "why_tests_cant": "The repository's tests make their mocks one after the other with the one table there is; races, iteration orders and tables with more versions do not occur in them.", "anchors": ["api-keys.go:initializeApis", "api-keys.go:apiVersions", "api-keys.go:apiTable", "api_versions.go:apiVersionsV0", "kafka-mock.go:NewKafkaMock"]}
{"id": "C62", "title": "Which damage the checksum of a message shows", "statement": "If the part of a fetched message that its crc field covers is altered without changing its length, the field no longer matches whenever an odd number of bits is flipped, or all flipped bits lie within 32 consecutive bits, or one to three bits are flipped anywhere (messages of at most 256 MB). These bounds are sharp: in every message some damage spread over 33 consecutive bits goes unnoticed, and in every message of at least 676 bytes some four flipped bits do.", "quantifier": "all records, all offsets, all damaged texts of the same length", "why_tests_cant": "All messages and all combinations of flipped bits; that two flipped bits never cancel rests on 2^31-1 being prime.", "anchors": ["encoder.go:messageV1", "encoder.go:appendMessage", "encoder.go:crc", "encoder.go:484"]}
{"id": "C63", "title": "What a connection keeps in memory", "statement": "The bytes a connection has read and not yet taken up are never many: while a request is being served they are at most 8191, and at any time they are fewer than the length announced by the frame they begin with plus 4 plus one Read of 8192. And the reply to a Fetch is never longer than the request allows for: per partition the largest byte limit named in the request (plus 18), per topic its name (plus 6), plus 16. Both bounds on bytes are reached.", "quantifier": "all executions, all connections, all splittings of the input into Reads; all Fetch requests in the written form (at least one partition in all for each topic named on average, offsets not negative) and all states in which they are served, records under 2 GiB", "why_tests_cant": "All interleavings and all splittings of the stream; all histories of the store behind a Fetch.", "anchors": ["kafka-client.go:handle", "inbound-utils.go:getMessage", "encoder.go:appendMessage"]}
{"id": "C64", "title": "A Read that times out is not noticed", "statement": "The one-second deadline on Read only serves to stop: whatever the mock does in an execution (requests taken up, bytes written, what calls do, what is stored), it does as well in an execution with the same calls, clients, clocks and stops in which no Read times out, except after the mock was told to stop, and then the connection is closed at once. In particular a time-out in the middle of a request loses none of the bytes read so far.", "quantifier": "all executions: all interleavings of all connections and calls, all points at which Reads time out", "why_tests_cant": "Time-outs can fall between any two bytes of any request and between any two steps of the other goroutines.", "anchors": ["kafka-client.go:handle", "kafka-client.go:104-115"]}
{"id": "C65", "title": "The reply to a Fetch is a snapshot", "statement": "Although Fetch looks at the partitions one after the other without holding a lock over them, its reply is a snapshot: there is one moment between taking up the request and the reply at which every requested partition held, from its fetch offset on, exactly the records returned for it. So of two records posted one after the other, to whatever partitions, the second is not returned in a reply that stops short of the first. (The handler goes round until a whole round finds nothing new; ListOffsets, C55, has no such moment.) Exempt are partitions that did not exist when the request was taken up: for them nothing may be returned, and then there need not be such a moment.", "quantifier": "all Fetch requests in the written form with offsets from 0 on and at least as many partitions as topics, all states in which they are served, all interleavings with posts, other connections and clocks, records under 2 GiB", "why_tests_cant": "The posts can fall between any two looks at any two partitions in any round.", "anchors": ["fetch.go:fetchV2", "fetch.go:77-121", "kafka-mock.go:SimplePost"]}
{"id": "C66", "title": "Replies show at least what was there before", "statement": "A reply does not lag behind the store. For partitions that existed when the request was taken up, a Fetch comes past every record posted by then, a ListOffsets for the latest offset counts every one of them, and an OffsetFetch gives an offset at least the one the group had, unless SetConsumerGroupOffset was called for it in the meantime. A Fetch taken up after another Fetch has been answered, on the same or another connection, does not stop short, for any partition of which the first returned records, of where the first one stopped.", "quantifier": "all requests in the written form (Fetch: offsets from 0 on, at least as many partitions as topics, records under 2 GiB), all states in which they are served, all interleavings with posts, other connections, API calls and clocks", "why_tests_cant": "A stale read shows only under particular interleavings of the posting goroutine with two handlers.", "anchors": ["fetch.go:fetchV2", "fetch.go:77-121", "list_offsets.go:listOffsetsV1", "offset_fetch.go:offsetFetchV1", "kafka-mock.go:SimplePost"]}
{"id": "C67", "title": "What one reply said later replies do not take back", "statement": "Clients that ask one after the other, on the same or on different connections, get replies that fit together. Once a ListOffsets reply has given the end of a partition, a ListOffsets taken up later finds that partition and gives no lower end, and a Fetch taken up later does not stop short of it. Once SimplePost or ExtendedPost has returned, every Fetch taken up later that starts at or before the place of its record gives that record, with its key, value and timestamp, at that place. Once an OffsetCommit reply has acknowledged an offset, an OffsetFetch of the same group taken up later has an entry for that partition and gives no lower offset, unless SetConsumerGroupOffset was called for it since the commit was taken up. Once CreatePartitionTopics has returned, a ListOffsets taken up later knows the partitions it made. Once SetConsumerGroupOffset for a partition that existed has returned, an OffsetFetch of that group taken up later gives exactly the offset set, unless a commit or another call moved it since.", "quantifier": "all requests in the written form (Fetch: offsets from 0 on, at least as many partitions as topics, records under 2 GiB), all pairs of connections, all states and all interleavings with posts, other connections, API calls and clocks", "why_tests_cant": "The second request may come at any later moment, on any connection, with anything in between.", "anchors": ["list_offsets.go:listOffsetsV1", "fetch.go:fetchV2", "offset_commit.go:offsetCommitV2", "offset_fetch.go:offsetFetchV1", "datastore.go:groupCommittedOffset", "kafka-mock.go:SimplePost", "kafka-mock.go:ExtendedPost", "kafka-mock.go:CreatePartitionTopics", "kafka-mock.go:SetConsumerGroupOffset"]}
