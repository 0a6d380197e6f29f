# Formal model of jimsnab/kafka-mock-go in Rocq (Coq 8.16.1)

The properties are in `properties.jsonl`, their status in `MANIFEST.json`. All
Coq files are in `rocq/theories`; build with
`cd rocq && coq_makefile -f _CoqProject -o Makefile && make -j4`.

## What is trusted

1. Coq's kernel. The proofs use `vm_compute` (part of the kernel) for examples
   and for facts about fixed tables; `native_compute` is not used.
2. No axioms. `Print Assumptions` stands beneath every property theorem in the
   `Props*.v` files and prints `Closed under the global context` for each one
   of them. (stdpp loads ssreflect, whose `Under_rel` module has opaque
   parameters; `coqchk` lists them, no theorem uses them.)
3. That the model says what the code does. Every definition of a model file
   names the file and lines in `/repo` it transcribes. The sections below list
   what is transcribed, what is simplified, and what is left out.
4. That a property theorem says what its English text says. The words used in
   the statements are defined in the `*Spec.v` files, apart from the model
   files' own state and event types.

## Files

| model file | what it models |
|---|---|
| `GoBase.v` | Go integer conversion, big-endian get and put, `Peek`/`Discard` on the bytes left |
| `BufioReader.v`, `BufioWriter.v` | the buffers of `bufio.Reader` and `bufio.Writer` (Go library), proved to behave as `GoBase.v` and the encoder assume |
| `Codec.v` | `encoder.go`, `decoder.go`: a deep embedding of the reflect types and values, `enc_ty`, `dec` |
| `Crc.v` | `hash/crc32` with the Castagnoli table |
| `Store.v` | `datastore.go`: topics, partitions, records, group offsets |
| `Api.v` | request and response types, the replies, `api-keys.go` |
| `Server.v` | the running process: API calls by the test program, connection goroutines (`kafka-client.go`, `kafka-message.go`, `inbound-utils.go`), handlers in progress, clocks, cancellation |
| `Lifecycle.v` | `kafka-mock.go`: Start, RequestStop, WaitForTermination, FinishRequests, Restart, the accept loop, wait groups, the client table |
| `LifeMem.v` | the plain fields of `KafkaMock` and who touches them at which operation of `Lifecycle.v`; races, overlapping calls; states that differ in one field (`LifeFoot.v` checks the accesses against the steps) |
| `WaitGroups.v` | the machine of `Lifecycle.v` with `sync.WaitGroup` (Go library) access by access |
| `Closing.v` | `kafkaClient.Close` beside the machine of `Server.v` |
| `Whole.v` | the two machines `Server.v` and `Lifecycle.v` run side by side |
| `Unlocked.v` | ListOffsets and SyncGroup one access at a time, beside the machine of `Server.v` |
| `Alloc.v` | the room the decoder sets aside for arrays |
| `Views.v` | the decoder on the reader of `BufioReader.v`; results that are parts of its buffer |
| `Apis.v` | `NewKafkaMock` in several goroutines: the global tables of `api-keys.go`, one access at a time; races on them |
| `Race.v` | the data-store operations one memory access at a time |
| `Alias.v` | a Fetch that shares slices with the caller |
| `Legacy.v` | `outbound-utils.go` |
| `NetErrors.v` | `net-utils.go`, `isConnected`, what is done with errors of Read, Write and Accept |

| specification file | words defined there |
|---|---|
| `CodecSpec.v`, `WireSpec.v` | the wire grammar, well-formed values |
| `CrcSpec.v` | CRC-32C as polynomial division |
| `ShapeSpec.v` | well-formed and malformed requests |
| `ViewsSpec.v` | types all of which is copied; a request as the message gives it and as it is seen later |
| `DisagreeSpec.v` | values the encoder panics on, types the decoder never accepts, least sizes, misread values |
| `TimeSpec.v` | clocks that only go forward, posts one by one, logs in time order |
| `InertSpec.v` | pairs of histories that differ in what the records say |
| `DetectSpec.v` | flipped bits between two messages; the part the checksum covers; the check a reader makes |
| `HeldSpec.v` | having taken up a request since the last Read; the room a Fetch request allows its reply |
| `IdleSpec.v` | events that are not of one connection; time-outs of Read that only let a connection be closed |
| `SnapSpec.v` | a Fetch result that is exactly what a partition held after some observations; one moment for all of a reply |
| `SeenSpec.v` | replies that show at least what was there when the request was taken up; a later Fetch that shows no less than an earlier one |
| `ThenSpec.v` | what a ListOffsets or OffsetCommit reply says, and later replies that agree with it |
| `OddSpec.v` | requests that differ in how null strings are written |
| `UnseenSpec.v` | connections that only read; traces and events without them |
| `TurnSpec.v` | when the entries of a reply are right, in order |
| `StreamSpec.v` | frames in a byte stream, replies in order |
| `TraceSpec.v`, `CallSpec.v` | logs, offsets and effects, read off the observations |
| `ReplySpec.v` | the contents of the replies |
| `ConsumerSpec.v`, `GroupSpec.v` | the consuming client; the clients of a group |
| `HeaderSpec.v` | runs that differ in headers only |
| `PartSpec.v` | runs that differ in how partitions are numbered |
| `LifeSpec.v` | up, gone, overlapping, at rest |
| `WaitSpec.v` | calls kept apart; what is seen of a run of `WaitGroups.v` |
| `CloseSpec.v` | a connection that has caught up; what the server observes while Close runs |
| `NetSpec.v` | errors within errors |
| `WholeSpec.v` | the parts of a joint execution, hanging up |
| `RaceSpec.v`, `AtomSpec.v` | races, critical sections, waiting |
| `AliasSpec.v`, `LegacySpec.v` | sharing; the live encoder's bytes for a legacy value |

`Props*.v` contain the property theorems and their examples, nothing else; a
theorem name begins with the numbers of the properties it belongs to. All other
files are proofs.

## Concurrency

`Server.v` is a small-step machine; the list of events is the scheduler, so a
statement about all event lists is one about all schedules. A step does at most
one critical section, clock read, cancellation check, socket read or socket
write. That critical sections may be taken as one step is proved (C42, from
`Race.v`, whose steps are single memory accesses). Exceptions, where the code
holds no lock, are listed under simplifications.

`Lifecycle.v` is a second machine, of the goroutines that start and stop the
server; one step is one access to a flag, wait group, mutex, listener or lane.
`WaitGroups.v` refines it: there a Done that releases waiters takes several
steps. C46 says when the two machines agree, and what happens when they do not.

`Whole.v` joins the two: they share the lane, the connections the accept loop
lets in, the client goroutines and crashes. In it `Server.v`'s Restart is the
step of Start or Restart that makes a lane, and that it is possible then is
proved (C45), as is that each part is an execution of its own machine.

## Simplifications

- `int` is 64 bits; lengths stay below 2^63. Memory never runs out; the
  up-front allocation a decoded length asks for always succeeds (C51 says how
  large it is, in elements).
- Map iteration order is an arbitrary order, chosen anew at every iteration.
- `Server.v`: SyncGroup reads the maps of topics and partitions in one step, and
  ListOffsets reads a partition's records in one step. The code does so without
  a lock, and this is where the data races are (C35). C50 says what they find
  then: in `Unlocked.v` each access is a step, and an iteration over a map sees
  what the Go specification allows. There, too, a read sees the latest write, and
  the Go runtime does not notice a map written while it is read (if it notices,
  the process ends).
- `Server.v`: a read returns at most 8192 bytes and at least one. Reading fails
  with a time-out, because the peer is gone, or otherwise, as the environment
  likes; so does a write, and `isConnected` answers as the environment likes.
- `Server.v`: Restart is one event, possible when all connections have ended.
- `Server.v`: an API call panics nowhere, and a panic of a connection goroutine
  ends the process (nothing in the repository recovers).
- `LifeMem.v`: a race is a state in which two goroutines may touch the same
  plain field next, one of them writing. Traces (reads of `km.l`) count as part
  of the operation after them. Fields only `NewKafkaMock` writes are left out.
  That callers order calls of which one returns before the other begins is
  assumed; accesses inside the lane library are not modelled.
- `Lifecycle.v`: an accepted connection is closed at once if the lane is
  cancelled; serving a client is one operation that ends when the environment
  says so (in `Whole.v`: when its connection is closed). A Done that brings its
  counter to zero releases the waiters in the same step; C46 proves that nothing
  is lost by this as long as no Start or Restart overlaps a call that waits.
- `WaitGroups.v`: Wait's load and compare-and-swap are one step; counters do not
  overflow.
- `Closing.v`: taking up a request and `requestWg.Add`, and the last write of a
  reply and `requestWg.Done`, are one step each; so is a Read with the look at
  `stopping` that follows.
- `Whole.v`: when a request panics all connections freeze, while the start/stop
  goroutines run on until the panicking goroutine has run its deferred functions.
- `Apis.v`: a race is a state in which two goroutines may touch the same table
  next, one of them writing; a goroutine that has its mock may read both tables
  at any time. `apiNames` and `apiHasTags` are never written and left out.
- `Race.v`: a Go map is one location; so are a slice header with its backing
  array, the fields of a record, and the fields of a partition set when it is
  made. Memory is sequentially consistent.
- `Alias.v`: one partition, one Fetch; copying one slice is one step.
- `NetErrors.v`: an error is a tree of what its Unwrap returns; `errors.Is` and
  the errors TCP's Read returns were written from the Go standard library, which
  is not in the repository.

## Not modelled

- Tracing and logging (`lane`), error texts, `apiNames` beyond the dispatch key.
- Sockets beneath Read and Write. How the errors they return are classified is
  in `NetErrors.v` (`net-utils.go`, `isConnected`); typed nil pointers as errors
  and the side effects of `File` and `Fd` in `isConnected` are not.
- The Go memory model beyond sequential consistency and races; the garbage
  collector; goroutine stacks.
- Code nothing in the repository calls: the `latency` hook (a delay),
  `kafkaField` for tags on structs. `peekTags` and `encodeTags` are modelled
  although no request has tags, and so is `kafkaClient.Close` (`Closing.v`,
  apart: in all other files nobody calls it and `stopping` is never set).

## Method

Each model definition was written from the code and read against it again;
`Vectors.v` runs the assertions of `encoding_test.go` and `kafka-mock_test.go` on
the model. Each
property was first written down (`properties.jsonl`), then stated in Coq without
the model's helper functions, then proved. Where a first text was false of the
model the text was corrected, and the failure is now what the property says
(for example C23, C24, C33, C36). Theorems are mutation-tested: the model is
changed so that the English claim becomes false, and the theorem must fail;
`seeded/LOG.jsonl` has one line for each attempt.
