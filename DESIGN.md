# Formal model of trpc-cpp in Rocq (Coq 8.16.1)

Source modelled: `/repo` (trpc-group/trpc-cpp), read as text. Everything lives in
`rocq/theories`, logical prefix `Verif`, standard library only.

## Layout

Each modelled component is a directory `theories/<Component>/` with

* `Model.v`  – the code, function by function, as total computable Gallina functions or
  (for concurrent code) a step relation whose steps are the atomic accesses of the C++.
  Every definition cites the file and lines it transcribes, and says what is simplified.
* `Spec.v`   – the independent specification (byte strings, lists, counting, multisets…);
  it does not mention the model's helpers.
* `Proofs.v` – lemmas.
* `Props.v`  – only the property theorems (each closed by `exact lemma`), the concrete
  `Example`s showing that the hypotheses are met by a non-trivial case, and
  `Print Assumptions` for each theorem.

Theorem names start with the property id (`C05_framing_chunk_independent`).  A theorem
ending in `_refuted` exhibits a concrete input/schedule for which the English claim is
false of the code (a finding).  A theorem ending in `_partial` proves less than the claim;
the comment next to it keeps the full statement and says what is missing.

## Trusted base

* Coq's kernel (8.16.1) and the checker run by `vcheck`; no plugins, no native compute.
* What `Print Assumptions` lists for each theorem: see the table at the end of this file.
* The hand transcription C++ → Gallina.  Citations are in the comments.
* Conventions shared by all models:
  * bytes are `Z`/`N` values in `[0,256)` or Coq `Byte`/`Ascii`; machine integers are `Z` with the wrap written
    explicitly where the C++ type can wrap; C++ undefined behaviour (out-of-range reads,
    signed overflow where it matters) is a distinct outcome of the model, not a default value;
  * concurrent code is modelled as interleavings of atomic steps under sequential
    consistency.  Weak-memory reorderings permitted by the `memory_order` arguments are
    NOT modelled;
  * plain library code (std::string, std::vector, std::map, std::multimap, std::mutex,
    protobuf serialisation) is modelled by its specification, not its implementation;
  * memory allocation never fails.

## Plan per property

| id | modelled | how it is proved |
|----|----------|------------------|
| C01 | `TrpcFixedHeader::Encode/Decode` over a list-of-blocks buffer | big-endian digit lemmas; round trip both ways |
| C02 | `TrpcRequestProtocol::ZeroCopyEncode/ZeroCopyDecode`; the pb header is an abstract record with a serializer/parser pair assumed only to be inverse (Section variables, discharged with a concrete instance) | computation over byte strings |
| C03 | same for the response | same |
| C04 | same with the 16/32-bit truncations | false as stated: `_refuted` with a 65536-byte pb header; positive theorem with the bound |
| C05 | `CheckTrpcProtocolMessage` + append-on-read connection loop | induction over reads and frames, prefix lemma |
| C06 | same | loop invariant |
| C07 | stream frame codecs | as C02 |
| C08 | `NoncontiguousBuffer` as list of blocks + total size | refinement to byte strings, induction over ops |
| C09 | `NoncontiguousBufferBuilder` | invariant flushed ++ current = appended |
| C10 | Boyer–Moore searcher with its tables | loop invariant "no occurrence before i"; shift lemmas |
| C11 | `FlattenSlow*` | structural induction |
| C12 | zero copy streams | invariant over call sequences |
| C13–C14 | redis `Reader` state machine (9-slot stack) | simulation against a recursive RESP grammar |
| C15 | redis request encoder | independent RESP parser, round trip |
| C16 | percent codec | induction over the string |
| C17 | base64 codec incl. table index | round trip; UB outcome reachable: `_refuted` |
| C18 | `CaseInsensitiveLess`, FieldMap over an ordered multimap | strict weak order proof / refutation, refinement |
| C19 | routes/matchers | induction over the route list |
| C20 | `ParseUint` | digit induction |
| C21 | cookie serializer | false as stated: `_refuted` |
| C22 | SWRR `Next` | invariant c_i = t*w_i - W*n_i, sum 0, c_i > -W |
| C23 | polling `Next` as fetch_add steps | residues of consecutive integers; wrap `_refuted` |
| C24 | consistent hash ring | finite map lemmas; collisions `_refuted` |
| C25 | token bucket | potential argument over admission times; wrap `_refuted` |
| C26 | seconds limiter, sequential and interleaved | invariant per bucket |
| C27 | hit queue + smooth limiter | invariant relating frames to history |
| C28 | retry limiter as atomic steps | invariant with pending subtractions |
| C29 | filter controllers | list reasoning |
| C30 | `BoundedQueue` ring | refinement to bounded list |
| C31 | Vyukov ring, any number of threads | step relation, inductive invariant |
| C32 | Chase–Lev deque (unbounded) and the bounded variant | inductive invariant; bounded variant `_refuted` |
| C33 | `RoundUpPowerOf2` loop | induction on exponent |
| C34 | timing wheel | invariant per level + queue semantics |
| C35 | FutureImpl with lock/flag steps | exhaustive invariant over interleavings |
| C36 | WhenAll/WhenAny combinators | invariant over completion interleavings |
| C37–C38 | async semaphore/RW lock with nested callbacks | invariant; `_refuted` for the missed wake-up |
| C39 | fiber shared mutex, program counters of all fibers | inductive invariant on counts |
| C40 | fiber mutex | inductive invariant |
| C41 | blocking bounded queue | inductive invariants for waiting poppers and pushers; `_refuted` for Stop, SetCapacity and weighted items |
| C42 | flow controllers + Write | positive for controllers; `_refuted` for Write as coded |
| C43 | FixedMemoryPool | free-list invariant; boundary `_refuted` |
| C44 | IndexAlloc | invariant |
| C45–C46 | string helpers | induction; signed-char index `_refuted` |
| C47 | run queue | as C31; batch boundary `_refuted` |
| C48 | modulo hash balancer | residues |
| C49 | URL parser | pointer walk against a grammar; `UB` outcome for reads behind the end |
| C50 | string utilities | induction |
| C51 | reading side of streams | invariant over histories |
| C52 | condition variable, fibers and pthreads, wait blocks numbered | inductive invariant; `_refuted` for pthreads notified without the mutex |
| C53 | gRPC frames on the block buffers, time-out and status texts | direct proofs on all layouts; `_refuted` for lengths near 2^32, large and negative time-outs, uncaught exception |
| C54 | `FiberStreamJobScheduler` and the close of the connection as step relations with both mutexes | inductive invariant, measure for termination; `_refuted` for the deadlock and the double removal |
| C55 | both ends of a stream with their four queues and an ordered connection as one step relation | invariants for safety; nine phases for polite users; measure for termination; `_refuted` for early finish and lost Write |
| C56 | the write queue: any number of threads in Append, one per atomic access, a pool of nodes that may be reused at once, the socket as nondeterminism | one inductive invariant over the nodes in exchange order, second one for non-empty messages; `_refuted` runs by an executable scheduler |
| C57 | the event machine of a connection: the reactor with its task list, fibers of events, senders, handshake, clean-up; every answer of handshake and socket is nondeterminism | one invariant that counts who may read and who may write, over all interleavings; `_refuted` runs by an executable scheduler, one with an invariant of its own ("for ever") |
| C58 | a variable with one word per thread, one step per atomic access, threads that come and go, Reset() and GetValue() visiting word by word; the kinds are a record of operations | one invariant per kind (word represents the values it holds) over all interleavings, counting for "once"; bit arithmetic of the packed word |
| C59 | percentile intervals with the random draws as a list of numbers; threads that update, one step per critical section, against a Reset() that visits thread by thread | bit arithmetic of Log2; `sampled` (a permutation of the latencies starts with the samples) kept by every operation; one invariant with a bound on the latencies over all interleavings, counting for "once" |
| C60 | the ring of a sampler slot by slot, with pointers as slot numbers; the 174 slots of a series; operations are parameters | the ring represents a list (oldest first), kept by every operation; lists of blocks against slots, for any number of seconds |
| C61 | the digits of a size line in their array, slot by slot; calls on the three writers with the answers of the transport as input; heads as events, the bytes of the asynchronous streams | RFC 9112 bodies as a relation; invariants of the wire; unambiguity of chunked bodies turns wrong bytes into refutations |
| C62 | reads appended to a buffer, the loop of the server and the single step of the client over an abstract parser of heads and decoder of chunks | messages as head, fields, body and payload (RFC 9112); contract of the parser; cutting lemmas for head and body; a small library that satisfies the contract |
| C63 | two fibers over a bounded buffer, one step per critical section, notification and access to state_ | traces of calls over the body as a list; a bound on the length of runs; an invariant that ties the trace to the buffer, what is left to write and the close in progress; a measure paid for by notifications |
| C64 | threads over a counter modulo M, cells and an owned lock, one step per access | versions written by the programs; the counted increments as history; an invariant per thread; counter-examples for every modulus |
| C65 | waiting and notifying threads over the word, the next pointers and the flags, one step per access; the 64-bit word apart | an invariant with the stack and what each notifier holds as lists; tickets; decisions in a history; field lemmas for the packed word |
| C66 | the caller and two request fibers, one step per access to shared state; what a connector does with a late answer is a parameter | an invariant split by who was answered first; a measure; runs for the refutations |
| C67 | fibers and one flag, one step per critical section; wake-ups by notification, deadline or no reason | an invariant; the history against a specification of a mutex; runs for the refutations |
| C68 | fibers and a count, one step per critical section; failing checks are outcomes | an invariant; the history against a specification of a latch; runs for the refutations |

Not expressible / out of scope: real-time guarantees, actual network and kernel behaviour,
weak-memory effects, protobuf's own wire format, TLS, third-party libraries.

## What is modelled and what is not

Each `Model*.v` names the lines it transcribes and its simplifications; this is the overview.  Everything else in `/repo` is not modelled.

| directory | properties | modelled code | left out of it |
|---|---|---|---|
| `Lib` | - | shared lemmas and notations only |  |
| `TrpcCodec` | C01–C07 | trpc/codec/trpc/trpc_protocol.{h,cc}, trpc_proto_checker.cc; the read path of trpc/runtime/iomodel/reactor/default/tcp_connection.cc | protobuf's wire format (serializer and parser are quantified over), logging, TLS |
| `Buffer` | C08–C12 | trpc/util/buffer/noncontiguous_buffer.{h,cc}, zero_copy_stream.{h,cc}, Boyer-Moore searcher of trpc/util/buffer | memory pool behind the blocks, reference counts, debug checks |
| `LoadBalance` | C22–C24, C48 | trpc/naming/common/util/loadbalance: polling, smooth weighted round robin, consistent hash, modulo hash | hash functions (quantified over), Init and configuration, selectors and naming services |
| `Overload` | C25–C27 | trpc/overload_control: token bucket, seconds limiter, hit queue, smooth limiter | reporting, logging, filters that use the limiters, adaptive limiters |
| `Filter` | C28, C29 | trpc/filter: filter managers and controllers (server side; the client side is the same code), retry limit filter | what filters do |
| `Container` | C30, C33 | trpc/util/container/bounded_queue.h, trpc/util/algorithm/power_of_two.cc | item constructors that throw |
| `Timer` | C34 | trpc/transport/client/future/common/timingwheel.h, timingwheel_timeout_queue.h | the thread that drives it |
| `HttpCodec` | C16, C17, C20, C21 | trpc/util/http: percent encoding, number parsing, base64, cookies | locales other than C |
| `HttpFields` | C18 | trpc/util/http/field_map.h | std::multimap's tree |
| `HttpRoute` | C19 | trpc/util/http: routes, match rules, matchers | std::regex (a user's regex is any function) |
| `HttpUrl` | C49 | trpc/util/http/url.{h,cc} | - |
| `Strings` | C45, C46, C50 | trpc/util/string/string_helper.{h,cc}, string_util.{h,cc} | floating point parsing, formatting |
| `Redis` | C13–C15 | trpc/client/redis/reader.{h,cc}, reply.h, formatter.cc; trpc/codec/redis/redis_protocol.cc, redis_proto_checker.cc | connection handling, depth of the C++ stack |
| `Stream` | C42, C51 | trpc/stream/trpc/trpc_stream_flow_controller.h and its use in trpc_stream.cc; reading side of trpc/stream/common_stream.cc | timeouts, HTTP and gRPC streams |
| `Future` | C35, C36 | trpc/future/future.h (promise/future pair), future_utility.h (WhenAll, WhenAny, WhenAnyWithoutException) | executors (a submitted task runs once or is refused), DoUntil/DoFor loops |
| `AsyncLock` | C37, C38 | trpc/future/async_lock/semaphore.h, rwlock.h | use from several threads (the code forbids it) |
| `Queue` | C31, C32, C47 | trpc/util/queue/bounded_mpmc_queue.h, lockfree_queue.h, bounded_mpsc_queue.h, bounded_spmc_queue.h, unbounded_spmc_queue.h; trpc/runtime/threadmodel/fiber/detail/scheduling/v1/run_queue.{h,cc} | weak memory, wrap of positions after 2^63 operations (except the bounded SPMC queue) |
| `MemPool` | C43, C44 | FixedMemoryPool (container/fixed_arena_allocator.h) and IndexAlloc (internal/index_alloc.cc) | FixedArenaAllocator, which falls back to std::allocator; failing allocations; asserts (compiled out) |
| `FiberSync` | C39, C40, C52 | FiberSharedMutex (trpc/coroutine/fiber_shared_mutex.{h,cc}): all six operations; Mutex of fiber/detail/waitable.{h,cc}: lock, try_lock, unlock, both slow paths, WaitChain::AddWaiter and WakeOne; ConditionVariable: waits of fibers and pthreads with and without a time limit, notify_one, notify_all, AsyncWaker, TryRemoveWaiter, FutexNotifier::Wake and Wait | the fiber mutex and the condition variables inside FiberSharedMutex are atomic there, and so is the user's mutex of a condition variable; which fiber runs next on the processor (SetPost); weak memory; the code of the futex and of the scheduler |
| `FiberQueue` | C41 | FiberBlockingBoundedQueue (trpc/coroutine/fiber_blocking_bounded_queue.h): Push and Pop in all their forms, TryPush, TryPop, SetCapacity, Stop | copying and moving a queue; the data races on stop_token_ and capacity_ (both are read under the lock and written without it); the mutex and the condition variables are atomic here; weak memory |
| `Grpc` | C53 | GrpcMessageContent (trpc/codec/grpc/grpc_protocol.{h,cc}): Check, Decode, Encode, ByteSizeLong; Uint32BigEndianConvertor, GrpcTimeoutTextToUS, GetHeaderInteger, GrpcStatusToString, the maps of content types and encodings; the loop over DATA of grpc_server_stream_handler.cc; the parts of GrpcClientCodec::FillRequest, ZeroCopyEncode, GetTimeoutText and GrpcServerCodec::ZeroCopyDecode that concern framing, time-out, type and compression | HTTP/2 and HPACK (nghttp2 sessions), header maps, user key-values, serialisation and compression themselves, responses apart from the status, streams beyond the splitting of DATA |
| `StreamSched` | C54 | FiberStreamJobScheduler (trpc/stream/fiber_stream_job_scheduler.cc): all functions; TrpcStreamHandler::RemoveStream and Stop (trpc/stream/trpc/trpc_stream_handler.cc) as far as they concern one stream | what the handlers do (any result, any calls); failure to start a fiber; several streams of a connection; FiberGrpcServerStreamHandler, whose PushMessage takes the two mutexes in the same order as Stop; weak memory |
| `StreamProto` | C55 | TrpcClientStream and TrpcServerStream (trpc/stream/trpc/): CheckState, the six handlers, WriteDone; TrpcStream::Close, Reset, SendReset; CommonStream::Write, OnReady, OnData, OnFinish, OnError (trpc/stream/common_stream.cc), with the scheduler of C54 reduced to two queues whose first message can be handled at any time | encoding failures, filters, FEEDBACK frames (C42), read side of the user (C51), time-outs of Start and Finish, connection failures, statistics, the asynchronous reader and writer |
| `WriteList` | C56 | WritingBufferList::Append, FlushTo, Stop (trpc/runtime/iomodel/reactor/fiber/writing_buffer_list.cc) and, from fiber_tcp_connection.cc, the loop of FlushWritingBuffer and the part of Send that appends and writes | PreSendMessage, contents of IoMessage, the handshake, the empty node appended by Stop, the destructor, the time of waits (a time-out ends at any moment); weak memory; FRest stands for any wait between two calls of FlushWritingBuffer |
| `FiberConn` | C57 | FiberConnection (trpc/runtime/iomodel/reactor/fiber/fiber_connection.cc: HandleReadEvent, HandleWriteEvent, HandleCloseEvent, Suppress..., Restart...Now, Kill, QueueCleanupCallbackCheck) and, from fiber_tcp_connection.cc, StartHandshaking, Send, OnReadable, OnWritable, DoHandshake; the reactor as a list of tasks and enabled events | bytes and messages (the queue is its length; WriteList has the rest), DisableRead, delays of restarts, reference counts, the poller, UDP; a critical section of handshaking_state_.lock is one step, so is QueueCleanupCallbackCheck; weak memory |
| `Tvar` | C58 | WriteMostly (trpc/tvar/common/write_mostly.h) with its thread-local buffers, AtomicType::Modify (atomic_type.h), Counter, Maxer, Miner (basic_ops/reducer.h; Gauge is Counter with signed values) and IntRecorder with its packed word (basic_ops/recorder.h) | 64-bit sums and counts of IntRecorder are unbounded integers; relaxed memory order; spurious failures of compare-exchange; destroying a variable; exposing, dumping, samplers, windows, AveragedGauge and percentiles; ThreadLocal beyond registration, visiting and removal |
| `Percentile` | C59 | PercentileInterval, PercentileSamples (trpc/tvar/common/percentile.h), Log2, Ones32, GetIntervalIndex, AddLatency (percentile.cc), WriteMostly::Reset for them (write_mostly.h), FastRandLessThan as an arbitrary number below its bound | thread exit and GetValue(); the floating-point product in GetNumber (k is its ceiling); a null interval is an empty one; the order MergeWithExpectation leaves in the interval it draws from; windows and samplers; weak memory |
| `Window` | C60 | ReducerSampler (trpc/tvar/common/sampler.h), SeriesBase (series.h), the constructor and GetSpan of WindowBase (compound_ops/window.h), the parts of BoundedQueue they use (trpc/util/container/bounded_queue.h), GetSamples as used by LatencyRecorder::LatencyPercentile | the collector thread; PerSecond and QPS (a quotient of doubles); failing malloc; concurrent readers of GetSeries after its unlock; InplaceDivide is a parameter, rounding in Examples only; exposing; capacity and counts are unbounded numbers, at most 7200 by C60_always |
| `HttpChunk` | C61 | HttpChunkHeader (trpc/stream/http/common.cc); HttpWriteStream::WriteHeader, Write, WriteDone, Close (http_stream.cc, .h); HttpClientStream::SendRequestHeader, Write, WriteDone, Close, SendMessage (http_client_stream.cc); HttpCommonStream::CheckState for sending, PreSendHeader, PreSendData, PreSendEof, PreSendTrailer, Stop, HandleSendMessage (common/stream.cc), PreSendRequestLine, PreSendStatusLine, PushSendMessage, AsyncWrite (async/) | the reading half; filters; the connector of the client and its recycling; the text of heads of the synchronous streams (C18); what the header fields say is part of the frame; timeouts other than as answers of the transport |
| `HttpFrame` | C62 | ParseHeader, ParseContent, AppendBuffer, CheckBufferSize, ShouldEnqueue, ParseHttpRequest, HttpZeroCopyCheckRequest (trpc/codec/http/http_server_proto_checker_impl.cc); ParseHeader, ParseContent without streaming, CheckBufferSize, ParseHttpResponse (http_client_proto_checker_impl.cc); FlattenSlowUntil and ParseContentLength as used there | picohttpparser: a parameter with the contract of Spec.v, satisfied by the library of Toy.v; method, url, version, status; the stream of a request when it is closed while data arrives; the streaming mode of the client; conn_close_function |
| `HttpStream` | C63 | AppendAlways, Cut, Stop, CanCut (trpc/coroutine/fiber_blocking_noncontiguous_buffer.h); Write, Close, AppendToRequest (trpc/stream/http/http_stream.cc); Read (http_stream.h); the calls of them from the server's checker and service | Append with a deadline; non-blocking mode; reading through ReadAll and the template for strings; the deadline's arithmetic; a connection that is closed by another fiber while the writer still writes; HttpWriteStream (C61) |
| `SeqLock` | C64 | FiberSeqLock: ReadSeqBegin, ReadSeqRetry, WriteSeqLock, WriteSeqUnlock and what they call (trpc/coroutine/fiber_seqlock.h, fiber_seqlock.cc) | FiberMutex (an owned lock; C40); memory barriers (sequential consistency); what the compiler may do with the plain counter and with the cells |
| `EventCount` | C65 | PredicateNotifier: PrepareWait, CommitWait, CancelWait, Notify, Park, Unpark, and the arithmetic on the packed word (trpc/util/thread/predicate_notifier.h) | the wrap of the epoch in the interleaved model (natural number; the packed word covers comparison across the wrap); the condition variable and the mutex of a waiter (a flag); weak memory; NotifyN |
| `Backup` | C66 | SendRecvForBackupRequest (trpc/transport/client/fiber/fiber_transport.cc), FiberBackupRequestRetry, and how MessageHandleFunction of the five fiber connectors treats backup requests | time and the value of the delay; sending, decoding and the maps of calls (each request completes once); client filters; weak memory; the future transport |
| `TimedMutex` | C67 | FiberTimedMutex: lock, try_lock, try_lock_for, try_lock_until, unlock (trpc/coroutine/fiber_timed_mutex.cc) | FiberMutex (C40) and FiberConditionVariable (C52) underneath: a critical section is one step, notify_one wakes a waiting fiber; time; callers outside fibers |
| `FiberLatch` | C68 | FiberLatch: constructor, CountDown, TryWait, Wait, ArriveAndWait, WaitFor, WaitUntil (trpc/coroutine/fiber_latch.cc, fiber_latch.h) | FiberMutex (C40) and FiberConditionVariable (C52) underneath; overflow of the count by negative updates; time; destroying the latch |

## What `Print Assumptions` lists

For every theorem below Coq answers "Closed under the global context", that is, no axiom at all, unless something else is said.

* `AsyncLock/Props`: `C37_fifo`, `C37_leftover`, `C37_broke`, `C38_exclusion`, `C37_stuck_refuted`, `C37_broke_nested_refuted`, `C37_broken_wait_refuted`, `C38_unmatched_refuted`
* `Backup/Props`: `C66_success`, `C66_failure`, `C66_frame_safe`, `C66_after_return`, `C66_not_stuck`, `C66_runs_end`, `C66_test_never_skips`, `C66_retry_at_once_refuted`, `C66_zero_delay_refuted`, `C66_pooled_message_refuted`, `C66_pooled_frame_refuted`, `C66_pooled_index_refuted`
* `Buffer/Props`: `C08_buffer_is_byte_string`, `C08_layouts_reachable`, `C08_past_end_undefined`, `C08_move_assign_empty_block_refuted`, `C09_builder_exact`, `C09_create_slow_exact`, `C09_reuse_after_get_refuted`, `C10_find_first`, `C10_find_empty_block_refuted`, `C10_pattern_underread_refuted`, `C11_flatten_exact`, `C11_flatten_until`, `C12_input_stream_exact`, `C12_input_stream_read_all`, `C12_output_stream_exact`, `C12_output_stream_write_string`, `C12_empty_block_stalls_refuted`, `C12_byte_count_refuted`
* `Container/Props`: `C30_is_a_bounded_deque`, `C30_huge_capacity_refuted`, `C30_zero_capacity_refuted`, `C33_rounds_up`, `C33_hangs_above_2_63_refuted`, `C33_one_refuted`
* `EventCount/Props`: `C65_no_lost_wakeup`, `C65_quiet_all_awake`, `C65_notified_early`, `C65_notify_all_frees`, `C65_notify_one_frees`, `C65_returns_only_notified`, `C65_held_once`, `C65_no_aba`, `C65_tickets`, `C65_undecided`, `C65_undecided_bound`, `C65_notifier_goes_on`, `C65_waiter_goes_on`, `C65_packed_word`, `C65_packed_compare`
* `FiberConn/Props`: `C57_no_crash`, `C57_one_writer`, `C57_one_fiber`, `C57_counts`, `C57_disabled`, `C57_cleanup`, `C57_not_lost`, `C57_progress`, `C57_works`, `C57_quiet`, `C57_read_not_lost`, `C57_read_done`, `C57_send_error`, `C57_error_event`, `C57_handshake_abort_refuted`, `C57_handshake_writers_refuted`, `C57_early_send_refuted`
* `FiberLatch/Props`: `C68_history`, `C68_all_woken`, `C68_passes`, `C68_stays_open`, `C68_dies_only_over`, `C68_rearm_refuted`, `C68_below_refuted`
* `FiberQueue/Props`: `C41_fifo`, `C41_bound`, `C41_no_crash`, `C41_calls`, `C41_quiet`, `C41_progress`, `C41_poppers`, `C41_pushers_unit`, `C41_no_deadlock`, `C41_stop_calls`, `C41_stop_wakes`, `C41_notify_wakes`, `C41_stop_two_refuted`, `C41_stop_race_refuted`, `C41_weighted_refuted`, `C41_set_capacity_refuted`, `C41_too_large_refuted`, `C41_drop_refuted`
* `FiberSync/PropsCv`: `C52_exclusion`, `C52_no_crash`, `C52_atomic`, `C52_quiet`, `C52_starts`, `C52_notify`, `C52_wakes_fiber`, `C52_wakes_value`, `C52_wakes_pthread`, `C52_no_spurious`, `C52_result`, `C52_pthread_lost_refuted`, `C52_pthread_uaf_refuted`, `C52_result_refuted`
* `FiberSync/PropsMutex`: `C40_exclusion`, `C40_fifo`, `C40_free`, `C40_waiting`, `C40_quiet`, `C40_progress`, `C40_calls`, `C40_no_crash`
* `FiberSync/PropsShared`: `C39_exclusion`, `C39_range`, `C39_no_crash`, `C39_quiet`, `C39_progress`, `C39_read_call`, `C39_preference`, `C39_grant`, `C39_write_free`
* `Filter/Props`: `C29_post_mirrors_pre`, `C29_reused_context_refuted`, `C29_duplicate_name_refuted`, `C28_budget_range`, `C28_budget_accounting`, `C28_failures_keep_hedging_off`, `C28_successes_restore_hedging`, `C28_never_above_maximum`, `C28_late_store_refuted`
* `Future/Props`: `C35_once`, `C35_delivered`, `C35_ends`, `C35_one_result`, `C35_broken`
* `Future/PropsWhen`: `C36_all`, `C36_any`, `C36_success`, `C36_failure`, `C36_once`, `C36_progress`, `C36_empty`
* `Grpc/Props`: `C53_network_order`, `C53_encode`, `C53_encode_mismatch`, `C53_decode`, `C53_decode_incomplete`, `C53_check`, `C53_check_incomplete`, `C53_check_sound`, `C53_stream`, `C53_loop_forever_refuted`, `C53_decode_past_end_refuted`, `C53_decode_wrap`, `C53_timeout`, `C53_timeout_loose`, `C53_timeout_nano`, `C53_timeout_none`, `C53_timeout_transfer`, `C53_timeout_server`, `C53_timeout_cut_refuted`, `C53_timeout_negative_refuted`, `C53_timeout_overflow_refuted`, `C53_timeout_too_long_refuted`, `C53_status`, `C53_status_abort`, `C53_status_abort_refuted`, `C53_status_text`, `C53_types`, `C53_encodings`, `C53_names`, `C53_unary`, `C53_unary_compress_refuted`, `C53_unary_type_refuted`
* `HttpChunk/Props`: `C61_header`, `C61_unambiguous`, `C61_total`, `C61_server`, `C61_close`, `C61_client`, `C61_async`, `C61_empty_refuted`, `C61_after_done_refuted`, `C61_done_first_refuted`, `C61_header_fail_refuted`, `C61_headless_refuted`, `C61_empty_header_refuted`, `C61_continue_refuted`, `C61_zero_length_refuted`
* `HttpCodec/Props`: `C16_round_trip`, `C16_path_round_trip`, `C16_encode_exact`, `C16_decode_any`, `C16_url_decode_in_bounds`, `C16_url_decode_forms`, `C16_url_decode_accepts_garbage_refuted`, `C16_normalize_url`, `C17_round_trip`, `C17_length`, `C17_decode_any`, `C17_decode_high_byte_refuted`, `C20_parse_uint_exact`, `C20_content_length_accepts`, `C20_content_length_range`, `C20_content_length_exact`, `C20_content_length_overflow_refuted`, `C20_content_length_sign_refuted`, `C21_set_cookie_exact`, `C21_lax_refuted`, `C21_lax_always_wrong_refuted`
* `HttpFields/Props`: `C18_headers_are_a_multimap`, `C18_query_parameters_are_a_multimap`, `C18_set_if_not_present_ignores_case_refuted`, `C18_comparison_cycle_refuted`, `C18_pseudo_prefix_refuted`, `C18_nul_refuted`, `C18_empty_name_refuted`
* `HttpFrame/Props`: `C62_split`, `C62_requests`, `C62_rejected`, `C62_bounded`, `C62_response`, `C62_refused`, `C62_too_long`, `C62_client_bounded`, `C62_library`, `C62_two_lengths_refuted`, `C62_coding_refuted`, `C62_number_refuted`, `C62_split_refuted`, `C62_lost_refuted`, `C62_second_refuted`, `C62_until_close_refuted`, `C62_interim_refuted`
* `HttpRoute/Props`: `C19_request_is_dispatched`, `C19_dispatch_is_deterministic`, `C19_segments_are_bound_uniquely`, `C19_placeholder_pattern_is_read`, `C19_plain_path_is_itself`, `C19_regex_is_searched`, `C19_remainder_rule`, `C19_dot_matches_anything_refuted`, `C19_empty_rule_matches_one_character_refuted`
* `HttpStream/Props`: `C63_trace`, `C63_bounded`, `C63_prefix`, `C63_calls`, `C63_told`, `C63_read_all`, `C63_answered`, `C63_finite`, `C63_stops`, `C63_reader_returns`, `C63_writer_returns`, `C63_abandoned_refuted`, `C63_at_most`, `C63_limit_refuted`, `C63_too_long`, `C63_too_long_refuted`
* `HttpUrl/Props`: `C49_total`, `C49_parts`, `C49_rejected`, `C49_port`, `C49_user_password`, `C49_user_only`, `C49_request_uri`, `C49_view_refuted`, `C49_view_undefined_refuted`, `C49_nul_refuted`, `C49_invalid_character_refuted`, `C49_port_truncated_refuted`, `C49_odd_hosts_refuted`
* `LoadBalance/Props`: `C22_every_window_proportional`, `C22_never_ahead`, `C22_zero_weight_never_chosen`, `C22_update_takes_effect`, `C22_concurrent_next_refuted`, `C22_huge_weight_refuted`, `C23_round_is_a_permutation_partial`, `C23_exact`, `C23_kth_selection`, `C23_selection_from_latest`, `C23_counter_wrap_refuted`, `C23_stale_record_refuted`, `C24_selects_clockwise_first`, `C24_selection_from_latest`, `C24_answers_move_only_when_they_must`, `C24_key_collision_refuted`, `C24_node_collision_refuted`, `C24_stale_record_refuted`, `C48_modulo_position`
* `MemPool/Props`: `C43_new`, `C43_blocks`, `C43_allocate`, `C43_free`, `C43_content`, `C43_other`, `C43_past_end_refuted`, `C43_none_in_use`, `C43_large_refuted`, `C43_double_free_refuted`, `C43_inside_refuted`, `C44_distinct`, `C44_initial_segment`, `C44_next`, `C44_double_free_refuted`
* `Overload/Props`: `C25_bounded_in_every_interval`, `C25_idle_refills`, `C25_young_clock_refuted`, `C25_zero_burst_refuted`, `C25_rate_rounding_refuted`, `C26_exact_per_second`, `C26_exact_for_every_interleaving`, `C26_some_caller_can_move`, `C26_stalled_caller_refuted`, `C26_clock_back_refuted`, `C27_exact_without_overlap`, `C27_window_bounded`, `C27_both_rejected_refuted`, `C27_tick_overlap_refuted`
* `Percentile/Props`: `C59_index`, `C59_merge`, `C59_percentile`, `C59_run`, `C59_once`, `C59_percentile_of_run`, `C59_once_refuted`, `C59_percentile_refuted`, `C59_merge_large`, `C59_merge_wraps`, `C59_sorted_refuted`
* `Queue/PropsMpmc`: `C31_correct`, `C31_quiet`, `C31_order`, `C31_full`, `C31_empty`, `C31_returns`, `C31_progress`, `C31_push_alone`, `C31_pop_alone`, `C31_mpsc_false`, `C31_mpsc_behind_refuted`, `C31_capacity`, `C31_capacity_refuted`, `C31_capacity_one_refuted`
* `Queue/PropsRun`: `C47_correct`, `C47_quiet`, `C47_order`, `C47_whole_batch`, `C47_push_false`, `C47_batch_false`, `C47_pop_null`, `C47_steal_null`, `C47_returns`, `C47_progress`, `C47_push_alone`, `C47_batch_alone`, `C47_pop_alone`, `C47_exact_fit_refuted`, `C47_batch_busy`, `C47_batch_small`, `C47_large_batch_refuted`, `C47_pop_waits_refuted`, `C47_size`, `C47_full_size_refuted`, `C47_empty`, `C47_capacity`, `C47_capacity_one_refuted`
* `Queue/PropsSpmc`: `C32_deque`, `C32_exactly_once`, `C32_quiescent`, `C32_pop_null`, `C32_steal_null`, `C32_steal_lost`, `C32_progress`, `C32_push_alone`, `C32_pop_alone`, `C32_steal_alone`, `C32_bounded_fresh_refuted`, `C32_bounded_stuck_refuted`, `C32_bounded_stuck_reached`, `C32_bounded_twice_refuted`
* `Redis/Props`: `C13_reply_is_read_back`, `C13_pipelined_replies_are_read_back`, `C13_blocks_do_not_matter`, `C13_chunks_give_all_replies`, `C13_any_depth_refuted`, `C14_truncated_reply_is_incomplete`, `C14_truncated_pipeline_is_incomplete`, `C14_verdict_is_final`, `C14_checker_keeps_the_incomplete_reply`, `C14_checker_reads_merged_replies`, `C14_reader_is_safe`, `C14_no_overflow_refuted`, `C14_malformed_is_rejected_refuted`, `C15_command_is_resp`, `C15_command_decodes_to_its_arguments`, `C15_commands_are_a_prefix_code`, `C15_format_gives_the_words`, `C15_format_stays_in_bounds_refuted`, `C15_long_conversion_refuted`, `C15_raw_request_refuted`
* `SeqLock/Props`: `C64_exclusive`, `C64_snapshot`, `C64_consistent`, `C64_current`, `C64_latest`, `C64_even`, `C64_writer_goes`, `C64_reader_done`, `C64_uninitialised_refuted`, `C64_spin_refuted`, `C64_wrap_refuted`
* `Stream/PropsFlow`: `C42_bound`, `C42_account`, `C42_no_deadlock`, `C42_window_size`, `C42_unbounded_refuted`, `C42_error_refuted`, `C42_closed_refuted`, `C42_overflow_refuted`
* `Stream/PropsReader`: `C51_fifo`, `C51_finish`, `C51_error`, `C51_async`, `C51_async_all`, `C51_error_status_refuted`, `C51_error_forgotten_refuted`, `C51_error_ready_refuted`
* `StreamProto/Props`: `C55_to_server`, `C55_to_client`, `C55_polite`, `C55_quiet`, `C55_terminates`, `C55_refuse_recv`, `C55_refuse_send`, `C55_accept_recv`, `C55_accept_send`, `C55_effect`, `C55_calls`, `C55_calls_stopped`, `C55_finish_refuted`, `C55_write_refuted`
* `StreamSched/Props`: `C54_one_run`, `C54_recv_order`, `C54_send_order`, `C54_live`, `C54_drains`, `C54_terminates`, `C54_done`, `C54_removed`, `C54_removed_refuted`, `C54_push_send`, `C54_push_recv`, `C54_stop`, `C54_progress`, `C54_deadlock_refuted`
* `Strings/Props`: `C45_split_cuts_at_delimiters`, `C45_parts_are_determined`, `C45_join_undoes_split`, `C45_no_part_contains_the_delimiter`, `C45_join_inserts_delimiters`, `C45_long_join_refuted`, `C45_replace_first_occurrences`, `C45_replace_all`, `C45_split_string`, `C45_split_string_to_map`, `C45_strip_takes_spaces_off`, `C45_trimmed_is_determined`, `C45_trim_inplace`, `C45_trim_string_view`, `C45_trim_view`, `C45_trim_empty_refuted`, `C45_starts_with`, `C45_ends_with`, `C45_trim_prefix`, `C45_trim_suffix`, `C46_to_lower`, `C46_to_upper`, `C46_iequals`, `C46_total_on_bytes_refuted`, `C50_signed_exact`, `C50_unsigned_modulo`, `C50_bool_exact`, `C50_negative_unsigned_refuted`, `C50_stale_errno_refuted`, `C50_garbage_after_nul_refuted`, `C50_bool_options_ignored_refuted`
* `TimedMutex/Props`: `C67_history`, `C67_exclusion`, `C67_no_lost_wakeup`, `C67_woken`, `C67_transfer_refuted`, `C67_foreign_unlock_refuted`
* `Timer/Props`: `C34_fires_once_and_on_time`, `C34_far_future_fires_at_once_refuted`, `C34_push_from_handler_is_late_refuted`
* `TrpcCodec/Props`: `C01_header_roundtrip`, `C01_wire_layout`, `C01_bytes_roundtrip`, `C01_short_fails`, `C02_request_roundtrip`, `C03_response_roundtrip`, `C02_codec_exists`, `C04_encoded_accepted_partial`, `C04_exact`, `C04_response_sizes`, `C04_large_header_refuted`, `C05_chunk_independent`, `C05_malformed_chunking_refuted`, `C06_check_conserves`, `C06_bad_head_rejected`, `C06_checked_frame_decodable`, `C06_huge_buffer_refuted`, `C06_metadata_from_header`, `C06_decode_unchecked_refuted`, `C07_meta_roundtrip`, `C07_data_roundtrip`, `C07_encode_wrong_types_refused`, `C07_meta_decode_total`, `C07_types_distinct`
* `Tvar/Props`: `C58_value`, `C58_once`, `C58_recorded`, `C58_read`, `C58_all_shown`, `C58_ends`, `C58_word`, `C58_word_merge`, `C58_counter_reset_refuted`, `C58_initial_refuted`, `C58_monotone_refuted`
* `Window/Props`: `C60_always`, `C60_window`, `C60_totals`, `C60_samples_refuted`, `C60_size`, `C60_series`, `C60_series_refuted`
* `WriteList/Props`: `C56_order`, `C56_finished`, `C56_accepted`, `C56_one_writer`, `C56_no_crash`, `C56_size`, `C56_no_leak`, `C56_progress`, `C56_quiet`, `C56_alive`, `C56_calls`, `C56_writes`, `C56_wakes`, `C56_empty_refuted`, `C56_cap_refuted`, `C56_wakeup_refuted`
