{"id": "C01", "title": "tRPC fixed header survives the wire", "statement": "Encoding any fixed header (magic, frame types, frame size, pb header size, stream id, reserved bytes, each within its declared width) and decoding the resulting bytes gives back exactly the same header and consumes exactly 16 bytes; decoding any input shorter than 16 bytes fails and decoding any 16 bytes then re-encoding reproduces those 16 bytes, however the bytes are split over buffer blocks.", "quantifier": "every header value, every byte string, every split into blocks", "why_tests_cant": "2^128 header values times every block layout; tests try a handful of headers in one contiguous block.", "anchors": ["trpc/codec/trpc/trpc_protocol.h: TrpcFixedHeader", "trpc/codec/trpc/trpc_protocol.cc: TrpcFixedHeader::Decode, Encode"]}
{"id": "C02", "title": "Unary request round trip", "statement": "For every request whose serialized pb header fits the 16-bit size field and whose total frame fits the 32-bit size field, encode succeeds and decode of the produced bytes returns the same header fields, the same body bytes and the same attachment bytes, whatever bytes the body and attachment contain.", "quantifier": "every pb header content, body and attachment byte string, every block layout", "why_tests_cant": "Bodies and attachments are arbitrary binary of arbitrary length and layout.", "anchors": ["trpc/codec/trpc/trpc_protocol.cc: TrpcRequestProtocol::ZeroCopyEncode, ZeroCopyDecode"]}
{"id": "C03", "title": "Unary response round trip", "statement": "For every response whose serialized pb header fits the 16-bit size field and whose total frame fits the 32-bit size field, decode(encode(response)) returns the same header fields, body and attachment.", "quantifier": "every pb header content, body and attachment byte string, every block layout", "why_tests_cant": "Unbounded binary payloads and layouts.", "anchors": ["trpc/codec/trpc/trpc_protocol.cc: TrpcResponseProtocol::ZeroCopyEncode, ZeroCopyDecode"]}
{"id": "C04", "title": "Encode never reports success for an undecodable message", "statement": "Whenever encoding a unary request reports success, the bytes it produced are accepted by the receiver's framing check and decode back to the message that was encoded.", "quantifier": "every request, including ones with very large metadata (transparent info) and very large bodies", "why_tests_cant": "Needs a pb header over 65535 bytes or a frame over 4 GiB; tests use small messages.", "anchors": ["trpc/codec/trpc/trpc_protocol.cc: TrpcRequestProtocol::ZeroCopyEncode", "trpc/codec/trpc/trpc_proto_checker.cc: CheckTrpcProtocolMessage"]}
{"id": "C05", "title": "Framing does not depend on how TCP chunks the stream", "statement": "If a peer sends a sequence of well formed frames, then however the byte stream is cut into reads, the receiver extracts exactly those frames, byte for byte, in order, and after the last read has exactly the unfinished remainder (if any) left in its buffer; no frame is lost, duplicated, merged or split.", "quantifier": "every finite sequence of well formed frames, every partition of the byte stream into reads, every block layout", "why_tests_cant": "The number of partitions is exponential in the stream length; tests use one or two.", "anchors": ["trpc/codec/trpc/trpc_proto_checker.cc: CheckTrpcProtocolMessage"]}
{"id": "C06", "title": "Framing conserves bytes and rejects malformed or oversized frames", "statement": "For any input bytes the framing check either reports a packet error, or reports complete packets or need-more such that the extracted packets followed by the bytes left in the buffer are exactly the input; every extracted packet has the length its own header declares, has the tRPC magic, has room for its fixed and pb headers and is no larger than the configured maximum; and a bad magic, impossible size or oversized frame at the head of the buffer is reported as an error.", "quantifier": "every byte string, every buffer layout, every maximum packet size", "why_tests_cant": "Adversarial input space is unbounded.", "anchors": ["trpc/codec/trpc/trpc_proto_checker.cc: CheckTrpcProtocolMessage"]}
{"id": "C07", "title": "Stream frames round trip", "statement": "For each of the INIT, DATA, FEEDBACK and CLOSE stream frames, decode(encode(frame)) gives back the same stream id and payload; encoding a frame whose type fields are wrong is refused, and decoding a frame of a different stream type is refused for INIT, FEEDBACK and CLOSE.", "quantifier": "every stream id, metadata and payload, every block layout", "why_tests_cant": "Unbounded payload space.", "anchors": ["trpc/codec/trpc/trpc_protocol.cc: TrpcStream*FrameProtocol::ZeroCopyEncode/ZeroCopyDecode/Check"]}
{"id": "C08", "title": "Noncontiguous buffer behaves as a byte string", "statement": "Any sequence of append, skip, cut, clear, copy and move operations on noncontiguous buffers has the effect it would have on plain byte strings: contents and reported size always agree with the byte-string model, for every internal block layout, provided skip/cut amounts do not exceed the size.", "quantifier": "every finite sequence of operations, every block layout, every byte content", "why_tests_cant": "Infinitely many operation sequences and layouts.", "anchors": ["trpc/util/buffer/noncontiguous_buffer.h: NoncontiguousBuffer::Append, Skip, Cut, Clear, ByteSize", "trpc/util/buffer/noncontiguous_buffer.cc: SkipSlow, FlattenSlow, Append"]}
{"id": "C09", "title": "Buffer builder emits exactly the bytes appended", "statement": "For every sequence of builder calls (reserve, append of raw bytes/strings/single characters/buffers, mark-written) the final buffer contains exactly the concatenation of the bytes appended in call order, and the builder never writes outside its current block.", "quantifier": "every finite sequence of builder calls, every payload length relative to the block size", "why_tests_cant": "Boundary cases depend on arbitrary accumulations of partial block fills.", "anchors": ["trpc/util/buffer/noncontiguous_buffer.h: NoncontiguousBufferBuilder", "trpc/util/buffer/noncontiguous_buffer.cc: AppendSlow, InitializeNextBlock, FlushCurrentBlock"]}
{"id": "C10", "title": "Buffer search finds the first occurrence", "statement": "Searching a noncontiguous buffer for a non-empty pattern returns the offset of the first occurrence of the pattern in the byte content, also when the occurrence spans several blocks, and reports not-found exactly when there is none.", "quantifier": "every buffer content, block layout and non-empty pattern", "why_tests_cant": "Boyer-Moore shift tables and cross-block positions give unboundedly many cases.", "anchors": ["trpc/util/buffer/noncontiguous_buffer.cc: NoncontiguousBufferSearcher (Find), FlattenSlowUntil"]}
{"id": "C11", "title": "Flatten returns the right prefix", "statement": "Flattening a buffer returns its whole content, flattening with a byte limit returns exactly the first min(limit, size) bytes, flatten-to copies exactly the requested bytes, and flatten-until returns the shortest prefix ending with the delimiter (or the limited prefix when absent).", "quantifier": "every buffer content, layout, limit and delimiter", "why_tests_cant": "Unbounded contents, layouts and limits.", "anchors": ["trpc/util/buffer/noncontiguous_buffer.cc: FlattenSlow, FlattenToSlow, FlattenSlowUntil"]}
{"id": "C12", "title": "Zero-copy streams neither lose nor repeat bytes", "statement": "For any legal sequence of Next/BackUp/Skip calls on the zero-copy input stream the bytes handed out (after back-ups) followed by the bytes not yet consumed are exactly the original content and the byte count equals what was consumed; for the output stream the flushed buffer is exactly what the writer wrote.", "quantifier": "every legal call sequence and block layout", "why_tests_cant": "Unbounded call sequences.", "anchors": ["trpc/util/buffer/zero_copy_stream.cc: NoncontiguousBufferInputStream, NoncontiguousBufferOutputStream"]}
{"id": "C13", "title": "Redis replies are parsed back exactly, under any fragmentation", "statement": "For every RESP reply value (simple string, error, integer, bulk, nil, nested array within the supported depth) parsing its wire encoding, however fragmented into blocks and whatever follows it, yields that value and consumes exactly its bytes.", "quantifier": "every reply tree of supported depth, every fragmentation, every trailing data", "why_tests_cant": "Reply trees and fragmentations are unbounded.", "anchors": ["trpc/client/redis/reader.cc: Reader::GetReply and Process*Item", "trpc/client/redis/reader.h"]}
{"id": "C14", "title": "A truncated Redis reply is never accepted", "statement": "Every strict prefix of the wire encoding of a reply is reported as incomplete (never as a reply and never as a protocol error), for every fragmentation, so the client waits for more data.", "quantifier": "every reply tree of supported depth, every strict prefix, every fragmentation", "why_tests_cant": "Quantifies over all cut points of all replies.", "anchors": ["trpc/client/redis/reader.cc: Reader::GetReply", "trpc/codec/redis/redis_proto_checker.cc"]}
{"id": "C15", "title": "Redis commands are binary safe on the wire", "statement": "The encoding of a command is a RESP array of bulk strings that any RESP parser decodes to exactly the argument list given, whatever bytes the arguments contain.", "quantifier": "every argument list and argument content", "why_tests_cant": "Arguments are arbitrary binary.", "anchors": ["trpc/codec/redis/redis_protocol.cc: RedisRequestProtocol::ZeroCopyEncode", "trpc/client/redis/formatter.cc"]}
{"id": "C16", "title": "Percent-encoding round trips", "statement": "Percent-decoding the percent-encoding of any byte string returns the string, the encoding contains only unreserved characters and %XX triples, and decoding never reads past the input.", "quantifier": "every byte string (including malformed percent sequences for the no-overread part)", "why_tests_cant": "Unbounded input space, including every malformed tail.", "anchors": ["trpc/util/http/util.cc: PercentEncode, PercentDecode", "trpc/util/http/util.h"]}
{"id": "C17", "title": "Base64 round trips and decoding is total", "statement": "Base64-decoding the base64-encoding of any byte string returns the string, encodings have length 4*ceil(n/3) over the standard alphabet, and decoding any string is defined (either a result or failure).", "quantifier": "every byte string; every candidate encoded string", "why_tests_cant": "Unbounded; the decode table lookup misbehaves only for bytes no test passes.", "anchors": ["trpc/util/http/base64.h: Base64Encode, Base64Decode"]}
{"id": "C18", "title": "Header map is a case-insensitive multimap", "statement": "For every sequence of Add/Set/SetIfNotPresent/Delete on a header collection, Get/Has/Values answer as an ordered multimap keyed by case-insensitive name would: a name is found exactly if it was added in some letter case, Set leaves exactly one value, Delete removes all.", "quantifier": "every finite operation sequence and every header name", "why_tests_cant": "Correctness rests on the comparator being a strict weak order on all names, not on the few names in tests.", "anchors": ["trpc/util/http/field_map.h: detail::CaseInsensitiveLess, FieldMap"]}
{"id": "C19", "title": "Route matching picks the documented handler", "statement": "A request is dispatched to the handler registered for exactly that path and method if there is one; otherwise to the earliest registered pattern that matches, with path parameters taken from that pattern only; otherwise not found. Placeholder segments bind exactly the text of the segment.", "quantifier": "every route table, every request path", "why_tests_cant": "Route tables and paths are unbounded; precedence bugs need particular overlaps.", "anchors": ["trpc/util/http/routes.cc", "trpc/util/http/matcher.cc", "trpc/util/http/match_rule.h"]}
{"id": "C20", "title": "Unsigned number parsing never wraps", "statement": "Parsing decimal (e.g. Content-Length) accepts exactly the strings that consist of decimal digits with value at most the type maximum and returns that value; overflow is reported, never wrapped.", "quantifier": "every string", "why_tests_cant": "Wrap-around needs specific 20-digit strings.", "anchors": ["trpc/util/http/util.cc: ParseUint", "trpc/util/http/util.h: ParseContentLength"]}
{"id": "C21", "title": "Set-Cookie carries exactly one SameSite attribute", "statement": "Serializing a response cookie emits the SameSite attribute that was configured and no other.", "quantifier": "every cookie", "why_tests_cant": "Tests pin one concrete output string.", "anchors": ["trpc/util/http/http_cookie.cc: AppendSameSite, ToString"]}
{"id": "C22", "title": "Smooth weighted round robin is exactly proportional", "statement": "With fixed non-negative weights of positive sum W, in every W consecutive selections starting from a fresh table each endpoint is chosen exactly as many times as its weight, the internal state returns to the start after W selections, and an endpoint of weight 0 is never chosen.", "quantifier": "every endpoint list and weight vector (number of endpoints times weight sum below 2^31), every number of rounds, calls that do not overlap", "why_tests_cant": "Proportionality must hold for all weight vectors and all lengths.", "anchors": ["trpc/naming/common/util/loadbalance/weighted_round_robin/weighted_round_robin_load_balancer.cc: Next, Update"]}
{"id": "C23", "title": "Polling is fair under concurrency", "statement": "Any n consecutive selections among n endpoints (by any number of threads, in any interleaving) return each endpoint exactly once, and every selection is an endpoint of the current list.", "quantifier": "every endpoint count, every interleaving of callers, every position of the 32-bit counter", "why_tests_cant": "Interleavings and counter positions (wrap at 2^32) are out of reach for tests.", "anchors": ["trpc/naming/common/util/loadbalance/polling/polling_load_balance.cc: PollingLoadBalance::Next"]}
{"id": "C24", "title": "Consistent hashing moves only the keys it must", "statement": "After an update, every selection returns an endpoint of the latest list; when endpoints are removed, keys that mapped to surviving endpoints keep their endpoint, and when endpoints are added a key either keeps its endpoint or moves to an added one; the incrementally updated ring answers as a ring built from scratch.", "quantifier": "every sequence of endpoint-list updates, every hash function that maps the virtual nodes of the endpoints involved to different positions, every key", "why_tests_cant": "Quantifies over hash values and update histories.", "anchors": ["trpc/naming/common/util/loadbalance/hash/consistenthash_load_balance.cc: Update, Next"]}
{"id": "C25", "title": "Token bucket bounds every burst", "statement": "In every interval of length d the token-bucket limiter admits at most burst + floor(d / token interval) requests, and after being idle long enough for k <= burst tokens the next k requests are admitted.", "quantifier": "every request arrival history with a non-decreasing clock, every interval, every burst >= 1 and rate <= 10^9 with the clock at least burst token intervals past zero", "why_tests_cant": "All arrival histories; also extreme uptimes and rates.", "anchors": ["trpc/overload_control/token_bucket_limiter/token_bucket_overload_controller.cc: BeforeSchedule"]}
{"id": "C26", "title": "Per-second limiter admits at most the limit each second", "statement": "For every history of calls with a non-decreasing clock, and every interleaving of callers within a second, the number of requests admitted whose clock reading is a given second is at most the configured limit, and exactly min(limit, arrivals).", "quantifier": "every arrival history with a non-decreasing clock, every interleaving in which no caller stays inside CheckLimit until its bucket's next second, every limit and window size", "why_tests_cant": "Histories and interleavings unbounded.", "anchors": ["trpc/overload_control/flow_control/seconds_limiter.cc: CheckLimit"]}
{"id": "C27", "title": "Smooth limiter bounds the sliding window", "statement": "At every moment the number of requests admitted during the last window (the current frame and the previous frames of the window) is at most the limit, for every interleaving of concurrent callers between two frame ticks, and, when calls do not overlap, a request is admitted exactly when the window holds fewer than the limit.", "quantifier": "every arrival/tick history in which no caller is inside CheckLimit at a tick, every interleaving of callers, every limit and window size >= 1 frame", "why_tests_cant": "Histories and interleavings unbounded.", "anchors": ["trpc/overload_control/flow_control/smooth_limiter.cc", "trpc/overload_control/flow_control/hit_queue.cc"]}
{"id": "C28", "title": "Retry limiter token accounting", "statement": "Whatever the order of successes and failures, and for every interleaving of concurrent completions, the retry budget never exceeds its maximum once in-flight updates finish and never falls below minus one penalty (sequentially); hedging is disabled whenever the budget is at most half, stays disabled while only failures occur, and is re-enabled after enough successes.", "quantifier": "every history of call outcomes, every interleaving, every max_tokens/token_ratio accepted by configuration", "why_tests_cant": "Atomic add-then-undo updates interleave in unboundedly many ways.", "anchors": ["trpc/filter/retry/retry_limit_client_filter.cc: operator()"]}
{"id": "C29", "title": "Every completed filter gets its post call, in reverse order", "statement": "If the pre filters run and filter k rejects (or none does), then running the matching post point invokes the post part of exactly the filters whose pre part completed without rejecting, in reverse order, globals outermost, and none of the others.", "quantifier": "every list of global and service filters registered at both matching points, every rejecting position", "why_tests_cant": "Arbitrary filter stacks and rejection positions.", "anchors": ["trpc/filter/server_filter_controller.cc: AddMessageServerFilter, RunMessageServerFilters", "trpc/filter/client_filter_controller.cc"]}
{"id": "C30", "title": "Bounded queue is a bounded deque", "statement": "Every sequence of push/pop/push-top/pop-bottom/elim-push/clear/swap operations on the bounded ring queue has the results of a deque with the given capacity: no element lost, duplicated or reordered, pushes fail exactly when full, elim-push drops exactly the oldest.", "quantifier": "every finite operation sequence and capacity up to 2^31", "why_tests_cant": "Ring wrap-around states are unbounded.", "anchors": ["trpc/util/container/bounded_queue.h: BoundedQueue"]}
{"id": "C31", "title": "Lock-free MPMC queue never loses, duplicates or reorders", "statement": "For every number of producers and consumers and every interleaving of their atomic steps, each item whose push succeeded is returned by at most one pop, popped items are items that were pushed, items leave in the order in which they were accepted, a push reports full only when the queue holds capacity items and a pop reports empty only when nothing is held.", "quantifier": "every number of threads, every interleaving (sequentially consistent), every capacity >= 2 that is a power of two", "why_tests_cant": "Interleavings are unbounded; the bad ones are rare.", "anchors": ["trpc/util/queue/bounded_mpmc_queue.h: Push, Enqueue, Dequeue", "trpc/util/queue/lockfree_queue.h", "trpc/util/queue/bounded_mpsc_queue.h"]}
{"id": "C32", "title": "Work-stealing deques hand out each task exactly once", "statement": "For every interleaving of the owner's push/pop and any number of thieves' steals on the unbounded work-stealing queue, every pushed task is returned at most once and is not lost: when the queue is quiescent, the tasks pushed are exactly those returned plus those still queued. The bounded variant is expected to satisfy the same.", "quantifier": "every number of thieves, every interleaving, every growth history", "why_tests_cant": "Chase-Lev style races are schedule dependent.", "anchors": ["trpc/util/queue/unbounded_spmc_queue.h: Push, Pop, Steal", "trpc/util/queue/bounded_spmc_queue.h: Enqueue, Dequeue, Steal"]}
{"id": "C33", "title": "Rounding up to a power of two", "statement": "For every n up to 2^63 the result is a power of two that is at least n and at least 1, it is n itself when n is a power of two >= 2, and is less than 2n for n >= 2.", "quantifier": "every 64-bit n", "why_tests_cant": "2^64 inputs.", "anchors": ["trpc/util/algorithm/power_of_two.cc: RoundUpPowerOf2"]}
{"id": "C34", "title": "Timing wheel fires every timeout exactly once and on time", "statement": "A request timeout registered for time e (less than 2^31 ms ahead) and not cancelled fires exactly once, in the tick for max(e, next unprocessed tick), i.e. never before e and never later than the first processing call whose time reaches it; a cancelled one never fires.", "quantifier": "every sequence of add, cancel and advance calls, every clock jump", "why_tests_cant": "Cascading across five wheel levels needs up to 2^31 ticks.", "anchors": ["trpc/transport/client/future/common/timingwheel.h: AddTimerNode, Cascade, DoTimeout, Delete", "trpc/transport/client/future/common/timingwheel_timeout_queue.h"]}
{"id": "C35", "title": "A future's callback runs exactly once", "statement": "If a promise is resolved (value or exception) and a callback is attached by another thread, then under every interleaving the callback is scheduled exactly once, with the promised result; it is never lost and never run twice, including when the promise is dropped unresolved (broken-promise exception).", "quantifier": "every interleaving of the resolving and attaching threads", "why_tests_cant": "Race windows are a few instructions wide.", "anchors": ["trpc/future/future.h: FutureImpl::SetValue, SetException, SetCallback, TrySchedule, Promise::Detach"]}
{"id": "C36", "title": "WhenAll / WhenAny resolve once with the right data", "statement": "WhenAll resolves exactly once, after all inputs resolved, with the i-th result in position i; WhenAny resolves exactly once with the index and outcome of the first input to complete; WhenAnyWithoutException resolves with the first success, or fails exactly when every input failed.", "quantifier": "every number of inputs, every completion order and interleaving of the completion callbacks", "why_tests_cant": "n! completion orders times interleavings.", "anchors": ["trpc/future/future_utility.h: WhenAll, WhenAny, WhenAnyWithoutException"]}
{"id": "C37", "title": "Async semaphore conserves units and is FIFO", "statement": "For every sequence of Wait/TryWait/Signal (with signals possibly issued from inside waiter callbacks), granted units plus available units equal the initial count plus signalled units, waiters are granted in FIFO order, no waiter barges past an earlier one, and when Signal returns no waiter that fits is left behind unless a later-granted holder still has to signal.", "quantifier": "every call sequence, every nesting of callbacks", "why_tests_cant": "Re-entrant signalling produces unboundedly many histories.", "anchors": ["trpc/future/async_lock/semaphore.h: Wait, Signal, TryWait"]}
{"id": "C38", "title": "Async read-write lock excludes writers", "statement": "Under correct pairing of lock and unlock, at no time do a writer and any other holder hold the async RW lock together, and a waiting writer is not overtaken by later readers.", "quantifier": "every call sequence with matched unlocks", "why_tests_cant": "All histories.", "anchors": ["trpc/future/async_lock/rwlock.h"]}
{"id": "C39", "title": "Fiber shared mutex: exclusion and no lost wake-up", "statement": "For any number of reader and writer fibers and every interleaving of their atomic steps, a writer never overlaps a reader or another writer, and no state is reachable in which every unfinished fiber waits while the lock is free (no lost wake-up).", "quantifier": "every number of fibers (readers below kMaxReaders), every interleaving", "why_tests_cant": "Lost wake-ups appear only in particular interleavings.", "anchors": ["trpc/coroutine/fiber_shared_mutex.cc"]}
{"id": "C40", "title": "Fiber mutex: exclusion and hand-off", "statement": "For any number of fibers and every interleaving, at most one fiber owns the fiber mutex, an unlock with waiters hands the lock to the longest-registered waiter, and no waiter is left sleeping while the mutex is free.", "quantifier": "every number of fibers, every interleaving of atomic steps", "why_tests_cant": "Schedule dependent.", "anchors": ["trpc/runtime/threadmodel/fiber/detail/waitable.cc: Mutex::unlock, LockSlowFromFiber, Waitable::WakeOne"]}
{"id": "C41", "title": "The fiber blocking queue is a bounded FIFO and loses no wake-up while it runs", "statement": "In every run of the fiber blocking bounded queue items come out in the order in which they went in, the size counter is the total size of the items inside, the capacity is respected, and front() is never called on an empty deque. While the queue is not stopped: when nothing can move inside of the calls, nobody waits in Pop unless the queue is empty; nobody waits in Push unless the queue is full, if every item has size one; pushers and poppers do not wait for each other, if every item fits into an empty queue. That Stop releases everyone, that a pusher whose (weighted) item fits is woken, that SetCapacity wakes all pushers that fit and that calls after Stop do not lose items are refuted by concrete runs.", "quantifier": "every number of fibers, every interleaving, every size function and capacity without overflow", "why_tests_cant": "Needs several simultaneously blocked fibers and specific schedules.", "anchors": ["trpc/coroutine/fiber_blocking_bounded_queue.h: Push, Pop, TryPush, TryPop, SetCapacity, Stop"]}
{"id": "C42", "title": "Stream flow control bounds in-flight data and does not deadlock", "statement": "With window W, the sender's unacknowledged bytes never exceed W plus one message, for every sequence of writes, reads and feedback deliveries; and when the receiver has consumed everything and all feedback has been delivered the sender is not blocked.", "quantifier": "every message size sequence, every interleaving of write/read/feedback, every window", "why_tests_cant": "Drift accumulates over unboundedly long histories.", "anchors": ["trpc/stream/trpc/trpc_stream_flow_controller.h", "trpc/stream/trpc/trpc_stream.cc: Write, Read, HandleFeedback"]}
{"id": "C43", "title": "Fixed memory pool hands out disjoint live blocks", "statement": "For every sequence of allocate and deallocate calls, blocks handed out and not yet returned are pairwise distinct, lie inside the pool and are aligned to the item size; allocation fails exactly when all items are live; memory that does not belong to the pool is not taken over by it.", "quantifier": "every allocation history and pool geometry", "why_tests_cant": "The free list lives inside the freed blocks; all histories matter.", "anchors": ["trpc/util/container/fixed_arena_allocator.h: FixedMemoryPool"]}
{"id": "C44", "title": "Index allocator never hands out a live index twice", "statement": "For every history of Next/Free in which only live indexes are freed, live indexes are pairwise distinct and the set of indexes ever issued is an initial segment whose size is the maximum number simultaneously live.", "quantifier": "every call history", "why_tests_cant": "All histories.", "anchors": ["trpc/util/internal/index_alloc.cc"]}
{"id": "C45", "title": "Split and join are inverse", "statement": "Joining the parts of a keep-empty split with the same delimiter returns the original string; splitting without keep-empty returns the same parts minus the empty ones; no part contains the delimiter.", "quantifier": "every string and every non-empty delimiter", "why_tests_cant": "Overlapping and repeated delimiters are unbounded.", "anchors": ["trpc/util/string/string_helper.cc: Split, Join", "trpc/util/string/string_util.h: SplitString"]}
{"id": "C46", "title": "Case conversion and comparison are total on bytes", "statement": "Lower/upper-casing and case-insensitive comparison are defined for every byte string and change only ASCII letters.", "quantifier": "every byte string", "why_tests_cant": "Only bytes >= 0x80 misbehave; tests are ASCII.", "anchors": ["trpc/util/string/string_helper.cc: ToLower, ToUpper, IEquals"]}
{"id": "C47", "title": "Fiber run queue keeps FIFO order and never drops a runnable fiber", "statement": "For every interleaving of pushes, batch pushes, pops and steals on a scheduler run queue, each accepted fiber is handed out exactly once, in acceptance order, a batch is accepted or refused as a whole, and Steal never returns a fiber pushed as non-stealable.", "quantifier": "every number of threads, every interleaving, every capacity", "why_tests_cant": "A lost fiber needs a particular interleaving with wrap-around.", "anchors": ["trpc/runtime/threadmodel/fiber/detail/scheduling/v1/run_queue.cc", "trpc/runtime/threadmodel/fiber/detail/scheduling/v1/run_queue.h"]}
{"id": "C48", "title": "Modulo hashing selects by residue", "statement": "After any sequence of updates a request with hash h is sent to the endpoint at position h mod n of the latest list of n endpoints (same host, port and status).", "quantifier": "every update history, every endpoint list, every 64-bit hash", "why_tests_cant": "Quantifies over all hash values and histories.", "anchors": ["trpc/naming/common/util/loadbalance/hash/modulohash_load_balance.cc: Update, Next"]}
{"id": "C49", "title": "A URL is parsed into the parts it was written from", "statement": "Writing scheme, userinfo, host, port, path, query and fragment as a URL and parsing it, with any spaces around, gives exactly these parts; a text is rejected exactly if it has a space inside; parsing reads only the text and its terminating NUL.", "quantifier": "every byte string, every choice of parts free of the delimiters of later parts", "why_tests_cant": "Parts are unbounded byte strings and the scanners differ in what ends them.", "anchors": ["trpc/util/http/url.cc: ParseUrl, ParseSchemeAndAuthority, ParsePath, ParseQuery, ParseFragment, SplitHostAndPort", "trpc/util/http/url.h: UrlParser"]}
{"id": "C50", "title": "Numbers and truth values are read exactly", "statement": "TryParse of an integer type returns a value exactly for the numerals (white space, a sign, digits) whose value the type can hold; TryParse<bool> exactly for 0, 1 and the documented words.", "quantifier": "every byte string, every integer width, every errno left behind", "why_tests_cant": "Only long digit strings, stale errno and embedded NULs misbehave.", "anchors": ["trpc/util/string/string_helper.cc: TryParseImpl, TryNarrowCast, TryParseTraits"]}
{"id": "C51", "title": "Reading from a stream returns what was received, in order, then the end", "statement": "Whatever the order of data, finish and error events and reads, the messages read (synchronously or through promises) are a prefix of the messages received, none twice; after the stream is finished the remaining messages are returned and then the end of the stream for ever; no promise is resolved twice or left waiting while a message or an error is there.", "quantifier": "every sequence of events and reads, every message type", "why_tests_cant": "Event orders are unbounded and races between reads and finish are rarely exercised.", "anchors": ["trpc/stream/common_stream.cc: Read, AsyncRead, OnReady, OnData, OnFinish, OnError, NotifyPending", "trpc/stream/common_stream.h"]}
{"id": "C52", "title": "The condition variable loses no wake-up", "statement": "Fibers may notify with or without the mutex, and pthreads that wait need notifications sent with it: releasing the mutex and waiting are one step for notifiers, a notification takes the first waiter in line not yet woken and that waiter runs, no wait block is used after its wait has returned, a suspended fiber runs only if notified or timed out, and when nothing moves everybody is outside, sleeps in line without a time limit, or wants the mutex somebody has. (Without the mutex a notification can leave a pthread asleep for ever or touch a dead wait block; a wait can report a notification that it did not get.)", "quantifier": "every number of fibers and pthreads, every interleaving, time limits expiring at any time", "why_tests_cant": "The windows are a few instructions wide and need a time-out or a notification inside of them.", "anchors": ["trpc/runtime/threadmodel/fiber/detail/waitable.cc: ConditionVariable, AsyncWaker, WaitChain", "trpc/runtime/threadmodel/fiber/detail/waitable.h", "trpc/util/thread/futex_notifier.h: Wake, Wait"]}
{"id": "C53", "title": "gRPC messages, time-outs, status and types survive the trip", "statement": "A message is written as flag, big-endian length and payload and read back exactly, whatever the layout in blocks; the server splits the data of a stream into its frames in order and keeps the unfinished rest; a time-out of the protocol is read as its duration, and the client's time-out and status and types and body arrive unchanged. (False, with witnesses: an announced length of 2^32-5 makes the server's loop endless and Decode cut past the end; time-outs of 49 days and negative ones arrive changed; a status that is no number ends the client; compressions without a name in the header are lost.)", "quantifier": "all payloads and layouts, all block sizes, all header texts", "why_tests_cant": "The lengths that go wrong are five values in four billion, and the layouts of blocks depend on the network.", "anchors": ["trpc/codec/grpc/grpc_protocol.cc: GrpcMessageContent, GrpcTimeoutTextToUS, Uint32BigEndianConvertor, GetHeaderInteger", "trpc/codec/grpc/grpc_client_codec.cc: FillRequest, GetTimeoutText", "trpc/codec/grpc/grpc_server_codec.cc: ZeroCopyDecode", "trpc/stream/grpc/grpc_server_stream_handler.cc: loop over DATA"]}
{"id": "C54", "title": "The scheduler of a stream handles every message in order and loses none", "statement": "At most one fiber handles the messages of a stream; received messages are handled in order, each once, and so are messages to be sent except for those pushed to the front; nothing accepted is left behind while no handler fails; the fiber ends when there is nothing left; after Join nothing is handled or accepted and the stream has been removed from its connection. (False, with witnesses: closing the connection while an idle stream is stopped deadlocks on the two mutexes; a stream can be removed twice.)", "quantifier": "every interleaving of any number of pushes, stops and a close of the connection, every behaviour of the handlers", "why_tests_cant": "The windows between the flags and between the two mutexes are a few instructions wide.", "anchors": ["trpc/stream/fiber_stream_job_scheduler.cc: PushRecvMessage, PushSendMessage, Stop, Join, Run", "trpc/stream/trpc/trpc_stream_handler.cc: RemoveStream, Stop"]}
{"id": "C55", "title": "A stream delivers what was written, in order, and ends well if its users are polite", "statement": "Whatever the users of both ends do, each end is given a beginning of what the other end wrote, and at the end of the stream exactly what was written before closing; if nobody writes after closing or resets, and the server closes after it has seen the end of the client's messages, no interleaving ever resets the stream, and when nothing moves any more everything has arrived and both ends are closed; a frame or message that does not fit the state ends the stream with RESET and an error. (False, with witnesses: a server that finishes first with success turns into an error at a client that had already called WriteDone; Write after that says success and drops the message.)", "quantifier": "every interleaving of the two ends, their two queues each, the connection and the calls of the users; every sequence of calls", "why_tests_cant": "The outcome depends on which of four queues moves first; tests run one schedule with polite users.", "anchors": ["trpc/stream/trpc/trpc_client_stream.cc: CheckState, HandleInit, HandleData, HandleClose, SendInit, SendData, SendClose, WriteDone", "trpc/stream/trpc/trpc_server_stream.cc: CheckState, HandleInit, HandleData, HandleClose, SendInit, SendData, SendClose", "trpc/stream/trpc/trpc_stream.cc: Close, Reset, SendReset", "trpc/stream/common_stream.cc: Write, OnReady, OnData, OnFinish, OnError"]}
{"id": "C56", "title": "The write queue of a fiber connection sends every byte once and in order", "statement": "Any number of threads append while one writes: the socket gets the bytes of the messages in the order of the exchange of the tail, each message is reported once and after its last byte, at most one thread writes, no assertion fails, no freed node is used, no node leaks, and the count of bytes is exact; when nobody writes any more, all is written. If no message is empty, only a failing socket kills the connection. Shown false: an empty message is harmless, the capacity is kept by threads that test at once, a thread that waits for room is woken when there is some.", "quantifier": "every interleaving of any number of appends, short writes, stops and time-outs; all message layouts; all IOV_MAX and quotas", "why_tests_cant": "The window between the exchange of the tail and the link is a few instructions; the empty message needs a second thread inside of it.", "anchors": ["trpc/runtime/iomodel/reactor/fiber/writing_buffer_list.cc: FlushTo, Append, Stop", "trpc/runtime/iomodel/reactor/fiber/writing_buffer_list.h", "trpc/runtime/iomodel/reactor/fiber/fiber_tcp_connection.cc: Send, FlushWritingBuffer"]}
{"id": "C57", "title": "A fiber connection hands the right to write on without losing it and cleans up once", "statement": "If the handshake never finishes inside OnWritable() and Send() is called after StartHandshaking(): no assertion fails; at most one fiber is inside OnReadable(), one inside OnWritable(), and one thread writes, with something to write; restart counts stay within 2; as long as the connection is not closed somebody sees to every queued message and every readable event; OnCleanup() runs at most once, with nobody inside a callback, and when nothing moves any more a closed connection was cleaned up and an open one waits for exactly the events it needs. Shown false without the two conditions: the process aborts, two threads write at once, a message reported as sent is never written.", "quantifier": "every interleaving of the reactor, its tasks, any number of senders, event and error fibers, Stop() and every sequence of answers of the handshake and the socket", "why_tests_cant": "The restart of an event overtakes its suppression only in a window of a few instructions, and the assertions are about that window; a handshake that ends in OnWritable() needs a full socket.", "anchors": ["trpc/runtime/iomodel/reactor/fiber/fiber_connection.cc: HandleReadEvent, HandleWriteEvent, HandleCloseEvent, SuppressReadAndClearReadEvent, SuppressAndClearWriteEvent, RestartReadNow, RestartWriteNow, Kill, QueueCleanupCallbackCheck", "trpc/runtime/iomodel/reactor/fiber/fiber_tcp_connection.cc: StartHandshaking, Send, OnReadable, OnWritable, DoHandshake, OnCleanup", "trpc/runtime/iomodel/reactor/fiber/fiber_reactor.cc: SubmitTask, HandleTask"]}
{"id": "C58", "title": "A thread-buffered variable shows every recorded value once", "statement": "For Maxer, Miner and IntRecorder, and for a Counter that starts at 0 and is not reset: whatever the threads do, Reset() and GetValue() return the sum, count, largest or least of the values they have taken in; every call of Update() is recorded once and given out by one Reset() or still there; a GetValue() takes in everything that was there when it began except what an exiting thread holds, and a call that runs alone takes in everything; IntRecorder's packed word of count and sum never loses a bit and is committed exactly when one more value does not fit; an update ends. Shown false: a Reset() of a Counter takes away what it returns, a Counter shows its initial value once, a Counter never goes down.", "quantifier": "every interleaving of any number of threads starting, updating and exiting with Reset() and GetValue(); all values", "why_tests_cant": "The window between a thread's load and store, or between the removal and the destruction of its buffer, is a few instructions; the packed word overflows after a million updates of one thread.", "anchors": ["trpc/tvar/common/write_mostly.h: Update, Reset, GetValue, CommitAndClear, Purge", "trpc/tvar/common/atomic_type.h: Modify", "trpc/tvar/basic_ops/reducer.h: Counter, Gauge, Maxer, Miner", "trpc/tvar/basic_ops/recorder.h: IntRecorder, CompressedIntAvg", "trpc/util/thread/internal/object_array.h: ForEach, Deregister"]}
{"id": "C59", "title": "A percentile of latencies is one of them, from the right interval", "statement": "A latency goes into the one interval (up to 2, 4, 8, ...) it belongs to; whatever is drawn, merging two intervals keeps the number of latencies and as many of them as fit; no interleaving of updates with Reset() runs into an assertion or undefined behaviour, and every group Reset() returns stands for the latencies it took; a percentile over at most 1022 such groups is one of the latencies and lies in the interval of the right one, and is the right one while the intervals have room; every latency is taken by one Reset() or still there unless Reset() visits a thread between merging and clearing a full interval. Shown false: 31 updates returned as 60 in that window; a latency 2^31+2^k is undefined behaviour; with 1023 groups the percentile of equal latencies can be 0; an interval with more latencies than samples cannot be merged, nor any beyond 2^32 latencies; a latency added after a look is out of order.", "quantifier": "all latencies, random draws, groups, and interleavings of any number of updating threads with Reset()", "why_tests_cant": "The draws are random and the window between merge and clear is a few instructions; the overflow of Log2 needs one of 31 values out of 2^32.", "anchors": ["trpc/tvar/common/percentile.h: PercentileInterval::Merge, MergeWithExpectation, Add32, GetSampleAt; PercentileSamples::GetNumber, Merge, CombineOf", "trpc/tvar/common/percentile.cc: Log2, GetIntervalIndex, AddLatency::operator()", "trpc/tvar/common/write_mostly.h: Reset", "trpc/tvar/common/fast_rand.cc: FastRandLessThan"]}
{"id": "C60", "title": "A window shows the last seconds of a variable, a series the last seconds, minutes, hours and days", "statement": "Whatever happens to a sampler (samples taken, windows of any size created), nothing goes wrong in its ring, the capacity stays at most 7200, and every window shows the combination of its last seconds, or the newest sample minus the one before them, at most as many seconds as asked for; a window that has been there for that many seconds shows all of them; over running totals that is what was added; the vectors of a series are the last 60 seconds, 60 minutes, 24 hours, 30 days, newest first, each made of complete blocks of the finer ones. A window's size outside 1..3600 aborts. Shown false: GetSamples() leaves out the newest second, so with a window of one second every latency percentile is 0; GetSeries() unlocks its mutex twice, which is undefined.", "quantifier": "all sequences of samples and window creations, all windows, all operations", "why_tests_cant": "A test of an hour's or a day's series takes that long; the growth of the ring happens when a larger window is created later.", "anchors": ["trpc/tvar/common/sampler.h: ReducerSampler::TakeSample, GetValue, SetWindowSize, GetSamples", "trpc/tvar/common/series.h: SeriesBase::Append, AppendSecond, AppendMinute, AppendHour, AppendDay, GetSeries", "trpc/tvar/compound_ops/window.h: WindowBase::WindowBase, GetSpan", "trpc/util/container/bounded_queue.h: BoundedQueue::Push, ElimPush, Pop, Top, Bottom", "trpc/tvar/compound_ops/latency_recorder.cc: LatencyPercentile"]}
{"id": "C61", "title": "HTTP streams write bodies that can be read back", "statement": "The size line of a chunk is the hexadecimal number without leading zeros for every 64-bit length; a chunked body can be read in one way only. For every sequence of calls of a careful user and all answers of the transport, after a successful WriteDone the server's and the client's synchronous streams have put one message on the wire that carries exactly the data of the writes that returned success (chunked or with its Content-Length), and the first part of one before; Close completes a chunked message whose head is out. When an asynchronous stream accepted all frames and closed its writing half, the bytes are the message that the frames describe, trailers included. No call runs out of bounds. Shown false: an empty piece ends a chunked body while all calls succeed; writes after WriteDone are sent; WriteDone before the head takes away the end of the body; WriteDone after a failed WriteHeader sends an end without head; a client whose head was refused sends chunks without head; an empty header gets an extra empty line; the status line 100 lacks its empty line; WriteDone of an asynchronous stream fails after Content-Length: 0.", "quantifier": "all lengths, all sequences of calls, all answers of the transport, all data", "why_tests_cant": "Tests write a few pieces over a transport that works, and compare with the bytes they expect for these.", "anchors": ["trpc/stream/http/common.cc: HttpChunkHeader", "trpc/stream/http/http_stream.cc: HttpWriteStream::WriteHeader, Write, WriteDone", "trpc/stream/http/http_stream.h: HttpWriteStream::Close", "trpc/stream/http/http_client_stream.cc: HttpClientStream::SendRequestHeader, Write, WriteDone, Close, SendMessage", "trpc/stream/http/common/stream.cc: HttpCommonStream::PreSendHeader, PreSendData, PreSendEof, PreSendTrailer, CheckState", "trpc/stream/http/async/stream.cc: HttpAsyncStream::PushSendMessage, AsyncWrite"]}
{"id": "C62", "title": "HTTP messages are cut out of a connection the same way however they arrive", "statement": "With any head parser and chunk decoder that satisfy a stated contract (a small library in the model does): what a server connection delivers depends on the bytes, not on the reads, if heads end with CR LF or the input is within the limit; well-formed requests are delivered once each, in order, with their fields and content; a head with both kinds of framing, a bad length, a message or a head over the limit close the connection; without blocking no request and no buffer grows over the limit; a client gets one well-formed response as sent, without a body for HEAD. Refuted: of two different lengths the first is believed, any Transfer-Encoding means chunked, +1 is a length, LF-only heads over the limit depend on the reads, a good request is lost with a bad one in the same read, a second response in a read waits, a response without a length loses its body, 100 Continue is taken as the answer.", "quantifier": "all parsers satisfying the contract, limits, sequences of messages, inputs, and ways to cut them into reads", "why_tests_cant": "Tests feed whole messages or cut at a few places; the number of ways to cut is exponential.", "anchors": ["trpc/codec/http/http_server_proto_checker_impl.cc: ParseHeader, ParseContent, AppendBuffer, CheckBufferSize, ShouldEnqueue, ParseHttpRequest, HttpZeroCopyCheckRequest", "trpc/codec/http/http_client_proto_checker_impl.cc: ParseHeader, ParseContent, CheckBufferSize, ParseHttpResponse, HttpZeroCopyCheckResponse", "trpc/util/buffer/noncontiguous_buffer.cc: FlattenSlowUntil", "trpc/util/http/util.cc: ParseContentLength"]}
{"id": "C63", "title": "The handler of an HTTP request reads its body exactly", "statement": "A connection's fiber writes pieces of a request body into a bounded buffer with HttpReadStream::Write (FiberBlockingNoncontiguousBuffer::AppendAlways) and closes it; the handler's fiber calls Read() with arbitrary sizes and deadlines and then Close(). In every interleaving the answers are an allowed trace: the bytes returned are a prefix of the body, a call returns as many as it asked for unless the body is complete and wholly read with it, EOF is reported only then, an error only when the connection broke, a timeout consumes nothing, and every call is answered once. The buffer never holds more than its capacity, every run ends within a bound that is linear in the body and the calls, no wake-up of the handler is lost, and if the handler reads everything the writing fiber returns. Refuted: AppendAlways() ignores the stop token, so a handler that returns without reading a body larger than the buffer leaves the connection's fiber asleep for ever; AppendToRequest() asks for one byte more than can ever be buffered, so a chunked body over the limit is never reported as too large but times out.", "quantifier": "for all capacities, pieces of the body, ways to close it, sizes of reads, deadlines and interleavings", "why_tests_cant": "The outcome depends on when the two fibers sleep, wake, load and store the shared state and on when deadlines pass; tests run a few schedules with small bodies that fit into the buffer.", "anchors": ["trpc/coroutine/fiber_blocking_noncontiguous_buffer.h:27-167", "trpc/stream/http/http_stream.h:33-150", "trpc/stream/http/http_stream.cc:41-81", "trpc/codec/http/http_server_proto_checker_impl.cc:122-203", "trpc/server/http_service.cc:37-61"]}
{"id": "C64", "title": "A sequence lock gives its readers whole versions", "statement": "FiberSeqLock with any number of threads that write all cells between WriteSeqLock() and WriteSeqUnlock() or read all cells between ReadSeqBegin() and ReadSeqRetry(). If the counter starts even, then in every interleaving at most one thread writes, the counter is even exactly when nobody stores, and a read that is accepted while the counter was incremented fewer than 2^32 times is exactly the version that was the latest from its begin to its end; with fewer than 2^31 writes in all every accepted read is the first content or a written one. A writer with the mutex never waits; a reader left alone finishes after loading the counter, the cells and the counter. Refuted: the counter has no initialiser, and if it starts odd readers accept torn data while someone stores and spin for ever while nobody writes; 2^31 writes during one read make it accept a mixture.", "quantifier": "for all numbers of threads, programs of reads and writes, contents, sizes, even moduli, first values and interleavings", "why_tests_cant": "A torn read needs a particular interleaving of loads and stores, the wrap-around 2^31 writes during one read, and the value of the uninitialised counter depends on what was on the stack before.", "anchors": ["trpc/coroutine/fiber_seqlock.h:23-155", "trpc/coroutine/fiber_seqlock.cc:18-32"]}
{"id": "C65", "title": "The event count loses no wake-up", "statement": "PredicateNotifier with any number of waiting and notifying threads. In every interleaving: a thread that sleeps in CommitWait although a Notify(true) took effect after its PrepareWait is about to be woken by a notifier that runs, so that none sleeps once no Notify runs; a thread that has not decided yet returns instead of sleeping. Notify(true) leaves nobody waiting, Notify(false) frees exactly one waiting thread or finds none; CommitWait returns only after a Notify that followed its PrepareWait. A sleeping thread is on the stack or with exactly one notifier, and the exchange that pops the stack succeeds only if the next pointer it had read is still right (no ABA). Undecided threads have different tickets, the asserts on the counter of undecided threads hold, and it never exceeds the number of waiters. The 64-bit arithmetic on the packed word does the same to the fields, and its comparison of epochs is right across the wrap for distances below 2^31.", "quantifier": "for all numbers of threads, first epochs and interleavings; the packed word for all fields", "why_tests_cant": "A lost wake-up or an ABA on the lock-free stack needs an interleaving of single loads and exchanges of three or more threads.", "anchors": ["trpc/util/thread/predicate_notifier.h:60-250"]}
{"id": "C66", "title": "A backup request takes the first answer", "statement": "FiberTransport::SendRecvForBackupRequest over connectors that report an answer that comes second as an error (complex TCP, UDP), in every interleaving of the caller and the fibers of the two requests: if it returns success, the message and succ_rsp_node_index are those of one request that was answered; if it returns an error, both requests were sent and failed and none was answered; after it returned nothing writes the caller's frame, so message, code and index stay; no run is longer than 19 steps, and until it returns the caller or a fiber can move or a request is still unanswered. Refuted for the pooled and pipelined TCP connectors, which report a late answer as success: the caller can return success without a message, a message can be stored in the frame of a caller that has returned, and the index can be that of the other node. Refuted for all: with a delay of 0 the wait has no time-out, and if the first request fails the caller sleeps for ever; the test that is to skip the wait after a failed connection never does.", "quantifier": "for all interleavings, error codes and orders of answers, failures and time-outs of the two requests", "why_tests_cant": "The errors need an answer that arrives between two instructions of the fiber that handles the other answer.", "anchors": ["trpc/transport/client/fiber/fiber_transport.cc:80-139", "trpc/transport/client/fiber/common/fiber_backup_request_retry.cc:20-55", "trpc/transport/client/fiber/conn_pool/fiber_tcp_conn_pool_connector.cc:257-269"]}
{"id": "C67", "title": "The fiber mutex with time limits excludes and loses no wake-up", "statement": "FiberTimedMutex, used so that only the owner unlocks: in every interleaving of lock, try_lock, try_lock_for/until and unlock, with deadlines that pass and waits that end without a reason at any time, the reports of the calls are a history of a mutex (it is taken when free, released by its owner, and an attempt fails only while another fiber owns it), at most one fiber has it, and if nobody has it and somebody waits, a fiber has been woken that takes it with its next step. Refuted: the header's promise that unlock transfers the mutex to a waiting fiber (a waiting fiber can be overtaken any number of times); and exclusion, if somebody else unlocks, which nothing checks.", "quantifier": "for all numbers of fibers and all interleavings", "why_tests_cant": "A lost wake-up needs a deadline that passes between the notification and the moment the woken fiber has the inner mutex again.", "anchors": ["trpc/coroutine/fiber_timed_mutex.cc:20-68", "trpc/coroutine/fiber_timed_mutex.h:24-46"]}
{"id": "C68", "title": "The latch opens when everything has been counted, and for everybody", "statement": "FiberLatch, in every interleaving, with deadlines and waits that end without a reason: a wait or test passes exactly when what was counted adds up to the first count, a wait with a deadline gives up only while something is left, with nothing left nobody is asleep and every fiber in a wait passes with its next step, as does every new wait, and so it stays if no update is negative; a latch that starts at zero or more ends the process only when more is counted than is left. Refuted: an opened latch stays open (a negative update is accepted and closes it on a fiber already woken); the check for counts below zero (WaitFor and WaitUntil do without).", "quantifier": "for all first counts, updates, numbers of fibers and interleavings", "why_tests_cant": "A lost wake-up needs a fiber that goes to sleep between the last count and the notification.", "anchors": ["trpc/coroutine/fiber_latch.cc:15-41", "trpc/coroutine/fiber_latch.h:40-54"]}
