{"id": "C01", "title": "Fixed is a bounded FIFO queue", "statement": "A Fixed queue created with capacity n >= 1 answers every call (len, is_empty, enqueue, dequeue, bulk_enqueue, bulk_dequeue, expose_slots + consider_enqueued, expose_items + consider_dequeued) exactly as a bounded first-in-first-out list of capacity n would: same items in the same order, enqueue hands the item back iff n items are stored, dequeue returns None iff nothing is stored.", "quantifier": "every item type, every capacity n >= 1, every finite sequence of API calls that respects the exposure rules, every argument", "why_tests_cant": "a ring buffer has capacity * (capacity+1) read/length configurations for every capacity and its bugs hide in specific wrap-around positions; the fuzz targets only sample them", "anchors": ["ufotofu_queues/src/fixed.rs: Fixed::{new, new_with_manual_tmps}, impl Queue for Fixed", "ufotofu_queues/src/lib.rs: Queue::{bulk_enqueue, bulk_dequeue, is_empty}"]}
{"id": "C02", "title": "Static is a bounded FIFO queue and is indistinguishable from Fixed", "statement": "A Static<T, N> with N >= 1 answers every call exactly as a bounded first-in-first-out list of capacity N, and hence exactly as a Fixed of capacity N driven by the same calls, including the lengths of exposed slices.", "quantifier": "every item type, every N >= 1, every finite sequence of API calls that respects the exposure rules", "why_tests_cant": "N is a compile-time constant, so a test can only instantiate finitely many N", "anchors": ["ufotofu_queues/src/static_.rs: Static::new, impl Queue for Static", "ufotofu_queues/src/lib.rs: Queue"]}
{"id": "C03", "title": "Queue exposure is non-empty, in order, and bulk calls make progress", "statement": "expose_slots is None iff the queue is full and otherwise offers at least one and at most (capacity - len) slots; expose_items is None iff the queue is empty and otherwise shows a non-empty prefix of the stored items; bulk_enqueue/bulk_dequeue with a non-empty buffer transfer at least one item unless the queue is full/empty, and bulk_dequeue leaves the part of the buffer beyond the returned count untouched.", "quantifier": "every reachable queue state (every capacity, read position and length), every buffer", "why_tests_cant": "the claim is about every wrap-around position; a wrong slice bound shows only at particular offsets", "anchors": ["ufotofu_queues/src/fixed.rs: readable_slice, writeable_slice", "ufotofu_queues/src/static_.rs: readable_slice, writeable_slice", "ufotofu_queues/src/lib.rs: Queue::{expose_slots, expose_items, bulk_enqueue, bulk_dequeue}"]}
{"id": "C04", "title": "Exposed bulk transfer equals repeated single transfer", "statement": "Writing k items into the exposed slots and calling consider_enqueued(k) has the same effect on all later calls as enqueueing these k items one by one; consider_dequeued(k) after expose_items has the same effect as k dequeue calls. The split of k over several consider_* calls is irrelevant.", "quantifier": "every reachable queue state, every k not exceeding the exposed length, every written items, every way of splitting k", "why_tests_cant": "documented as an equivalence of all future behaviours, which a test can only probe for finitely many continuations", "anchors": ["ufotofu_queues/src/lib.rs: Queue::{consider_enqueued, consider_dequeued}", "ufotofu_queues/src/fixed.rs", "ufotofu_queues/src/static_.rs"]}
{"id": "C05", "title": "Queues never panic, never leave bounds, never emit their filler values", "statement": "For capacity >= 1, no rule-respecting call sequence panics (no index out of bounds, no division by zero, no arithmetic underflow); the intermediate sum read+len stays below twice the capacity; every dequeued or exposed item is one that was enqueued before, never one of the temporaries the buffer was initialised with.", "quantifier": "every capacity >= 1, every choice of initial temporaries, every rule-respecting call sequence", "why_tests_cant": "absence of panics over all histories; a single missed wrap-around position invalidates it", "anchors": ["ufotofu_queues/src/fixed.rs: Fixed::new_with_manual_tmps, write_to, dequeue", "ufotofu_queues/src/static_.rs: Static::new_with_manual_tmps"]}
{"id": "C06", "title": "Zero-capacity queues panic on a permitted call", "statement": "The claim 'rule-respecting calls never panic' fails for capacity 0: consider_dequeued(0), which marks no item at all, divides by zero (Fixed::new(0), Static<T,0>). All other calls on a zero-capacity queue behave like a queue that is both full and empty.", "quantifier": "capacity 0, every other call sequence", "why_tests_cant": "the test suites and fuzz targets exclude capacity 0", "anchors": ["ufotofu_queues/src/fixed.rs: consider_dequeued", "ufotofu_queues/src/static_.rs: consider_dequeued"]}
{"id": "C07", "title": "Debug output of a queue lists exactly its contents", "statement": "The items listed by the Debug representation of a Fixed or Static (and its reported length) are exactly the items currently stored, oldest first.", "quantifier": "every reachable queue state with capacity >= 1", "why_tests_cant": "wrap-around positions again; the unit test inspects a handful of states of one capacity", "anchors": ["ufotofu_queues/src/fixed.rs: impl Debug for Fixed, DataDebugger", "ufotofu_queues/src/static_.rs: DataDebugger"]}
{"id": "C08", "title": "Default bulk_consume consumes a non-empty prefix, equivalently to single consumes", "statement": "On any consumer whose exposed slots behave as documented, bulk_consume(buf) with non-empty buf returns k with 1 <= k <= buf.len() and leaves the consumer exactly as consuming buf[0..k] one at a time would; if it errors, consuming one at a time would error as well with the same error.", "quantifier": "every contract-abiding bulk consumer (any slot sizes, any error point), every buffer", "why_tests_cant": "quantifies over all implementations of the trait", "anchors": ["ufotofu/src/lib.rs: BulkConsumer::bulk_consume"]}
{"id": "C09", "title": "consume_full_slice and bulk_consume_full_slice consume everything or report how much (one part violated)", "statement": "Both methods either consume the entire slice in order and return Ok, or return the consumer's error with a count; both leave the consumer with the same consumed items. The count of consume_full_slice is exactly the number of items that were consumed before the error. The same is documented for bulk_consume_full_slice; in fact its count is the number of items that completed bulk_consume calls reported, which does not include items accepted within the call that failed. It is exact for consumers that accept what they expose slots for.", "quantifier": "every contract-abiding bulk consumer, every slice length, every error position, every pattern of slot sizes", "why_tests_cant": "count bookkeeping must hold for all ways a slice is split into chunks", "anchors": ["ufotofu/src/lib.rs: Consumer::consume_full_slice, BulkConsumer::bulk_consume_full_slice", "ufotofu/src/errors.rs: ConsumeAtLeastError"]}
{"id": "C10", "title": "overwrite_full_slice and bulk_overwrite_full_slice fill everything or report the exact count", "statement": "Both methods either overwrite the full slice with the next items of the producer in order and return Ok, or write exactly `count` items to the front of the slice, leave the remainder untouched and report the final value (Left) or the error (Right) the producer emitted at that point; items after the slice's end stay in the producer.", "quantifier": "every contract-abiding bulk producer with a finite sequence, every slice, every pattern of exposure sizes", "why_tests_cant": "must hold for all ways the sequence is split into exposed chunks", "anchors": ["ufotofu/src/lib.rs: Producer::{overwrite_full_slice, produce_item}, BulkProducer::{bulk_produce, bulk_overwrite_full_slice}", "ufotofu/src/errors.rs: ProduceAtLeastError"]}
{"id": "C11", "title": "Default bulk_produce emits a non-empty prefix, equivalently to single produces", "statement": "On any contract-abiding bulk producer, bulk_produce(buf) with non-empty buf either writes 1 <= k <= buf.len() items, being the next k items of the sequence, into buf[0..k] without touching buf[k..], or reports exactly the final value/error that produce would have reported.", "quantifier": "every contract-abiding bulk producer, every buffer, every state", "why_tests_cant": "quantifies over all implementations of the trait", "anchors": ["ufotofu/src/lib.rs: BulkProducer::bulk_produce"]}
{"id": "C12", "title": "pipe transfers the whole sequence in order, then closes", "statement": "pipe feeds the producer's items to the consumer in order, without loss, duplication or reordering. It returns Ok iff all items and the final value were accepted; a producer error is reported as PipeError::Producer after all earlier items were consumed; a consumer error as PipeError::Consumer, with at most the one item offered to the failing call lost.", "quantifier": "every producer and every consumer (no assumption on either), every point of failure", "why_tests_cant": "quantifies over all producers/consumers and all failure points", "anchors": ["ufotofu/src/lib.rs: pipe", "ufotofu/src/errors.rs: PipeError"]}
{"id": "C13", "title": "bulk_pipe is equivalent to pipe and terminates", "statement": "For contract-abiding bulk producers with finitely many items and contract-abiding bulk consumers, bulk_pipe terminates, and produces the same result and the same consumed items and final value as pipe, independent of exposure and slot sizes. If the consumer fails, the producer still holds every item that was not consumed.", "quantifier": "every contract-abiding bulk producer/consumer, every combination of exposure sizes, every failure point", "why_tests_cant": "all interleavings of two chunkings", "anchors": ["ufotofu/src/lib.rs: bulk_pipe"]}
{"id": "C14", "title": "pipe_at_most respects its limit and reports precisely", "statement": "pipe_at_most(count) on success returns the number of items transferred, which is at most count; it transferred exactly the first that many items; the final value was emitted and used to close the consumer iff the returned number is strictly less than count; otherwise the producer still holds the remaining sequence and the consumer is not closed.", "quantifier": "every producer and consumer, every count including 0 and counts above the sequence length, every failure point", "why_tests_cant": "an if-and-only-if over all inputs with off-by-one risk at count = length", "anchors": ["ufotofu/src/lib.rs: pipe_at_most"]}
{"id": "C15", "title": "bulk_pipe_at_most is equivalent to pipe_at_most", "statement": "For contract-abiding bulk producers/consumers, bulk_pipe_at_most(count) terminates, never transfers more than count items, returns the same number or error as pipe_at_most, leaves the same consumed items, and leaves exactly the untransferred items in the producer.", "quantifier": "every contract-abiding bulk producer/consumer, every count, every combination of exposure sizes", "why_tests_cant": "all interleavings of two chunkings and all counts", "anchors": ["ufotofu/src/lib.rs: bulk_pipe_at_most"]}
{"id": "C16", "title": "FromSlice and FromBoxedSlice emit exactly their slice", "statement": "Under any rule-respecting mix of produce, slurp, expose_items, consider_produced and bulk_produce, the items emitted are the slice's items in order, without loss or duplication, followed by the final value (); offset, produced_so_far and not_yet_produced always report exactly the split point, and no call errors.", "quantifier": "every slice, every rule-respecting call history", "why_tests_cant": "all histories mixing single and bulk calls", "anchors": ["ufotofu/src/producer/from_slice.rs", "ufotofu/src/producer/from_boxed_slice.rs"]}
{"id": "C17", "title": "Empty emits only its final value", "statement": "Empty emits its configured final value on the first produce or expose_items, never an item and never an error; slurping before is harmless.", "quantifier": "every final value, every rule-respecting call history", "why_tests_cant": "all histories", "anchors": ["ufotofu/src/producer/empty.rs"]}
{"id": "C18", "title": "IntoVec collects exactly what was consumed", "statement": "Under any rule-respecting mix of consume, flush, expose_slots, consume_slots, bulk_consume and close, the collected vector (as_ref and into_vec) equals the initial vector followed by all consumed items in order, regardless of how slots were exposed and how many of them were used; no call errors, expose_slots always offers at least one slot.", "quantifier": "every initial vector, every filler value, every rule-respecting call history", "why_tests_cant": "growth policy and stale filler values interact with all histories", "anchors": ["ufotofu/src/consumer/into_vec.rs"]}
{"id": "C19", "title": "The producer Limit adaptor emits the first n items (one case violated)", "statement": "Limit(n) around any contract-abiding bulk producer is a contract-abiding bulk producer emitting the first n items; if the inner producer has fewer than n items, its final value is emitted wrapped in Some (and errors are forwarded); otherwise None is emitted after exactly n items and the inner producer is left with the rest of its sequence untouched. There is one exception: slurp is forwarded even when the limit is reached, so that an error of the inner producer right after exactly n items surfaces in slurp although the sequence should end with None. In every rule-respecting history, this is the only deviation.", "quantifier": "every contract-abiding inner producer, every n (including 0), every rule-respecting call history", "why_tests_cant": "compositional claim over all inner producers and histories", "anchors": ["ufotofu/src/producer/limit.rs"]}
{"id": "C20", "title": "The consumer Limit adaptor accepts the first n items", "statement": "Limit(n) around any contract-abiding bulk consumer accepts exactly the items the inner consumer accepts among the first n, forwards them unchanged and in order, never lets more than n items reach the inner consumer even through exposed slots, and rejects the (n+1)-st item with error None; inner errors are reported as Some; close and flush are forwarded.", "quantifier": "every contract-abiding inner consumer, every n (including 0), every rule-respecting call history", "why_tests_cant": "compositional claim over all inner consumers and histories", "anchors": ["ufotofu/src/consumer/limit.rs"]}
{"id": "C21", "title": "MapItem applies its function to each item once, in order", "statement": "The producer MapItem emits exactly f(x) for each inner item x in order with the inner final value/error; the consumer MapItem feeds exactly f(x) for each consumed x in order to the inner consumer and forwards close, flush and errors unchanged.", "quantifier": "every inner producer/consumer, every (stateful) function f, every history", "why_tests_cant": "compositional claim", "anchors": ["ufotofu/src/producer/map_item.rs", "ufotofu/src/consumer/map_item.rs"]}
{"id": "C22", "title": "MapFinal changes nothing but the final value", "statement": "MapFinal around any contract-abiding producer/consumer behaves exactly like the inner one on all calls, except that the final value is mapped by the given function exactly once.", "quantifier": "every inner producer/consumer, every function, every rule-respecting history", "why_tests_cant": "compositional claim over all histories", "anchors": ["ufotofu/src/producer/map_final.rs", "ufotofu/src/consumer/map_final.rs"]}
{"id": "C23", "title": "MapError changes nothing but the error (violated)", "statement": "MapError is documented to behave like its inner producer/consumer with the error value mapped. In fact the mapping function is taken on every call, even successful ones, so that the second method call panics although no error ever occurred.", "quantifier": "every inner producer/consumer and every history with at least two calls", "why_tests_cant": "the property is universally quantified; one history of length two refutes it", "anchors": ["ufotofu/src/producer/map_error.rs", "ufotofu/src/consumer/map_error.rs"]}
{"id": "C24", "title": "The invariant checker is transparent for rule-respecting callers", "statement": "In test builds every producer/consumer is wrapped in a checker; for every rule-respecting call history the wrapped object returns the same results and reaches the same inner state as the unwrapped one (release builds), so tests exercise the same behaviour that is shipped.", "quantifier": "every inner producer/consumer, every rule-respecting history", "why_tests_cant": "equivalence over all histories", "anchors": ["ufotofu/src/producer/invariant.rs", "ufotofu/src/consumer/invariant.rs", "ufotofu/src/producer/invariant_noop.rs", "ufotofu/src/consumer/invariant_noop.rs", "ufotofu/src/producer/macros.rs", "ufotofu/src/consumer/macros.rs"]}
{"id": "C25", "title": "The invariant checker detects use after end", "statement": "After a wrapped producer emitted a final value or error through produce, slurp or expose_items, or a wrapped consumer was closed or returned an error from consume, flush or expose_slots, every further call panics; so does marking more items than are currently exposed.", "quantifier": "every inner producer/consumer, every history", "why_tests_cant": "all histories", "anchors": ["ufotofu/src/producer/invariant.rs", "ufotofu/src/consumer/invariant.rs"]}
{"id": "C26", "title": "The invariant checker does not detect use after a failed consider_produced/consume_slots (violated)", "statement": "The documentation states that after any method returned an error no further method may be called, and that the wrapper panics on violations. After an error returned by consider_produced (producer) or consume_slots (consumer) the wrapper stays active and forwards further calls.", "quantifier": "every inner producer/consumer whose consider_produced/consume_slots can fail", "why_tests_cant": "universally quantified claim refuted by a witness", "anchors": ["ufotofu/src/producer/invariant.rs: consider_produced", "ufotofu/src/consumer/invariant.rs: consume_slots"]}
{"id": "C27", "title": "The invariant checker accepts stale exposures (violated)", "statement": "The checker is meant to reject consume_slots/consider_produced calls for slots that are not the most recently exposed ones. Interleaving consume (or produce) between exposure and marking is accepted; with IntoVec as the inner consumer such an accepted history makes the collected prefix longer than the vector, so that reading it panics.", "quantifier": "all histories accepted by the checker", "why_tests_cant": "refuted by a witness history", "anchors": ["ufotofu/src/consumer/invariant.rs", "ufotofu/src/producer/invariant.rs", "ufotofu/src/consumer/into_vec.rs"]}
{"id": "C28", "title": "The producer BulkScrambler is transparent", "statement": "A producer BulkScrambler around any contract-abiding bulk producer emits exactly the inner sequence of items followed by the inner final value/error, for every operation pattern, every capacity >= 1 and every rule-respecting history of produce, expose_items, consider_produced and bulk_produce; all its internal loops terminate; and it never reads ahead more than `capacity` items.", "quantifier": "every contract-abiding inner producer with a finite sequence, every operation pattern, every capacity >= 1, every slurp-free history", "why_tests_cant": "all operation patterns times all histories", "anchors": ["ufotofu/src/producer/bulk_scrambler.rs"]}
{"id": "C29", "title": "slurp on a producer BulkScrambler breaks the inner producer's contract (violated)", "statement": "slurp on a contract-abiding producer must be callable whenever the sequence has not ended. The producer BulkScrambler calls slurp on its inner producer even after that inner producer has emitted its final value; with a TestProducer inside, a first slurp on a sequence shorter than the buffer panics, and an inner error at that time replaces the buffered final value.", "quantifier": "every inner producer whose sequence is shorter than the capacity", "why_tests_cant": "universally quantified claim refuted by a witness", "anchors": ["ufotofu/src/producer/bulk_scrambler.rs: slurp", "ufotofu/src/producer/test_producer.rs: slurp"]}
{"id": "C30", "title": "The consumer BulkScrambler forwards everything in order with bounded delay", "statement": "In release builds a consumer BulkScrambler (capacity >= 1) around any contract-abiding bulk consumer feeds it exactly the items it consumed, in order; at any time at most `capacity` items are withheld; a successful flush or close leaves none withheld (and close delivers the final value); it errs only with an error the inner consumer raised on these very items; all internal loops terminate.", "quantifier": "every contract-abiding inner consumer, every operation pattern, every capacity >= 1, every rule-respecting history, every error point", "why_tests_cant": "all operation patterns times all histories times all error points", "anchors": ["ufotofu/src/consumer/bulk_scrambler.rs"]}
{"id": "C31", "title": "The consumer BulkScrambler panics in debug builds when its buffer overflows (violated)", "statement": "consume on a consumer BulkScrambler should succeed while the inner consumer accepts items. With debug assertions enabled, the consume call that finds the buffer full panics after emptying it, because the assertion tests the wrong polarity.", "quantifier": "every capacity and operation pattern, every inner consumer accepting the items", "why_tests_cant": "the fuzz targets use capacity 2048 and rarely exceed it; universally quantified claim refuted by a witness", "anchors": ["ufotofu/src/consumer/bulk_scrambler.rs: consume"]}
{"id": "C32", "title": "Zero-capacity scramblers lose items or panic (violated)", "statement": "new_with_capacity accepts capacity 0. A consumer BulkScrambler with capacity 0 then silently drops every item passed to consume in release builds, and expose_slots panics; a producer BulkScrambler with capacity 0 panics on the first produce or expose_items.", "quantifier": "every inner producer/consumer with capacity 0", "why_tests_cant": "universally quantified claim refuted by a witness", "anchors": ["ufotofu/src/consumer/bulk_scrambler.rs: new_with_capacity, consume, expose_slots", "ufotofu/src/producer/bulk_scrambler.rs: produce, expose_items"]}
{"id": "C33", "title": "TestProducer emits exactly its configured sequence with the configured exposure sizes", "statement": "A TestProducer built with items, last, exposure sizes and yield pattern emits exactly the items then last under every rule-respecting history; the i-th successful expose_items shows min(sizes[i mod len], remaining) items; remaining, peek_last and did_already_emit_last are accurate at all times.", "quantifier": "every items, last, sizes and yield pattern, every rule-respecting history", "why_tests_cant": "all configurations times all histories", "anchors": ["ufotofu/src/producer/test_producer.rs"]}
{"id": "C34", "title": "TestConsumer accepts exactly n items and then fails once", "statement": "A TestConsumer built with error e after n items accepts exactly n items, whether consumed singly or through slots, and fails with e on the next call of any kind (consume, flush, close, expose_slots, consume_slots); consumed() equals the accepted items at all times, also after the error; final_consumed is the closing value iff close succeeded; each exposed slice is non-empty, no longer than the configured size and never exceeds the number of items still accepted.", "quantifier": "every n, e, sizes and yield pattern, every rule-respecting history", "why_tests_cant": "all configurations times all histories", "anchors": ["ufotofu/src/consumer/test_consumer.rs"]}
{"id": "C35", "title": "TestYielder always lets its future complete", "statement": "For every yield pattern (including empty and all-true ones) awaiting maybe_yield completes after finitely many polls, at most one less than the (completed) pattern's length pending results in a row, and consecutive awaits cycle through the pattern: the sequence of pending/ready answers is the pattern repeated.", "quantifier": "every pattern, every starting index, every number of awaits", "why_tests_cant": "liveness for all patterns", "anchors": ["ufotofu/src/test_yielder.rs", "ufotofu/src/producer/test_producer.rs: yield_pattern", "ufotofu/src/consumer/test_consumer.rs: yield_pattern"]}
{"id": "C36", "title": "Merge outputs an order-preserving interleaving under every readiness schedule", "statement": "Whatever the schedule in which the two inner produce futures become ready, the items emitted by Merge are an interleaving of the two inner item sequences that preserves each one's order, nothing lost or duplicated; if both end with final values, the value emitted is that of the producer that ended last, after all items of both; if one fails, its error is emitted after all its items and after a prefix of the other's.", "quantifier": "every two producers with finite sequences, every readiness schedule (which future is pending at each poll), every number of spurious polls", "why_tests_cant": "all schedules", "anchors": ["ufotofu/src/producer/merge.rs"]}
{"id": "C37", "title": "Merge never polls a producer that has ended and panics only on use after end", "statement": "As long as the caller stops after Merge's final value or error, Merge never calls produce on an inner producer that already emitted its final value or error, and never panics. In particular it makes progress whenever an inner future is ready.", "quantifier": "every two producers, every schedule", "why_tests_cant": "all schedules", "anchors": ["ufotofu/src/producer/merge.rs"]}
{"id": "C38", "title": "BufReaderToBulkProducer is byte-exact", "statement": "For every buffered reader (any fill sizes) ending in end-of-file, any rule-respecting mix of produce, slurp, expose_items, consider_produced and bulk_produce with non-empty buffers emits exactly the reader's bytes in order followed by the final value; reader errors of kinds other than UnexpectedEof are forwarded.", "quantifier": "every buffered reader behaviour (all short-read patterns), every rule-respecting history", "why_tests_cant": "all short-read schedules", "anchors": ["ufotofu/src/producer/reader.rs: BufReaderToBulkProducer"]}
{"id": "C39", "title": "ReaderToBulkProducer is byte-exact", "statement": "For every reader (any short reads) and every well-behaved queue of capacity >= 1, any rule-respecting mix of produce, slurp, expose_items, consider_produced and bulk_produce with non-empty buffers emits exactly the queued bytes followed by the reader's bytes, in order, then the final value; reader errors of kinds other than UnexpectedEof are forwarded.", "quantifier": "every reader behaviour, every queue, every rule-respecting history", "why_tests_cant": "all short-read schedules times histories that switch between buffered and direct reads", "anchors": ["ufotofu/src/producer/reader.rs: ReaderToBulkProducer", "ufotofu_queues/src/lib.rs: Queue"]}
{"id": "C40", "title": "WriterToBulkConsumer is byte-exact", "statement": "For every writer (any short writes) and every well-behaved queue of capacity >= 1, after any rule-respecting history the bytes the writer received followed by the bytes still queued equal the bytes consumed; consume, flush, close and bulk_consume leave nothing queued on success; close also closes the writer; a writer error is forwarded, and the bytes written by then are a prefix of those consumed.", "quantifier": "every writer behaviour (all short-write patterns, errors at any point), every queue, every rule-respecting history", "why_tests_cant": "all short-write schedules times histories that switch between queued and direct writes", "anchors": ["ufotofu/src/consumer/writer.rs"]}
{"id": "C41", "title": "Reader and writer adaptors mishandle empty buffers and UnexpectedEof (violated)", "statement": "Semantically there must be no difference between bulk and single operation. bulk_produce with an empty buffer on the reader adaptors reports the final value although bytes remain, and bulk_consume with an empty buffer on the writer adaptor fails with WriteZero although the writer is healthy, whereas the default implementations return 0. A reader error of kind UnexpectedEof is reported as the final value by produce but as an error by expose_items and bulk_produce.", "quantifier": "every reader/writer; empty buffers; errors of kind UnexpectedEof", "why_tests_cant": "universally quantified equivalence refuted by witnesses", "anchors": ["ufotofu/src/producer/reader.rs: produce, bulk_produce", "ufotofu/src/consumer/writer.rs: bulk_consume"]}
{"id": "C42", "title": "Endian integers round-trip through every producer and consumer", "statement": "Encoding any value of the sixteen fixed-width integer wrappers into any contract-abiding consumer that accepts enough bytes, then decoding from any contract-abiding producer of those bytes (possibly followed by more), yields the same value and leaves the producer exactly at the byte after the encoding.", "quantifier": "every integer of every width, signedness and byte order; every chunking by producer and consumer; every trailing data", "why_tests_cant": "2^64 values times all chunkings", "anchors": ["ufotofu_codec_endian/src/lib.rs: endian_wrapper, endian_wrapper_single_byte", "ufotofu_codec/src/encode.rs: Encodable", "ufotofu_codec/src/decode.rs: Decodable"]}
{"id": "C43", "title": "Endian encodings are injective, prefix-free and of the announced length", "statement": "Distinct values have distinct encodings, no encoding is a prefix of a different one, and every encoding has exactly len_of_encoding() = width/8 bytes, laid out in the announced byte order (two's complement for signed types).", "quantifier": "every pair of values of every wrapper type", "why_tests_cant": "2^128 pairs", "anchors": ["ufotofu_codec_endian/src/lib.rs", "ufotofu_codec/src/encode.rs: EncodableKnownSize"]}
{"id": "C44", "title": "Canonic decoding of endian integers re-encodes to the same bytes", "statement": "Every byte string of the right length decodes (also canonically) to a value whose encoding is that very byte string; distinct byte strings decode to distinct values; canonic decoding agrees with plain decoding.", "quantifier": "every byte string, every wrapper type", "why_tests_cant": "2^64 byte strings", "anchors": ["ufotofu_codec_endian/src/lib.rs", "ufotofu_codec/src/decode.rs: DecodableCanonic"]}
{"id": "C45", "title": "Decoding fails exactly on short or failing input", "statement": "Decoding an endian integer of w bytes fails iff the producer ends or errs before w bytes: with UnexpectedEndOfInput(final) if the final value came first, with Producer(err) if the error came first, never with Other; the outcome depends only on the bytes, not on how they are exposed.", "quantifier": "every contract-abiding producer, every length, every exposure pattern", "why_tests_cant": "all chunkings and truncation points", "anchors": ["ufotofu_codec_endian/src/lib.rs", "ufotofu_codec/src/decode_error.rs: From<ProduceAtLeastError>, From<E>"]}
{"id": "C46", "title": "Encoding into a failing consumer writes a prefix and reports the consumer's error", "statement": "Encoding into a contract-abiding consumer that fails after n bytes writes exactly the first n bytes of the encoding and returns the consumer's error; if the consumer accepts all bytes the encoding is written completely; the bytes written never depend on slot sizes.", "quantifier": "every value, every contract-abiding consumer, every failure point, every slot-size pattern", "why_tests_cant": "all chunkings and failure points", "anchors": ["ufotofu_codec_endian/src/lib.rs: encode", "ufotofu_codec/src/encode.rs: Encodable::encode"]}
{"id": "C47", "title": "encode_into_vec and encode_into_boxed_slice return the encoding and never hit unreachable!()", "statement": "For any encodable whose encode is consumer-independent, encode_into_vec, encode_into_boxed_slice and their sync variants return exactly the bytes encode writes into any other consumer, and the unreachable!() branch is never taken; decode_from_slice returns what decoding from any other producer of the same bytes returns.", "quantifier": "every value of every contract-abiding encodable/decodable", "why_tests_cant": "quantifies over all implementations of the traits", "anchors": ["ufotofu_codec/src/encode.rs", "ufotofu_codec/src/decode.rs", "ufotofu_codec/src/relative_encode.rs", "ufotofu_codec/src/relative_decode.rs"]}
{"id": "C48", "title": "Encoder followed by Decoder is the identity on sequences", "statement": "Feeding any sequence of values into an Encoder over any contract-abiding byte consumer and then decoding the collected bytes with a Decoder over any contract-abiding byte producer yields the same values in order and then the byte producer's final value.", "quantifier": "every contract-abiding codec with non-empty encodings, every finite sequence of values, every chunking", "why_tests_cant": "all sequences times all chunkings", "anchors": ["ufotofu_codec/src/adaptors/encoder.rs", "ufotofu_codec/src/adaptors/decoder.rs"]}
{"id": "C49", "title": "Decoder distinguishes a clean end from truncation", "statement": "A Decoder/CanonicDecoder emits the byte producer's final value iff it occurs on an encoding boundary; if it occurs inside an encoding the decoder reports UnexpectedEndOfInput with that final value; byte-producer errors are reported as Producer errors and all complete encodings before are emitted.", "quantifier": "every contract-abiding codec, every truncation point, every chunking", "why_tests_cant": "all truncation points and chunkings", "anchors": ["ufotofu_codec/src/adaptors/decoder.rs", "ufotofu_codec/src/adaptors/relative_decoder.rs"]}
{"id": "C50", "title": "Relative adaptors use the reference value set most recently", "statement": "RelativeEncoder/RelativeDecoder encode/decode each item relative to the value most recently set by new or set_relative_to; changing both sides in lockstep round-trips any sequence; with the unit reference they coincide with the absolute adaptors.", "quantifier": "every contract-abiding relative codec, every interleaving of items and reference changes", "why_tests_cant": "all interleavings", "anchors": ["ufotofu_codec/src/adaptors/relative_encoder.rs", "ufotofu_codec/src/adaptors/relative_decoder.rs", "ufotofu_codec/src/relative_encode.rs", "ufotofu_codec/src/relative_decode.rs"]}
{"id": "C51", "title": "Shared encoders never interleave encodings", "statement": "When several tasks encode through SharedEncoder/SharedRelativeEncoder over one mutex-protected consumer, then under every schedule the consumer receives a concatenation of complete encodings, each task's values in its own order; closing a shared encoder has no effect on the consumer.", "quantifier": "every number of tasks, every sequence per task, every schedule of the tasks' steps", "why_tests_cant": "all schedules", "anchors": ["ufotofu_codec/src/adaptors/shared_encoder.rs", "ufotofu_codec/src/adaptors/shared_relative_encoder.rs"]}
{"id": "C52", "title": "Shared decoders never split an encoding between tasks", "statement": "When several tasks decode through SharedDecoder (or its canonic/relative variants) over one mutex-protected producer, then under every schedule the values obtained by all tasks, in the order of lock acquisition, are exactly the values a single Decoder would obtain from the same bytes.", "quantifier": "every number of tasks, every schedule of the tasks' steps, every chunking", "why_tests_cant": "all schedules", "anchors": ["ufotofu_codec/src/adaptors/shared_decoder.rs", "ufotofu_codec/src/adaptors/shared_relative_decoder.rs"]}
{"id": "C53", "title": "Decode-error conversions and Blame conversions preserve information", "statement": "Converting decode errors (map_other, map_other_from, From<ProduceAtLeastError>, From<E>) keeps final values and producer errors and maps only the Other case; Blame::uN_to_usize / iN_to_usize return Ok with the same number iff it fits the platform's usize/isize, otherwise Other(OurFault).", "quantifier": "every error value, every integer, pointer widths 16, 32 and 64", "why_tests_cant": "2^64 integers and platform widths not available to one test run", "anchors": ["ufotofu_codec/src/decode_error.rs"]}
{"id": "C54", "title": "The property-test assertions accept every lawful codec", "statement": "The assertion functions assert_basic_invariants, assert_known_size_invariants and assert_canonic_invariants never panic on a codec that satisfies the documented contracts, whatever values, byte strings, test consumers, exposure sizes and yield patterns they are given.", "quantifier": "every lawful codec, every argument tuple", "why_tests_cant": "quantifies over all codecs and all fuzz inputs", "anchors": ["ufotofu_codec/src/proptest/absolute.rs", "ufotofu_codec/src/proptest/relative.rs"]}
{"id": "C55", "title": "Adaptor towers stay lawful", "statement": "Any nesting of the contract-preserving producer adaptors (Limit, MapFinal, invariant wrapper, BulkScrambler used without slurp) around a contract-abiding producer is again contract-abiding, and its sequence is the composition of the adaptors' list functions; the same holds for consumer adaptors (Limit, MapFinal, invariant wrapper).", "quantifier": "every finite tower of adaptors, every base producer/consumer", "why_tests_cant": "infinitely many towers", "anchors": ["ufotofu/src/producer.rs", "ufotofu/src/consumer.rs"]}
{"id": "C56", "title": "What passing the property-test assertions implies", "statement": "If assert_basic_invariants returns for all arguments, then the encoding is injective and prefix-free and decoding an encoding returns the value; it does not imply that decoding reads the whole encoding, so sequences of values need not round-trip. For arbitrary codecs, every single assertion returns exactly if a stated condition holds on what the codec does with the test consumers and producers that the assertion builds.", "quantifier": "every consumer-independent encode and producer-independent decode, and every codec at all for the last part; a witness for the negative part", "why_tests_cant": "It is a statement about what the tests themselves can detect, over all codecs.", "anchors": ["ufotofu_codec/src/proptest/absolute.rs:46-72", "ufotofu_codec/src/proptest/absolute.rs:117-155", "ufotofu_codec/src/proptest/absolute.rs:159-186"]}
{"id": "C57", "title": "Sharing does not make the shared object be used after its end (violated)", "statement": "If every task that uses a shared encoder or decoder stops after its own first error or final value, then the consumer or producer behind the mutex never gets a call after an error or final value.", "quantifier": "every number of tasks, every schedule", "why_tests_cant": "It needs a second task to be scheduled after the end that the first one saw.", "anchors": ["ufotofu_codec/src/adaptors/shared_encoder.rs:43-46", "ufotofu_codec/src/adaptors/shared_decoder.rs:45-53"]}
{"id": "C58", "title": "Cancelled encodings leave no partial bytes (violated)", "statement": "If futures of SharedEncoder::consume may be dropped at any time, the shared consumer still receives only complete encodings of values passed to consume.", "quantifier": "every schedule of polls and drops", "why_tests_cant": "all cancellation points of all schedules", "anchors": ["ufotofu_codec/src/adaptors/shared_encoder.rs:43-46"]}
{"id": "C59", "title": "The queue fuzz targets accept exactly FIFO behaviour", "statement": "The four queue fuzz targets pass on every list of operations and every capacity. For an arbitrary queue in place of the tested one, a run passes if and only if no call panics and the answers are those of a bounded list, where bulk operations may move any number of items.", "quantifier": "every list of operations, every capacity, every implementation of the queue operations", "why_tests_cant": "A fuzzer samples operation sequences; it cannot show that none fails, nor what a pass means.", "anchors": ["fuzz/fuzz_targets/queues/fixed_bulk.rs:20-77", "fuzz/fuzz_targets/queues/static_bulk.rs:20-71", "fuzz/fuzz_targets/queues/fixed_enqueue_dequeue.rs:17-48", "fuzz/fuzz_targets/queues/static_enqueue_dequeue.rs:17-42"]}
{"id": "C60", "title": "The full-slice and bulk-method fuzz targets", "statement": "The targets for consume_full_slice, bulk_consume_full_slice, overwrite_full_slice, bulk_overwrite_full_slice, bulk_consume and bulk_produce pass on every input. What passing means is characterised exactly for the four functions; the target for bulk_overwrite_full_slice does not depend on the contents of the slices, and the target for bulk_produce does not depend on what bulk_produce does once no items remain.", "quantifier": "every test producer, test consumer, item list and slice length; every implementation of the tested function", "why_tests_cant": "It is a statement about all inputs and about which wrong programs the fuzzer cannot find.", "anchors": ["fuzz/fuzz_targets/ufotofu/consume_full_slice.rs:6-26", "fuzz/fuzz_targets/ufotofu/bulk_consume_full_slice.rs:6-17", "fuzz/fuzz_targets/ufotofu/overwrite_full_slice.rs:7-34", "fuzz/fuzz_targets/ufotofu/bulk_overwrite_full_slice.rs:6-23", "fuzz/fuzz_targets/ufotofu/bulk_consume.rs:8-55", "fuzz/fuzz_targets/ufotofu/bulk_produce.rs:9-60"]}
{"id": "C61", "title": "The pipe fuzz targets", "statement": "The targets for pipe, pipe_at_most, bulk_pipe and bulk_pipe_at_most pass on every input, and what passing means is characterised exactly. A bulk_pipe, bulk_pipe_at_most or pipe_at_most that loses items of the producer after success passes as well, because test producers are compared by the slice they were built from.", "quantifier": "every test producer, test consumer and count; every implementation of the tested function", "why_tests_cant": "It is a statement about all inputs and about which wrong programs the fuzzer cannot find.", "anchors": ["fuzz/fuzz_targets/ufotofu/pipe.rs:6-44", "fuzz/fuzz_targets/ufotofu/pipe_at_most.rs:6-55", "fuzz/fuzz_targets/ufotofu/bulk_pipe.rs:6-21", "fuzz/fuzz_targets/ufotofu/bulk_pipe_at_most.rs:6-23", "ufotofu/src/producer/test_producer.rs:161-168"]}
{"id": "C62", "title": "The producer scrambler fuzz targets", "statement": "The targets from_slice, from_boxed_slice, producer_bulk_scrambler_is_transparent and producer_invariant_is_transparent pass on every input, with and without debug assertions. Their comparison passes if and only if both producers give the same answer to every call of produce up to and including the last value.", "quantifier": "every producer, every list of scrambler operations; every pair of producers", "why_tests_cant": "All scrambler operation lists and all item lists.", "anchors": ["fuzz/fuzz_targets/ufotofu/from_slice.rs:10-21", "fuzz/fuzz_targets/ufotofu/from_boxed_slice.rs:10-22", "fuzz/fuzz_targets/ufotofu/producer_bulk_scrambler_is_transparent.rs:9-20", "fuzz/fuzz_targets/ufotofu/producer_invariant_is_transparent.rs:9-23"]}
{"id": "C63", "title": "The consumer scrambler fuzz targets", "statement": "The targets into_vec, consumer_bulk_scrambler_is_mostly_transparent and consumer_invariant_is_transparent pass on every input, with and without debug assertions. (Refuted: with debug assertions every input of more than 2048 items that the consumer accepts makes them panic. Proved without debug assertions, and with debug assertions up to 2048 items.)", "quantifier": "every consumer, every list of scrambler operations, every input", "why_tests_cant": "The inputs that fail are longer than what a fuzzer generates by default (4096 bytes, of which the input is a part).", "anchors": ["fuzz/fuzz_targets/ufotofu/into_vec.rs:9-25", "fuzz/fuzz_targets/ufotofu/consumer_bulk_scrambler_is_mostly_transparent.rs:9-46", "fuzz/fuzz_targets/ufotofu/consumer_invariant_is_transparent.rs:9-36", "ufotofu/src/consumer/bulk_scrambler.rs:52-54"]}
{"id": "C64", "title": "The merge fuzz target", "statement": "The target producer_merge never fails an assertion, whatever the readiness of the two producers, and it terminates if both become ready often enough.", "quantifier": "every pair of test producers, every schedule", "why_tests_cant": "The fuzzer derives readiness from yield patterns; the theorem covers all schedules.", "anchors": ["fuzz/fuzz_targets/ufotofu/producer_merge.rs:12-78"]}
{"id": "C65", "title": "The writer adaptor is a lawful consumer for writers that work", "statement": "Over a writer that accepts at least one byte of every non-empty buffer and never fails, the adaptor satisfies the contract of bulk consumers. Piping or bulk-piping any producer into it delivers exactly the produced bytes to the writer, in order, and closes it; from a reader adaptor to a writer adaptor, the bytes read are the bytes written.", "quantifier": "every such writer (every pattern of short writes), every lawful producer, every queue capacity", "why_tests_cant": "Depends on the pattern of short writes and on how the queue wraps; a real stream shows few of them.", "anchors": ["ufotofu/src/consumer/writer.rs:11-112", "ufotofu/src/lib.rs: pipe, bulk_pipe", "ufotofu/src/producer/reader.rs:117-228"]}
{"id": "C66", "title": "The fuzz targets over a connection", "statement": "The targets compat and compat_buf_read pass on every input if the connection delivers what it accepted, and otherwise exactly if it happens to deliver the input (without debug assertions; with debug assertions up to 2048 bytes, beyond which they panic).", "quantifier": "every connection (short reads, short writes), every input, all queue capacities and scrambler operations", "why_tests_cant": "The targets run over the loopback interface of one machine.", "anchors": ["fuzz/fuzz_targets/ufotofu/compat.rs:15-58", "fuzz/fuzz_targets/ufotofu/compat_buf_read.rs:16-57", "ufotofu/src/consumer/bulk_scrambler.rs:52-54"]}
{"id": "C67", "title": "The fuzz targets for absolute codecs", "statement": "Each of fuzz_absolute_basic, _known_size, _canonic and _all accepts its data exactly if the encodings of the two values are prefix-free, the first value decodes from its encoding, the given bytes without the last byte that was read are too short to decode, and (where checked) the length is right and canonic decoding re-encodes to what was read, agrees with decoding and is injective. Lawful codecs pass on all data, among them the sixteen endian wrappers. Passing fuzz_absolute_all on all data is equivalent to these conditions for all values and bytes.", "quantifier": "every type with a codec, all generated data (values, bytes, test consumers, slot sizes, yield patterns)", "why_tests_cant": "The targets are the tests; what they accept over all data is a statement about infinitely many runs.", "anchors": ["ufotofu_codec/src/proptest.rs:25-283", "ufotofu_codec/src/proptest/absolute.rs"]}
{"id": "C68", "title": "The fuzz targets for relative codecs", "statement": "Each of fuzz_relative_basic, _known_size, _canonic and _all passes on data whose values the predicate rejects, and otherwise accepts what the absolute target accepts for the codec relative to the given value. A codec that is lawful on the values permitted by the predicate passes on all data if canonic decoding yields permitted values only. The targets with canonic decoding encode every decoded value, whether or not the predicate permits it.", "quantifier": "every relative codec, every predicate, every reference value, all generated data", "why_tests_cant": "Depends on values outside of the predicate, which a fuzzer may never decode.", "anchors": ["ufotofu_codec/src/proptest.rs:301-593", "ufotofu_codec/src/proptest/relative.rs"]}
{"id": "C69", "title": "Generated test vectors are complete and consistent", "statement": "For a corpus of inputs, the generators write exactly one test vector per input, numbered consecutively from 0, and nothing else: the bytes in yay or in nay depending on whether they start with an encoding, with the value or the reason beside it. A file in reencoded is an encoding of the value in the corresponding file in yay. With canonic decoding, a file in yay starts with the encoding of the value. A corpus file that stands for no input makes the generator panic. The fuzz targets that build corpora never panic.", "quantifier": "every lawful codec, every corpus, every implementation of Arbitrary and Debug, every initial content of the output directory", "why_tests_cant": "Quantifies over all corpora and codecs.", "anchors": ["ufotofu_codec/src/test_vector_generation.rs:26-171, 203-513"]}
{"id": "C70", "title": "Test vectors of relative codecs, and existing files (partly violated)", "statement": "A file in reencoded should decode, relative to the value in yay_relative_to, to the value that was decoded; it does if absolute encodings are also encodings relative to every reference value. In general it does not, because the generators for relative codecs write the absolute encoding of the value. The vectors in the output directory should be those of the corpus; but existing files are kept, so that after a second run the same number can be in both yay and nay.", "quantifier": "every relative codec, every corpus, every initial content of the output directory", "why_tests_cant": "A witness suffices for the violations; what holds is quantified over all codecs and corpora.", "anchors": ["ufotofu_codec/src/test_vector_generation.rs:203-495, 504-513"]}
{"id": "C71", "title": "IntoSlice stores exactly what it consumes", "statement": "A consumer into a slice accepts as many items as fit and then reports the error, under every sequence of permitted calls. The items consumed come first in the slice, the offset is their number, the accessors return these two parts of the slice, and the rest of the slice is unchanged unless the caller wrote into slots without consuming them. Piping a sequence into a slice succeeds exactly if the sequence is no longer than the slice.", "quantifier": "every slice, every sequence of calls, every lawful producer", "why_tests_cant": "The module is not compiled at present, and the claim is about all call sequences and all contents.", "anchors": ["ufotofu/src/consumer/into_slice.rs:27-126"]}
{"id": "C72", "title": "Error values tell what went wrong", "statement": "The source of the error of pipe, consume_full_slice and overwrite_full_slice is the very error returned by the producer or consumer in the call that failed, and absent if there was none. The texts end with the decimal number of items consumed or produced, so that different counts have different texts; they tell the failing side, and the end of the sequence from an error. Conversions into DecodeError, and the functions that map its other errors, keep the source and the final value. The source of a DecodeError is exactly the error in it. The two kinds of Blame have different texts and no source.", "quantifier": "every producer, every consumer (lawful or not), every error value and count", "why_tests_cant": "Quantifies over all failing runs, all counts and all error types.", "anchors": ["ufotofu/src/errors.rs:8-131", "ufotofu_codec/src/decode_error.rs:27-166"]}
{"id": "C73", "title": "Queues work with machine words exactly up to half the range", "statement": "With usize arithmetic that panics or wraps on overflow, a queue of capacity c behaves as a bounded FIFO list under all sequences of calls if and only if 2c does not exceed the size of the range of usize. For items that take up memory this always holds, because allocations have at most half that many bytes, and the histories are then exactly those computed with unbounded numbers. For items of size zero it can fail: a full queue with its read position at the last cell panics in expose_items.", "quantifier": "every word size, both build profiles, every capacity, every item type, every sequence of calls", "why_tests_cant": "The failing capacities exceed half of the address space; tests cannot enumerate call sequences at such sizes, nor all word sizes.", "anchors": ["ufotofu_queues/src/fixed.rs:101-137", "ufotofu_queues/src/fixed.rs:239-296", "ufotofu_queues/src/static_.rs:47-132"]}
{"id": "C74", "title": "Exported types behave the same with and without the checks of a test build", "statement": "Each exported producer and consumer, which is an inner type behind a generated wrapper and an Invariant that depends on the build, has exactly the rule-respecting histories of its inner type, in both builds. FromSlice, FromBoxedSlice, Empty, IntoVec, TestProducer and TestConsumer as exported satisfy their contracts, and their accessors report the items produced and consumed. The checkers inside TestProducer and TestConsumer, around their FromBoxedSlice and IntoVec, never make a difference: every sequence of calls, rule-respecting or not, gets the same answers and ends the same way without them.", "quantifier": "both builds, every contract-abiding inner type, all contents, exposure sizes, yield patterns, all sequences of calls", "why_tests_cant": "The test build and the release build are different programs; tests only ever run one of them, on finitely many call sequences.", "anchors": ["ufotofu/src/producer/macros.rs:1-113", "ufotofu/src/consumer/macros.rs:1-117", "ufotofu/src/producer/invariant.rs:27-147", "ufotofu/src/consumer/invariant.rs:23-151", "ufotofu/src/producer/invariant_noop.rs:69-92", "ufotofu/src/consumer/invariant_noop.rs:68-99", "ufotofu/src/producer/test_producer.rs:302-423", "ufotofu/src/consumer/test_consumer.rs:302-439"]}
{"id": "C75", "title": "The rest of the library computes with machine words", "statement": "With usize arithmetic that panics or wraps on overflow, FromSlice, FromBoxedSlice, IntoSlice, Limit, TestConsumer and IntoVec have exactly the rule-respecting histories they have with unbounded numbers, and pipe_at_most, bulk_pipe_at_most, bulk_consume_full_slice, bulk_overwrite_full_slice, the checker of the rules and all cyclic indices compute the same results. For IntoVec this holds as long as twice the number of collected items plus one is not more than a vector can hold; a full IntoVec panics at the next item exactly if that is exceeded. For items of size zero this happens although the vector could hold more items. Callers who break the rules are treated as the build profile says: a Limit that is told of more items than it has left, or a slice object whose offset would exceed the largest word, panics in a checked build, and in an unchecked one goes on with the wrapped number.", "quantifier": "every word size, both build profiles, every item type, every inner producer or consumer of Limit, every slice, count and sequence of calls", "why_tests_cant": "Overflows need lengths near the size of the address space, and tests run on one word size and one build profile.", "anchors": ["ufotofu/src/producer/from_slice.rs:157-195", "ufotofu/src/producer/from_boxed_slice.rs:196-234", "ufotofu/src/consumer/into_slice.rs:88-125", "ufotofu/src/consumer/into_vec.rs:150-207", "ufotofu/src/producer/limit.rs:91-94", "ufotofu/src/consumer/limit.rs:79-82", "ufotofu/src/producer/invariant.rs:136-147", "ufotofu/src/consumer/invariant.rs:138-151", "ufotofu/src/test_yielder.rs:61-71", "ufotofu/src/consumer/test_consumer.rs:366-439", "ufotofu/src/lib.rs:269-293", "ufotofu/src/lib.rs:506-536", "ufotofu/src/lib.rs:620-705"]}
{"id": "C76", "title": "Futures of the library, poll by poll, amount to the methods run to completion", "statement": "For the provided trait methods, the four pipes, FromSlice, Empty, IntoVec, IntoSlice, TestProducer, TestConsumer, Limit, MapItem, MapFinal, MapError, Invariant, both BulkScramblers, the endian codecs and the codec adaptors: polling the returned future any number of times, and then completing it, gives the same state and result as running every method to completion in one step. The futures return Pending only while a future of an object they use does, and exactly as often; the test objects return Pending as often as their yield pattern says, and call the waker before, so that an executor that polls only after a wake completes every pipe between them.", "quantifier": "every state, every producer and consumer with futures that need finitely many polls, every number of polls, every yield pattern", "why_tests_cant": "tests run one executor on a few yield patterns; where the polls fall is chosen by the runtime, and every await is a place where a suspension could go wrong", "anchors": ["ufotofu/src/lib.rs:136-536", "ufotofu/src/lib.rs:541-705", "ufotofu/src/test_yielder.rs:36-71", "ufotofu/src/producer/test_producer.rs:326-423", "ufotofu/src/consumer/test_consumer.rs:340-439", "ufotofu/src/producer/limit.rs", "ufotofu/src/consumer/limit.rs", "ufotofu/src/producer/bulk_scrambler.rs", "ufotofu/src/consumer/bulk_scrambler.rs", "ufotofu_codec/src"]}
{"id": "C77", "title": "A suspended pipe is in the middle of exactly one call", "statement": "Whenever pipe between a lawful producer and a lawful consumer returns Pending, the items consumed are exactly those produced, in order, and one object is in the middle of one call: produce, or consume of the item that was just produced, or close. For bulk_pipe it is expose_items, bulk_consume of the exposed items, consider_produced (the consumer is then ahead by the items it took), or close. Between TestProducer and TestConsumer this is what their accessors show. Consequently, dropping a pipe in the middle and starting another can lose one item, and can duplicate items with bulk_pipe, which the documentation forbids users to do.", "quantifier": "every lawful producer and consumer, every item sequence, every yield pattern, every number of polls", "why_tests_cant": "tests look at producers and consumers after the pipe has completed, not at the states in between", "anchors": ["ufotofu/src/lib.rs:541-615", "ufotofu/src/lib.rs:33", "ufotofu/src/producer/test_producer.rs:339-423", "ufotofu/src/consumer/test_consumer.rs:366-439"]}
{"id": "C78", "title": "The test producer and consumer compute with machine words", "statement": "With usize arithmetic that panics or wraps on overflow in every place (offset and vector of the inner object, indices of the yield pattern and of the sizes, countdown to the error), TestProducer has exactly the rule-respecting histories it has with unbounded numbers and conforms to the contract, and so does TestConsumer as long as twice the number of collected items plus 2048 is not more than a vector can hold plus one; until then every permitted call returns with a permitted answer. The bound is exact for a new TestConsumer.", "quantifier": "every word size, both build profiles, every item sequence, countdown, list of sizes, yield pattern and sequence of calls", "why_tests_cant": "Overflows need lengths near the size of the address space, and tests run on one word size and one build profile.", "anchors": ["ufotofu/src/producer/test_producer.rs:326-423", "ufotofu/src/consumer/test_consumer.rs:340-439", "ufotofu/src/test_yielder.rs:36-71", "ufotofu/src/consumer/into_vec.rs:150-207"]}
{"id": "C79", "title": "Readers and writers, poll by poll, and what is where while they wait", "statement": "The futures of the adaptors for asynchronous readers and writers, polled until they are ready, do what the adaptors do when the reader or writer answers at once; they return Pending only if and exactly as often as it does. Around a reader that does nothing but wait before it returns Pending, the producers lose no byte while suspended, and neither do pipes from them: every byte is with the consumer, in the queue, or still to be read. The writer adaptor is different: while it waits, bytes can be both in the writer and still in the queue, though only if the writer accepted less than a whole buffer. So a flush that is dropped and called again, which the documentation forbids, writes bytes twice.", "quantifier": "every reader and writer with futures that need finitely many polls, every lawful queue, every state and call, every place where a future is suspended", "why_tests_cant": "when a socket is not ready is up to the operating system, and what lies in the queue of a suspended adaptor cannot be seen by a test", "anchors": ["ufotofu/src/producer/reader.rs:38-228", "ufotofu/src/consumer/writer.rs:33-112", "ufotofu/src/lib.rs:33"]}
{"id": "C80", "title": "Merge poll by poll: dropped calls lose nothing, and both producers are waited for at once", "statement": "Over producers with arbitrary futures, a caller of Merge that polls and drops the futures of produce as it likes gets what C36 and C37 say: an interleaving of the items, the last final value or the first error. Dropping an unfinished future of produce and calling produce again is the same as polling on, although the producers inside need not tolerate that; Merge never gives up a future of theirs that has been polled. Until the end, Merge is polled once for each item, once more, and at most as often in vain as the producer with the larger number of futile polls. It returns Pending without having had the waker called only if a producer does.", "quantifier": "every two producers with futures that need finitely many polls, every state, every sequence of polls and drops, every order in which select polls", "why_tests_cant": "tests poll in the few patterns that their executor happens to use, and dropping a future at each possible point is not tried", "anchors": ["ufotofu/src/producer/merge.rs:9-86", "ufotofu/src/lib.rs:33"]}
{"id": "C81", "title": "Shared encoders and decoders with asynchronous objects and codecs", "statement": "The adaptors that share a producer or consumer behind a mutex, with the futures of arbitrary asynchronous objects and codecs in the place of programs: between calls the consumer has received complete encodings in the order in which the calls had the lock, never mixed, and the answers of shared decoders are, in that order, what the bytes say. In particular, integers written by several tasks to a consumer that is Pending by any pattern arrive as the concatenation of their encodings. A call that finds the lock free gives it back after exactly as many polls as its future needs.", "quantifier": "every asynchronous codec that completes to a lawful one, every asynchronous producer or consumer that is lawful once completed, all tasks, calls and schedules of polls in which no future that has the lock is dropped", "why_tests_cant": "the interleavings of tasks at the suspension points of the encodings are too many to try", "anchors": ["ufotofu_codec/src/adaptors/shared_encoder.rs:43-62", "ufotofu_codec/src/adaptors/shared_relative_encoder.rs:33-71", "ufotofu_codec/src/adaptors/shared_decoder.rs:45-120", "ufotofu_codec/src/adaptors/shared_relative_decoder.rs:37-151", "ufotofu_codec_endian/src/lib.rs:57-69"]}
{"id": "C82", "title": "Arbitrary instances of the test objects", "statement": "The size hints of the Arbitrary instances of TestConsumer and TestYielder bound what they take from the bytes if those of their parts do; the hint of TestProducer, a copy of TestConsumer's, does not. Every object generated from any bytes is one that the builder makes with positive sizes, and keeps its contract. Every configuration and every operation of the scramblers can be generated. The derived instance of the checkers generates checkers that panic at permitted calls or let wrong ones pass.", "quantifier": "every implementation of Arbitrary for the parts, all bytes, all configurations, all permitted call sequences on the generated objects", "why_tests_cant": "fuzz tests take the generators for granted, and a wrong hint or an unreachable configuration only shows as inputs that are never tried", "anchors": ["ufotofu/src/producer/test_producer.rs:134-158", "ufotofu/src/consumer/test_consumer.rs:139-163", "ufotofu/src/test_yielder.rs:42-51", "ufotofu/src/producer/bulk_scrambler.rs:18-24", "ufotofu/src/consumer/bulk_scrambler.rs:17-23", "ufotofu/src/producer/invariant.rs:25-35", "ufotofu/src/consumer/invariant.rs:21-31"]}
{"id": "C83", "title": "Comparing test objects", "statement": "Two TestProducers are equal exactly if they are made of the same items and both have the same last value still to emit, or both have emitted theirs; how far they got and their configurations do not matter. Two TestConsumers are equal exactly if they consumed the same items, were closed with the same value or not at all, and hold the same error or none. Both comparisons are equivalence relations if those of the parts are, and never panic. Against the documentation, a last value that has been emitted is not considered.", "quantifier": "all items, last values, sizes, patterns, all pairs of permitted call sequences, with and without checks", "why_tests_cant": "equality is used by tests to compare results but is itself not tested, and it depends on the whole history of both objects", "anchors": ["ufotofu/src/producer/test_producer.rs:160-170", "ufotofu/src/consumer/test_consumer.rs:165-176", "ufotofu/src/producer/test_producer.rs:80-82", "ufotofu/src/producer/from_boxed_slice.rs:164-186"]}
{"id": "C84", "title": "The fuzz targets over a connection, with both tasks running concurrently", "statement": "Without debug assertions, or with an input of at most 2048 bytes (what the scrambler of the sender holds): when the tasks of compat and compat_buf_read are polled in any order over a connection that holds a bounded number of bytes (at least one), no assertion fails, only a prefix of the input is sent, and the receiver finishes only after the sender has sent everything and closed; when both are polled alternately they both finish after at most length + 2 rounds; block_on(join!(receive, send)) returns after at most length + 2 polls, so no wake-up is lost; an executor to which the tasks are handed separately and which polls only woken tasks finishes both after at most 2 * length + 5 polls. With debug assertions and a longer input, still only a prefix is sent, neither task ever finishes, and within the same numbers of polls the sender panics. With no room at all, both wait forever.", "quantifier": "every input, capacity of the connection, amount moved per call, queue capacity, scrambler operation sequence, with and without debug assertions, and every order of polling", "why_tests_cant": "The targets run over the loopback interface, whose buffers are larger than any input of the fuzzer, and with the one executor pollster.", "anchors": ["fuzz/fuzz_targets/ufotofu/compat.rs:28-57", "fuzz/fuzz_targets/ufotofu/compat_buf_read.rs:26-56", "ufotofu/src/producer/reader.rs:38-228", "ufotofu/src/consumer/writer.rs:33-112"]}
{"id": "C85", "title": "Calls that are dropped while they are pending", "statement": "For every state in which a method of an adaptor, a provided method, a bounded pipe or a codec for numbers returns Pending, it is known what has been done so far and which inner call is in progress: Limit has already counted the item, MapItem has already run its closure on a consumed item, MapFinal has already given up its function in close, Invariant is already inactive in close, MapError has done nothing; a bounded pipe has moved fewer items than its bound and lacks none but the one being consumed; a scrambled producer lacks no item, and the queue may hold items that the inner producer still offers; a scrambled consumer lacks none but those the inner consumer is being given. Dropping the call there is therefore not free of effects, even around objects that only wait.", "quantifier": "every inner producer and consumer (for the slice methods, bounded pipes, scramblers and codecs: lawful ones), every state, every number of Pending results, every call history of the scramblers (of the consumer scrambler without debug assertions), all patterns, capacities and bounds", "why_tests_cant": "tests always await their futures to completion, and the states in between are invisible to them", "anchors": ["ufotofu/src/producer/limit.rs", "ufotofu/src/consumer/limit.rs", "ufotofu/src/consumer/map_item.rs", "ufotofu/src/consumer/map_final.rs", "ufotofu/src/consumer/invariant.rs", "ufotofu/src/producer/bulk_scrambler.rs:247", "ufotofu/src/consumer/bulk_scrambler.rs:160", "ufotofu/src/lib.rs:33", "ufotofu/src/lib.rs:620"]}
{"id": "C86", "title": "The library obeys the rules of the objects it is given, whatever these do", "statement": "No function or adaptor of the library ever makes a call on an object that it was given which the documentation of the traits forbids: no call after the end, an error or close; consider_produced only for items on display; consume_slots only for slots that were written to. This holds for objects that behave in any way at all, provided the caller of an adaptor obeys the same rules. While an adaptor is not over, neither is its inner object; and the result of a pipe tells the caller which of the two objects may still be used. Exceptions: bulk_pipe and bulk_pipe_at_most break the rule for consider_produced if the consumer claims to have consumed more than it was given, and slurp of the producer scrambler (C29).", "quantifier": "every producer and consumer (not only lawful ones), every state, every sequence of calls, every consequence of a forbidden call, all schedules of Merge, all patterns and capacities of the scramblers, every codec that obeys the rules itself", "why_tests_cant": "tests use the library's own well-behaved objects and see only results; that no forbidden call is made on any object, in any history, is a statement about all implementations of the traits", "anchors": ["ufotofu/src/lib.rs:93", "ufotofu/src/lib.rs:545", "ufotofu/src/lib.rs:579", "ufotofu/src/lib.rs:620", "ufotofu/src/lib.rs:665", "ufotofu/src/producer", "ufotofu/src/consumer", "ufotofu_codec/src/adaptors", "ufotofu_codec_endian/src/lib.rs"]}
{"id": "C87", "title": "Panic freedom composes", "statement": "If no sequence of calls that obeys the documented rules makes an object panic, then none makes an adaptor around it panic either, and neither does piping, copying whole slices, encoding or decoding with it; after those, whatever is not over may be used further. The basic producers and consumers have this property, so every tower of adaptors on top of them has it. Exceptions: MapError panics at the second call; slurp of the producer scrambler and, in debug builds, consume of the consumer scrambler panic; and the bulk pipes may do so for a consumer that claims to have consumed more than it was given.", "quantifier": "every producer and consumer with that property (lawful or not), every state, every sequence of calls that obeys the rules, every tower of adaptors, all patterns and capacities of the scramblers, all schedules of Merge, every codec with that property", "why_tests_cant": "tests exercise particular compositions on particular inputs; absence of panics for all compositions over all objects with the property is a universal statement over implementations of the traits", "anchors": ["ufotofu/src/producer", "ufotofu/src/consumer", "ufotofu/src/lib.rs:545", "ufotofu/src/lib.rs:579", "ufotofu/src/lib.rs:620", "ufotofu/src/lib.rs:665", "ufotofu_codec/src/adaptors", "ufotofu_codec_endian/src/lib.rs"]}
{"id": "C88", "title": "Objects that behave alike are interchangeable, and laws about the adaptors", "statement": "If two producers (or consumers) give the same answers to all sequences of calls that obey the documented rules, then so do all adaptors, scramblers, towers of these, Merge, encoders and decoders around them, and pipes and functions on whole slices have the same result with one as with the other. Consequently invariant checkers can be removed from anywhere in a tower without a caller that obeys the rules noticing. Further equations: MapFinal and MapItem fuse, MapFinal of the identity vanishes, Limit commutes with MapFinal, a Limit of a Limit is a Limit to the minimum, a Limit of a slice is a shorter slice, Empty and TestProducer are slices with another final value. Exceptions: a scrambler that slurps an object for which slurping matters, bulk pipes into a consumer that counts wrongly.", "quantifier": "every pair of producers or consumers (with the provided bulk methods where an adaptor around them is removed), every state, every sequence of calls that obeys the rules, every tower of adaptors, all limits, closures, patterns, capacities and schedules, both build modes of the scramblers", "why_tests_cant": "observational equality quantifies over all sequences of calls, and being a congruence over all implementations of the traits", "anchors": ["ufotofu/src/producer", "ufotofu/src/consumer", "ufotofu/src/lib.rs:545", "ufotofu/src/lib.rs:579", "ufotofu/src/lib.rs:620", "ufotofu/src/lib.rs:665", "ufotofu_codec/src/adaptors", "ufotofu_codec_endian/src/lib.rs"]}
{"id": "C89", "title": "Flushing and closing leave nothing delayed, except closing a shared encoder", "statement": "A consumer may delay the side effects of consuming items until it is flushed or closed. If after every successful flush and every successful close of a consumer nothing is delayed, then the same holds for Limit, MapItem, MapFinal, MapError, the invariant checker (active or not), the consumer scrambler, the encoders, every tower of adaptors around it and the adaptor for writers; where they have a queue of their own, it is empty, too. The same holds for the asynchronous versions. pipe and bulk_pipe that succeed leave nothing delayed, pipe_at_most and bulk_pipe_at_most likewise unless they have piped as many items as they were told to. Of the shared encoders, a successful flush leaves nothing delayed. Violated: closing a shared encoder does not flush, so that everything may still be delayed after all users have closed their encoders successfully.", "quantifier": "every consumer and writer, every notion of being idle, every state, final value, item, pattern, tower, queue that exposes whatever it contains, all fuels and capacities, both build modes; for the shared encoders every set of tasks and every schedule", "why_tests_cant": "delayed side effects are not visible through the interface of the consumer; a test would have to provide a consumer for every way of delaying, and to try every state of the buffers and every interleaving", "anchors": ["ufotofu/src/lib.rs:160", "ufotofu/src/consumer", "ufotofu/src/lib.rs:545", "ufotofu_codec/src/adaptors/shared_encoder.rs:48", "ufotofu_codec/src/adaptors/shared_relative_encoder.rs:56"]}
{"id": "C90", "title": "Exactly which calls pipes, slice methods, composed adaptors, readers, writers and codecs for numbers make", "statement": "For arbitrary producers and consumers, even ones that break every rule: pipe, pipe_at_most, bulk_pipe and bulk_pipe_at_most return a given result in given states if and only if the producer and the consumer have been through one of the histories of calls and answers that are listed for this result: every item is passed on before the next call to the producer, in bulk versions everything that was exposed is offered (up to the bound) and exactly what was consumed is marked as produced, nothing is called after the bound is reached, after an error, or after closing. The same kind of equivalence holds for consume_full_slice, bulk_consume_full_slice, overwrite_full_slice and bulk_overwrite_full_slice, including the contents of the slice. Every call of a tower of limits, final-value mappings and invariant checkers is, in the middle, exactly one call with the mapped argument (for the bulk methods expose, write and mark), or none if a limit is used up. Adaptors for readers and writers leave an empty queue exactly as it is as long as neither expose_items nor expose_slots is called, and then each bulk_produce is exactly one read into the caller's buffer and each bulk_consume one write of the caller's items. Every call of BufReaderToBulkProducer makes exactly the listed calls of the reader (one read of a single item for produce, one fill_buf for slurp, one or two for expose_items, one consume for consider_produced, one read into the caller's buffer for bulk_produce) and makes of their answers what is listed. The same for ReaderToBulkProducer with any queue that keeps its items in order: while there are items in the queue nothing is read, and otherwise there is at most one read, into a buffer that is not empty unless the caller's is. WriterToBulkConsumer first writes the contents of the queue, piece by piece, each write offering all that is left of the piece (consume_slots does nothing of the kind); if this fails, nothing else is called and the piece stays in the queue as a whole; otherwise follow the writes of the one item, one close, one flush, one write of the caller's items, or nothing for expose_slots. Encoder for numbers: the calls of bulk_consume_full_slice for the encoding, one close, one flush; Decoder: one expose_items, and if there are items the calls of bulk_overwrite_full_slice for as many bytes as the number has.", "quantifier": "every producer and consumer, every reader (that reports no more items than the buffer holds, where a buffered reader is around it), writer and queue that an unsuccessful look does not change (both queues of the crate), all states, items, final values, errors, slices, bounds, numbers of rounds, towers and histories", "why_tests_cant": "which calls are made and which are not shows only with instrumented producers and consumers, for every combination of answers; an equivalence for all histories and all towers is beyond any set of runs", "anchors": ["ufotofu/src/lib.rs:541", "ufotofu/src/lib.rs:579", "ufotofu/src/lib.rs:620", "ufotofu/src/lib.rs:665", "ufotofu/src/lib.rs:136", "ufotofu/src/lib.rs:269", "ufotofu/src/lib.rs:371", "ufotofu/src/lib.rs:506", "ufotofu/src/producer/reader.rs:113", "ufotofu/src/consumer/writer.rs:9", "ufotofu/src/producer/reader.rs:38", "ufotofu/src/consumer/writer.rs:33", "ufotofu_codec/src/adaptors/decoder.rs:43", "ufotofu_codec/src/adaptors/encoder.rs:28", "ufotofu_codec_endian/src/lib.rs:57"]}
{"id": "C91", "title": "Scramblers perform the operations they were given, in turn, and only when they have to", "statement": "For an arbitrary inner producer or consumer and every list of calls made to a new scrambler of capacity at least one: the calls that the inner object sees are those of the given operations, starting with the first one, one after the other and around again; an operation that fails or finds the end is not counted as performed. Produce is one produce; ConsiderProduced(n) is expose_items and marking as produced at most n of the exposed items, as many as were put into the queue and at least one unless n is zero or nothing was exposed; Slurp is one slurp; Consume, ConsumeSlots(n) and Flush likewise. The producer scrambler performs operations at the beginning of produce, slurp, expose_items and bulk_produce, exactly until its queue is full or the end is known, and none once the end is known; a slurp of the caller is one more slurp after that. The consumer scrambler performs operations only if its queue is full (consume, expose_slots, bulk_consume) or has to be emptied (flush, close), and then until it is empty. Answers are the items of the queue in order, the end once the queue is empty. If and only if none of the given operations can move an item, one that does is appended. Items that fit into the queue of a consumer scrambler cause no call at all.", "quantifier": "every inner producer and consumer (lawful or not), all states, operations, capacities from one on, calls and answers; for the consumer, callers that write into slots before they mark them as used; with and without debug assertions", "why_tests_cant": "the fuzz targets compare what comes out at the other end; the schedule of inner calls is not observed by any of them, and depends on the operations, the capacity, how items lie in the ring buffer, and every answer of the inner object", "anchors": ["ufotofu/src/producer/bulk_scrambler.rs:62", "ufotofu/src/producer/bulk_scrambler.rs:247", "ufotofu/src/producer/bulk_scrambler.rs:271", "ufotofu/src/producer/bulk_scrambler.rs:184", "ufotofu/src/consumer/bulk_scrambler.rs:61", "ufotofu/src/consumer/bulk_scrambler.rs:160", "ufotofu/src/consumer/bulk_scrambler.rs:204", "ufotofu/src/consumer/bulk_scrambler.rs:244"]}
{"id": "C92", "title": "Items and integers travel over a connection", "statement": "One task pipes a producer into the bulk consumer around an asynchronous writer, with pipe or bulk_pipe, and unwraps the result; another task pipes the bulk producer around an asynchronous reader, or around a buffered reader, into a vector, with pipe or bulk_pipe, and unwraps. The reader and the writer are the ends of a connection that holds a bounded number of items, moves arbitrary amounts per call, and makes writes wait for room and reads wait for items. Then, whatever the order in which the tasks are polled: no task panics; at each moment what was sent is a prefix of the items, and no more than the capacity of the connection is in transit; the sender is done only after it has sent everything and closed its end; and the receiver ends up with exactly the items, in order. Both are done after length + 2 rounds of polls, under join! and block_on, in which case no wake-up is lost, and if they are spawned as separate tasks. The same holds for fixed-width integers if the sender pipes into an encoder around the consumer, and the receiver pipes from a decoder around the producer: what travels are the bytes of the integers in the byte order of the wrapper, split at arbitrary places, and the receiver ends up with the integers.", "quantifier": "all item types, all producers that keep the contract and do not wait, all lists of items, both ways of piping on each side, all wrappers of the endian codec, all capacities of the connection, of the queues and of the buffered reader from one on, all amounts moved per call, all schedules", "why_tests_cant": "the fuzz targets use a connection of the operating system with its own buffer and schedule and never pipe or encode over it; how the bytes of an integer are split between reads, and where each task is suspended, depends on the capacities and on the schedule", "anchors": ["ufotofu/src/lib.rs:541", "ufotofu/src/lib.rs:579", "ufotofu/src/producer/reader.rs:38", "ufotofu/src/producer/reader.rs:134", "ufotofu/src/consumer/writer.rs:30", "ufotofu_codec/src/adaptors/encoder.rs:28", "ufotofu_codec/src/adaptors/decoder.rs:43", "ufotofu_codec_endian/src/lib.rs:83"]}
{"id": "C93", "title": "Futures inside are polled to completion before the next call", "statement": "lib.rs forbids calling a trait method of a value before the future of the previous call has been polled to completion, even if that future was dropped. For arbitrary producers, consumers, readers and writers: whoever follows this rule towards Limit, MapItem, MapFinal, MapError, Invariant, the scramblers, the adaptors for readers and writers, Encoder, Decoder and their relative versions (with codecs that follow it, such as the endian ones) never makes them break it for what is inside, and after complete calls everything inside is at rest; pipes and the slice methods never break it. More generally, whatever holds between the calls of an object and while they are pending holds between the calls of every adaptor, so towers are covered. Merge follows the rule for both its producers even if its own futures are dropped and produce is called again. The shared encoders and decoders follow it as long as nobody drops a future that has the lock; if somebody does, another user that has done nothing wrong breaks it for the shared object.", "quantifier": "every producer, consumer, reader, writer, codec that follows the rule, queue, closure, adaptor state, list of calls with numbers of polls, order of select, schedule of tasks", "why_tests_cant": "that a future inside is never forgotten half-way shows only for particular numbers of polls and particular moments of dropping; the rule is about all of them, and the test objects of the crate do not notice when it is broken", "anchors": ["ufotofu/src/lib.rs:33", "ufotofu/src/lib.rs:541", "ufotofu/src/producer/merge.rs:47", "ufotofu/src/producer/limit.rs:54", "ufotofu/src/producer/bulk_scrambler.rs:247", "ufotofu/src/consumer/bulk_scrambler.rs:160", "ufotofu/src/consumer/writer.rs:33", "ufotofu/src/producer/reader.rs:38", "ufotofu_codec/src/adaptors/encoder.rs:28", "ufotofu_codec/src/adaptors/shared_encoder.rs:43"]}
{"id": "C94", "title": "Dropping futures causes no panic", "statement": "lib.rs forbids to use an object after a future of it was dropped unfinished. Suppose that this rule is broken, at any moments and any number of times, but no other one (after a dropped call, a caller takes nothing to be on display and no slot to be written, and does not use a consumer whose close was dropped). FromSlice, Empty, TestProducer, IntoVec, TestConsumer, and any lawful object that uses the default bulk methods and whose contract holds while it is pending, then never panic. Nor do Limit, MapItem, MapFinal, Invariant, the producer scrambler (without slurp), the consumer scrambler (in release builds), Encoder, Decoder and their relative versions around arbitrary objects that never panic in this sense, nor towers of them. A pipe or slice method that is dropped leaves such objects usable, unless it was closing the consumer (bulk versions: if bulk_consume claims no more than it was given, and bulk_produce keeps the length of the buffer, as the default methods do). Merge never panics, even over producers that do not endure this. Exceptions: MapFinal and Invariant panic when a consumer is closed after a dropped close even if what is inside would not, and MapError panics in the second call in any case.", "quantifier": "every producer, consumer, codec that never panics in this sense, closure, queue, operation pattern, adaptor state, list of calls with numbers of polls, order of select", "why_tests_cant": "each call can be dropped after any number of polls, and the state that is left must be fit for all further calls with all further drops; tests of cancellation try single moments on particular objects", "anchors": ["ufotofu/src/lib.rs:33", "ufotofu/src/producer/limit.rs:54", "ufotofu/src/producer/map_final.rs:40", "ufotofu/src/consumer/map_final.rs:46", "ufotofu/src/producer/invariant.rs:87", "ufotofu/src/consumer/invariant.rs:96", "ufotofu/src/producer/bulk_scrambler.rs:247", "ufotofu/src/consumer/bulk_scrambler.rs:160", "ufotofu/src/producer/merge.rs:47", "ufotofu/src/lib.rs:541", "ufotofu_codec/src/adaptors/decoder.rs:43"]}
{"id": "C95", "title": "Reader and writer adaptors never panic", "statement": "Let a reader or writer do whatever it likes: wait, fail in any way, end early, read or write any number of bytes, in any order. As long as it does not panic and never reports more bytes than fit into the buffer it was given (and, if buffered, keeps displaying what it displays), ReaderToBulkProducer, BufReaderToBulkProducer and WriterToBulkConsumer never panic in any sequence of calls within the rules, over any lawful queue with room for at least one byte, even if their callers drop futures at any moment. So copying from any such reader to any such writer does not panic and, when dropped, leaves both usable unless the writer was being closed. The writer adaptor returns from every call if the writer does. Bulk methods keep buffer lengths and count honestly if the reader or writer does. IntoSlice never panics either. Exceptions: readers and writers that report more than fits cause panics (or make the queue repeat bytes), and so does a Fixed queue of capacity zero.", "quantifier": "every reader, buffered reader, writer with a state predicate under which it does not panic and reports no more than fits, lawful queue, list of calls with numbers of polls", "why_tests_cant": "the crate has no tests with failing, short or waiting readers and writers; the property ranges over all their behaviours and all moments of cancellation, with the internal queue in all states", "anchors": ["ufotofu/src/producer/reader.rs:38", "ufotofu/src/producer/reader.rs:134", "ufotofu/src/producer/reader.rs:181", "ufotofu/src/consumer/writer.rs:33", "ufotofu/src/consumer/writer.rs:48", "ufotofu/src/consumer/into_slice.rs:83", "ufotofu_queues/src/fixed.rs:266"]}
{"id": "C96", "title": "Queues of items with any Clone", "statement": "Let the items of a queue have any implementation of Clone, which may change some state of its own, give clones that differ from the original, and panic; callers may catch the panics and go on using the queue. Fixed and Static of positive capacity then still answer every permitted sequence of calls like a bounded first-in-first-out list and never panic on their own account: enqueue and the exposing and marking methods clone nothing; dequeue clones the oldest item once; the bulk methods clone each item they move exactly once, in order. If a clone panics in bulk_enqueue or bulk_dequeue, the queue keeps exactly its items (and the buffer of bulk_dequeue starts with the clones made so far); if it panics in dequeue, the oldest item is lost, and this is the only way in which items get lost. With the identity for Clone the calls are those of C01 and C02.", "quantifier": "every item type, implementation of Clone (as a state transformer that may panic), initial state of it, capacity > 0, initial slot contents, list of calls", "why_tests_cant": "the tests use u8 only; the property ranges over all Clone implementations and all points at which they may panic, in all wrap-around states of the ring", "anchors": ["ufotofu_queues/src/lib.rs:94", "ufotofu_queues/src/lib.rs:145", "ufotofu_queues/src/fixed.rs:270", "ufotofu_queues/src/static_.rs:107"]}
{"id": "C97", "title": "Producers, consumers and pipes of items with any Clone", "statement": "For any implementation of Clone as in C96: consume_full_slice clones each item once, right before it is consumed, and nothing beyond the item that is refused. bulk_consume, bulk_consume_full_slice, bulk_overwrite_full_slice and bulk_pipe clone each item at most once, in order, for every lawful consumer and producer; on success every item was cloned exactly once and all clones were accepted. If a clone panics, the consumer has accepted the clones of a prefix of the items and nothing else, a buffer starts with the clones made so far, and both consumer and producer can be used again; after a bulk_pipe the producer has exactly the items left whose clones the consumer has not accepted. A slice producer keeps an item whose clone panics. pipe from a slice clones each item once, and if all clones succeed and are accepted, pipe and bulk_pipe make the same clones in the same order, with the same result. With the identity for Clone the functions are those of the plain model.", "quantifier": "every item type, implementation of Clone (as a state transformer that may panic), lawful producer, lawful consumer, sequence of items", "why_tests_cant": "the tests use integers; the property ranges over all Clone implementations, all points at which they may panic and all sizes of exposed slices", "anchors": ["ufotofu/src/lib.rs:136", "ufotofu/src/lib.rs:237", "ufotofu/src/lib.rs:269", "ufotofu/src/lib.rs:469", "ufotofu/src/lib.rs:506", "ufotofu/src/lib.rs:541", "ufotofu/src/lib.rs:579", "ufotofu/src/producer/from_slice.rs:157", "ufotofu/src/producer/from_boxed_slice.rs:196"]}
{"id": "C98", "title": "Taking towers of adaptors apart (violated with scramblers)", "statement": "Wrap a producer into any tower of Limit, MapFinal, Invariant and BulkScrambler, call its methods in any permitted way, and take the tower apart with into_inner. What came out of the tower, what the scramblers held back (no more than their capacities together) and what the inner producer still has to produce are exactly its items, in order; so without scramblers it goes on with the very next item, also after a limit ended the tower. With scramblers items are lost. A consumer inside a tower of Limit, MapFinal and Invariant has consumed exactly what the tower has consumed when the tower is taken apart; a consumer inside a scrambler may lack items.", "quantifier": "every lawful producer and consumer, every tower, every permitted history", "why_tests_cant": "no test takes an adaptor apart in the middle of a sequence; the claim is about all towers, all points in time and all exposures", "anchors": ["ufotofu/src/producer/limit.rs:43", "ufotofu/src/producer/map_final.rs:30", "ufotofu/src/producer/invariant.rs:57", "ufotofu/src/producer/bulk_scrambler.rs:83", "ufotofu/src/consumer/limit.rs:33", "ufotofu/src/consumer/map_final.rs:32", "ufotofu/src/consumer/invariant.rs:53", "ufotofu/src/consumer/bulk_scrambler.rs:81"]}
{"id": "C99", "title": "Generation of test vectors when the file system fails (partly violated)", "statement": "Whichever file operations fail and whatever cannot be read of the corpus, generating test vectors either returns with all test vectors complete and their directories created, or panics. In the second case the files up to that point are complete, at most the next one is cut off, and all other files and directories are as before. It returns exactly if the corpus is usable and the two operations for each file work. Trying again after any number of failed attempts leads to the same files as a single attempt. But an interrupted run can leave test vectors of which files are missing or cut off.", "quantifier": "every lawful codec, corpus, output directory, and every assignment of failures to file operations", "why_tests_cant": "there are no tests of the generators; tests would not make individual file operations fail, let alone all combinations", "anchors": ["ufotofu_codec/src/test_vector_generation.rs:40", "ufotofu_codec/src/test_vector_generation.rs:57", "ufotofu_codec/src/test_vector_generation.rs:139", "ufotofu_codec/src/test_vector_generation.rs:221", "ufotofu_codec/src/test_vector_generation.rs:504"]}
{"id": "C100", "title": "Adaptors whose closures have side effects and panic (partly violated)", "statement": "With MapItem around the producer or around the consumer of a pipe, the closure is called exactly once for each item, in order. If it panics, the panic leaves the pipe with everything before that item delivered, the producer about to emit the next item and both usable; calling the pipe again after each panic delivers what the closure makes of all other items and closes the consumer. If the closure of MapFinal panics, a producer has ended and its final value is lost; a consumer is not closed. But the item on which the closure panicked is lost, on either side, and closing a MapFinal consumer again panics although it was never closed.", "quantifier": "every lawful producer and consumer, every closure with any state, any set of calls on which it panics, and every number of repetitions", "why_tests_cant": "no test has a closure that panics or one with state; which items are lost depends on where the panic happens among arbitrarily many calls", "anchors": ["ufotofu/src/producer/map_item.rs:37", "ufotofu/src/consumer/map_item.rs:46", "ufotofu/src/producer/map_final.rs:40", "ufotofu/src/consumer/map_final.rs:46", "ufotofu/src/producer/map_error.rs:40", "ufotofu/src/lib.rs:541"]}
{"id": "C101", "title": "Reaching inside adaptors with as_ref and as_mut (partly violated)", "statement": "Calls of a BulkScrambler and direct calls of the producer inside may alternate in any order: every item comes out exactly once, those handed out by the scrambler and the at most `capacity` ones it still holds being interleaved in order with those fetched directly, and from then on the scrambler yields what it holds followed by what is left inside. If a different producer is put behind the reference, the scrambler yields what it holds and then the items and last value of the new one, unless it has already seen the end, in which case the new one is never touched. Likewise for consumers: what the consumer inside has seen are the items given to it directly, interleaved with a prefix of those given to the scrambler, and the next flush delivers the rest after them. Through the checker (Invariant) items keep their order whichever way they take. The mutable views of IntoSlice change their own region only, and the consumer goes on as before. But from the answers of the scrambler one cannot tell whether the producer inside has ended: fetching directly while the scrambler still has items may be a call after the end and panic.", "quantifier": "every lawful producer and consumer, every pattern, capacity, both builds, any number of rounds of calls of either kind, any replacement; every slice, history and length-preserving change", "why_tests_cant": "no test or fuzz target uses as_mut; what overtakes what depends on how far the scrambler has read ahead, over arbitrary alternations of calls", "anchors": ["ufotofu/src/producer/bulk_scrambler.rs:143", "ufotofu/src/consumer/bulk_scrambler.rs:140", "ufotofu/src/common_macros.rs:34", "ufotofu/src/producer/invariant.rs:70", "ufotofu/src/consumer/invariant.rs:66", "ufotofu/src/consumer/into_slice.rs:49"]}
{"id": "C102", "title": "Memory: vectors with capacities and an allocator that may refuse (partly violated)", "statement": "With vectors that have a capacity and an allocator that decides how much to give, IntoVec answers every call as it does without them, except that it panics exactly when all slots are taken, the capacity is too small for 2n+1 slots and the allocator refuses them; what it has collected is the same. The capacity of the vector it ends up with is at least the one it started with, and holds all slots. Collecting n items asks the allocator for more memory at most log2(n+1)+1 times, never for more than 2n+1 items at once and for at most 4n+2 in total, for every way of writing into it. A starting capacity c saves all further requests for n items, given by consume and bulk_consume, exactly if there is a power of two between n+1 and c+1. encode_into_boxed_slice gives the encoding whatever length was announced; but announcing the exact length does not save the reallocation, except for single bytes: every codec for wider numbers allocates len bytes, and then again. Fixed::new and try_new differ only when the first allocation is refused, a panic for the former and None for the latter; try_new panics too if the allocator gave too much and does not take the rest back. The fuzz target of IntoVec passes with its assertion on the capacity.", "quantifier": "every allocator (any state, any answers), every default, vector and history of calls, every lawful encoder, all sixteen number codecs and values, every capacity and filling function of Fixed", "why_tests_cant": "no test has an allocator that refuses or that gives more than it was asked for, and the number of allocations is not observed by any", "anchors": ["ufotofu/src/consumer/into_vec.rs:62", "ufotofu/src/consumer/into_vec.rs:150", "ufotofu_codec/src/encode.rs:52", "ufotofu_queues/src/fixed.rs:56", "ufotofu_queues/src/fixed.rs:154", "fuzz/fuzz_targets/ufotofu/into_vec.rs:22"]}
{"id": "C103", "title": "What Debug prints (partly violated)", "statement": "Both formats ({:?} and {:#?}) of every type of the library that implements Debug print a tree of its fields, never panic if those of the items, final values, errors and inner objects do not, and a text can be read in only one way: two trees with the same text are equal. A Fixed prints its capacity, the number of its items and the items, oldest first, after any permitted calls, and a Static its items; two queues with the same text behave alike from then on. A BulkScrambler prints the items it has read ahead, or not passed on yet. The wrapper that checks the rules is not printed, and its state has no influence: the same calls give the same text with and without the checks. Two values with the same text have the same fields: all of them for the sources, sinks, test objects, errors and numbers; all but the closures for the maps. Refuted: that equal texts mean equal behaviour (closures are not printed, a Static does not print its capacity), and that the text of an IntoVec depends on the collected items only (it prints unused slots).", "quantifier": "all items, final values, errors and inner objects with any readable Debug implementations, all states, all reachable queues and scramblers, both formats", "why_tests_cant": "three tests compare a dozen texts of two queues and a sink; that a text determines the fields is about all pairs of values", "anchors": ["ufotofu_queues/src/fixed.rs:356", "ufotofu_queues/src/static_.rs:134", "ufotofu/src/common_macros.rs:4", "ufotofu/src/producer/invariant.rs:37", "ufotofu/src/consumer/invariant.rs:33", "ufotofu/src/consumer/test_consumer.rs:348", "ufotofu/src/producer/empty.rs:51", "ufotofu/src/consumer/into_vec.rs:214", "ufotofu/src/producer/map_item.rs:12", "ufotofu_codec/src/decode_error.rs:21"]}
{"id": "C104", "title": "Derived comparisons and hashes (partly violated)", "statement": "The derived PartialEq, Eq, PartialOrd, Ord and Hash of Invariant, Limit, MapItem, MapFinal, MapError, BufReaderToBulkProducer, TestYielder, Blame and the number wrappers satisfy the laws of these traits whenever those of the inner types do: partial orders (also with values that are not equal to themselves), total orders, equality of values, equal values hash alike, and what is fed to the hasher tells different values apart. The orders are by the inner object first, then by what is left of a limit, by the closure (one that has been called comes before one that has not), by activity and exposed slots. Errors and scrambler operations are equal just if they are the same variant with equal contents. Number wrappers are ordered like numbers and are equal just if their encodings are; encodings are ordered bytewise like the numbers exactly for the unsigned big-endian wrappers and single unsigned bytes. What is equal in test builds is equal in other builds, and what comes first in other builds comes first in test builds. Refuted: that the two kinds of build agree; exposing items changes the comparison in test builds only.", "quantifier": "all inner types with lawful comparisons, all values of all the types, all number wrappers, all byte encodings", "why_tests_cant": "no test compares, orders or hashes any of these; laws of orders are about all triples of values", "anchors": ["ufotofu/src/producer/invariant.rs:25", "ufotofu/src/producer/invariant_noop.rs:25", "ufotofu/src/producer/limit.rs:6", "ufotofu/src/consumer/map_item.rs:6", "ufotofu/src/producer/map_final.rs:6", "ufotofu/src/producer/reader.rs:11", "ufotofu/src/test_yielder.rs:13", "ufotofu_codec/src/decode_error.rs:106", "ufotofu_codec_endian/src/lib.rs:40", "ufotofu/src/errors.rs:9"]}
{"id": "C105", "title": "Shared encoders and decoders under fair schedules (partly violated)", "statement": "Tasks that use an object behind a mutex (SharedEncoder, SharedDecoder and their relatives) complete all their calls under every schedule that polls every task infinitely often, unless a step fails to return; also if calls are dropped in between. From then on nothing changes. If no call takes more than b steps with the lock, b+3 rounds of polls per call are enough. Shared encoders over a vector never fail, and in the end the vector has the encodings of all values of all tasks, each completely and once, those of a task in its order. Shared decoders over a producer of as many encodings as the tasks ask for: in the end every task has as many values as it asked for, together they have all of them, each once, and the producer is right behind them. Refuted: that it is enough to poll one task to have it make progress; a call that has the lock and is not polled any more blocks all others.", "quantifier": "all adaptors with a mutex, all numbers of tasks and calls, all fair schedules, all codecs, all lawful producers", "why_tests_cant": "a test runs a few schedules for a bounded time, and no test of the project uses the Shared adaptors concurrently", "anchors": ["ufotofu_codec/src/adaptors/shared_encoder.rs:43", "ufotofu_codec/src/adaptors/shared_relative_encoder.rs:50", "ufotofu_codec/src/adaptors/shared_decoder.rs:45", "ufotofu_codec/src/adaptors/shared_relative_decoder.rs:55"]}
{"id": "C106", "title": "Merge over endless time (partly violated)", "statement": "Merging two producers that end: if the future of each is ready again and again, the merged producer ends, in whichever order they are polled. Producers that may be endless and do not fail: at any time, what has come out are the first items of both, each in order; if each side is picked again and again, then all items of both come out. As long as the first producer has items and its future is picked, nothing comes from the second, which is not even called. Refuted: that the first error is forwarded when both futures are always ready; an endless producer hides the error of the other one if select prefers it.", "quantifier": "all producers, finite or endless, all endless schedules of readiness and of the order in which select polls", "why_tests_cant": "tests and the fuzz target merge short finite producers; statements about endless time are beyond any of them", "anchors": ["ufotofu/src/producer/merge.rs:8", "ufotofu/src/producer/merge.rs:47", "ufotofu/src/producer/merge.rs:63"]}
{"id": "C107", "title": "Producers that never end", "statement": "A producer that follows the rules of the traits with an endless sequence (every produce, expose_items, consider_produced, bulk_produce and slurp answers with the next items, and never with a final value or an error) keeps doing so behind MapFinal, Invariant, the no-op invariant and a scrambler with any pattern; MapItem yields the mapped items for ever; readers without an end of file become such producers. Limit makes a finite producer of the next n items, and leaves the inner producer just behind the last item taken. The methods that fill a slice fill it with the next items. pipe and bulk_pipe do not return as long as the consumer takes everything, and return its error when it fails, with the producer still usable; pipe_at_most and bulk_pipe_at_most return in any case. The Decoder of fixed-width numbers yields the endless sequence of the values of which the bytes are the encodings.", "quantifier": "all endless sequences, all producers and readers that follow them, all lawful consumers, all sequences of calls, patterns, capacities and bounds", "why_tests_cant": "every producer in the tests and fuzz targets is finite; that something goes on for ever, or never returns, cannot be observed", "anchors": ["ufotofu/src/producer/limit.rs:54", "ufotofu/src/lib.rs:541", "ufotofu/src/lib.rs:579", "ufotofu/src/lib.rs:620", "ufotofu/src/lib.rs:665", "ufotofu/src/lib.rs:417"]}
{"id": "C108", "title": "The producer scrambler with any Clone", "statement": "For items whose Clone may change state, return something else or panic, and with panics caught at every call: produce, expose_items, consider_produced and bulk_produce of the producer BulkScrambler answer as specified, whatever the pattern and the capacity. At any time, every item of the wrapped producer is accounted for: it was handed over (after at most two clones, in order), or lost, or is in the queue (after at most one clone; at most as many as the capacity), or still in the wrapped producer. At most one item is lost per call of produce that panicked, none in any other call. If clone never panics, nothing is lost; if it only ever copies or panics, the items come unchanged and in order, without the lost ones. With the identity for clone, this is the scrambler of C28.", "quantifier": "all lawful inner producers whose produce moves or clones the next item, patterns, capacities, implementations of Clone, and finite sequences of calls", "why_tests_cant": "the fuzz targets use u8 and small integers, whose Clone is a copy that cannot panic", "anchors": ["ufotofu/src/producer/bulk_scrambler.rs:165", "ufotofu/src/producer/bulk_scrambler.rs:217", "ufotofu/src/producer/bulk_scrambler.rs:247", "ufotofu/src/producer/bulk_scrambler.rs:271", "ufotofu_queues/src/fixed.rs:1"]}
{"id": "C109", "title": "The consumer scrambler with any Clone", "statement": "For items whose Clone may change state, return something else or panic, and with panics caught at every call: consume, close, flush, expose_slots, consume_slots and bulk_consume of the consumer BulkScrambler answer as specified, whatever the pattern and the capacity. At any time, every item handed over in a call that succeeded is accounted for: it was forwarded in order (after at most two clones), or lost, or is in the queue (after at most one clone; at most as many as the capacity). At most one item is lost per call that panicked. If clone only ever copies or panics, the items are forwarded unchanged and in order, without the lost ones; if it also never panics, nothing is lost. With the identity for clone, this is the scrambler of C30.", "quantifier": "all lawful inner consumers, patterns, capacities, implementations of Clone, and finite sequences of calls, in builds without debug assertions", "why_tests_cant": "the fuzz targets use u8 and small integers, whose Clone is a copy that cannot panic", "anchors": ["ufotofu/src/consumer/bulk_scrambler.rs:160", "ufotofu/src/consumer/bulk_scrambler.rs:174", "ufotofu/src/consumer/bulk_scrambler.rs:189", "ufotofu/src/consumer/bulk_scrambler.rs:204", "ufotofu/src/consumer/bulk_scrambler.rs:244"]}
{"id": "C110", "title": "Producers that clone their items, with any Clone (violated by Limit)", "statement": "For items whose Clone may change state, return something else or panic, and with panics caught at every call: produce, expose_items, consider_produced and bulk_produce of the slice producers and of TestProducer (however built), also inside any number of Invariant and MapFinal adaptors, answer as specified. Every item is either handed over, in order, as it is or as one clone of it, or is still to come; nothing is lost or repeated, however often clone panics, and the final value or error comes after the last item. A pipe from such a producer, called again after each panic, goes on with the item whose clone panicked. A Limit around such a producer loses nothing either, but each produce in which clone panics is deducted from the limit: items handed over, panics of produce and what is left of the limit add up to the limit. So fewer items than the limit can come out although there are more (violated). A BulkScrambler around a TestProducer does as C108 says.", "quantifier": "all items, final values, build parameters, limits, implementations of Clone, and finite sequences of calls; adaptors around any lawful producer that moves or clones the next item", "why_tests_cant": "the fuzz targets use u8 and small integers, whose Clone is a copy that cannot panic", "anchors": ["ufotofu/src/producer/from_slice.rs:157", "ufotofu/src/producer/from_boxed_slice.rs:196", "ufotofu/src/producer/test_producer.rs:339", "ufotofu/src/producer/limit.rs:54", "ufotofu/src/producer/map_final.rs:40", "ufotofu/src/producer/invariant.rs:87"]}
{"id": "C111", "title": "Collecting consumers with any Default (violated by Limit and pipe)", "statement": "For items whose Default may change state, return anything or panic, and with panics of default and clone caught at every call: all methods of IntoVec and TestConsumer (however built), also inside any number of Invariant and Limit adaptors, answer as specified. A call that default cuts short takes nothing, and the consumer can be used on. In the end the vector holds what was in it and then, in order, exactly the items handed over in calls that succeeded (as they are or as one clone each), never a value that default made; this does not depend on what Vec::resize_with leaves behind when it unwinds. A consume of a Limit that panics is deducted from the limit, so fewer items than the limit may get through (violated), and a pipe that is called again after a panic has lost the item that it had moved into the call (violated); all other items arrive.", "quantifier": "all implementations of Default and Clone, all behaviours of resize_with on unwinding, initial vectors, build parameters, limits, finite sequences of calls, and lawful producers", "why_tests_cant": "the fuzz targets use u8 and small integers, whose Default is a constant", "anchors": ["ufotofu/src/consumer/into_vec.rs:150", "ufotofu/src/consumer/into_vec.rs:171", "ufotofu/src/consumer/into_vec.rs:193", "ufotofu/src/consumer/test_consumer.rs:366", "ufotofu/src/consumer/test_consumer.rs:399", "ufotofu/src/consumer/limit.rs:44", "ufotofu/src/consumer/invariant.rs:86"]}
{"id": "C112", "title": "Panics inside adaptors and pipes (partly violated)", "statement": "Let any method of the object inside an adaptor panic at any time, with panics caught at every call; nothing else is assumed about the object. Invariant lets the same calls through with the same answers until its rules are broken, and panics then; panics inside break no rule, use up what they were to mark as produced or consumed, and leave it usable, but a panicking close counts as closed. MapFinal is used up by the first final value or the first call of close, whatever comes of it, and by nothing else; MapError by the first call that returns, and by no panic; MapItem changes the items and nothing else. Limit passes on a call exactly if there is enough left, each such call costs what it would cost had it succeeded, and items taken, calls of produce without an item and what is left add up to the limit. A pipe, called again after each panic, gives the consumer exactly the items the producer emitted, each once and in order, and closes it exactly with the final values that came; only an item whose own consume panicked or failed can be lost. A bulk pipe tells the producer exactly the amounts the consumer took, but an item can be delivered twice if consider_produced panics (violated), and close cannot be called again after a panic through MapFinal or Invariant (violated).", "quantifier": "all producers and consumers whose methods may panic, with shared state; all finite sequences of calls, limits, functions, and numbers of attempts", "why_tests_cant": "no test has an inner object that panics, and the fuzz targets treat each panic as a failure", "anchors": ["ufotofu/src/producer/limit.rs:54", "ufotofu/src/consumer/limit.rs:44", "ufotofu/src/producer/map_final.rs:40", "ufotofu/src/consumer/map_final.rs:46", "ufotofu/src/producer/map_error.rs:40", "ufotofu/src/consumer/map_error.rs:38", "ufotofu/src/producer/map_item.rs:37", "ufotofu/src/consumer/map_item.rs:46", "ufotofu/src/producer/invariant.rs:87", "ufotofu/src/consumer/invariant.rs:86", "ufotofu/src/lib.rs:541", "ufotofu/src/lib.rs:579"]}
{"id": "C113", "title": "Panics inside the BulkScramblers (partly violated)", "statement": "Let any method of the object inside a BulkScrambler panic at any time, with panics caught at every call; nothing else is assumed about the object, not even that it keeps the contract. A scrambler with room for at least one item does not panic by itself (the consumer: in builds without debug assertions). The producer hands out exactly the items it drew from the inner producer, in order, except for at most its capacity of items that it still holds, and holds none when it has answered with the final value or an error; it marks items as produced only directly after they were exposed, and never more than were. The consumer puts into the inner consumer exactly the items it accepted, in order, except for at most its capacity, and holds none after a flush or close that succeeded; it passes on only final values it was given, in order. Each panic inside makes exactly one call of the caller panic, and no other call panics. But an item is handed out twice if consider_produced panics without effect (violated), and one panic of the inner consume can cost two items (violated).", "quantifier": "all producers and consumers whose methods may panic or break the contract; all patterns of operations, capacities, finite sequences of calls by a caller that respects what it was shown", "why_tests_cant": "no test has an inner object that panics or breaks the contract; the fuzz targets treat each panic as a failure", "anchors": ["ufotofu/src/producer/bulk_scrambler.rs:165", "ufotofu/src/producer/bulk_scrambler.rs:247", "ufotofu/src/producer/bulk_scrambler.rs:271", "ufotofu/src/consumer/bulk_scrambler.rs:160", "ufotofu/src/consumer/bulk_scrambler.rs:204", "ufotofu/src/consumer/bulk_scrambler.rs:244"]}
