# Formal model of ufotofu — design

The subject is the Rust workspace in `/repo` (`ufotofu`, `ufotofu_queues`,
`ufotofu_codec`, `ufotofu_codec_endian`). `/repo` is read as text only. The
properties are listed in `properties.jsonl`; `MANIFEST.json` maps each of them
to theorems of the Rocq development in `rocq/`.

## 1. How code becomes Rocq

* **Outcomes.** Every modelled method is a function from the state of its object
  to `outcome (state * result)`, where `outcome` is `Ret v` (returned),
  `Panic` (the Rust code panics: `unwrap` on `None`, slice index out of bounds,
  `% 0`, arithmetic underflow, failed `assert!`) or `NoFuel` (a loop bound given
  by the model ran out). Loops take a fuel argument; theorems are of the form
  "there is a bound such that for all larger fuel the loop returns ...", so
  `NoFuel` is never hidden.
* **Traits** (`Producer`, `BufferedProducer`, `BulkProducer`, `Consumer`,
  `BufferedConsumer`, `BulkConsumer`, `Queue`) are records of methods over a state
  type. Default methods are ordinary functions over the records.
* **Async.** A method that is awaited to completion is modelled as one
  transition. That this is justified is proved for a second model of the same functions (AsyncModel.v,
  AsyncAdaptorModel.v), in which a future is a tree of polls over the state it borrows and every `.await` is one `await`:
  however the polls are spread, the outcome is that of the first model, and no function returns `Pending` on its own account
  (C76; C79 for the I/O adaptors, AsyncIoModel.v; C80 for `Merge`, AsyncMergeModel.v). The
  mutex-based `Shared*` adaptors are modelled at poll level in the first place, with arbitrary programs for the bodies; C81
  puts the futures in their place.
  Dropping a future half-way (cancellation) is modelled for pipes (C77), for the writer adaptor (C79), for `Merge` (C80), for
  the `Shared*` adaptors (`Drop` events), and for the adaptors, helpers and scramblers (C85: the state a dropped call leaves
  behind; the contents of a buffer that `overwrite_full_slice` borrows are not part of that state). The crate forbids calling
  methods after an unfinished future was dropped (lib.rs 33); C85 shows which adaptors need that rule, C93 that
  following it is enough for what is inside, C94 that breaking it leads to wrong data at worst, not to panics (with exceptions).
* **Slices.** A borrowed slice of items is a list. A mutable slice of slots is
  its length plus a separate "client writes these items into the first slots"
  operation; stale slot contents are visible only to the queue and `IntoVec`
  models, which keep the backing memory as a list.
* **Numbers.** `usize` counters are `nat`. Subtraction is checked (underflow is
  `Panic`, as in a build with overflow checks; a release build would wrap, and the
  theorems show the case does not arise). Additions are unbounded; where an
  overflow could matter (ring-buffer index) a theorem bounds the sum; the queues and the other
  parts that compute with `usize` are also modelled with the arithmetic of machine words, checked and wrapping
  (WordModel.v, C73; WordBasicModel.v, C75; WordTestModel.v, C78).
  Codec integers are `Z` with their exact range.
* **Generic items.** `Clone` is the identity on values, except in CloneModel.v, where it is an arbitrary function that may panic (C96, C97), CloneScramblerModel.v (C108), CloneSinkModel.v (C109) and CloneSourceModel.v (C110).

## 2. Specifications

* **Queue**: a list of at most `capacity` items.
* **Producer contract**: a producer state denotes a list of items still to come, then one
  last value (final or error), then nothing. Laws say what each method may
  answer in terms of that pair: `produce` the head, `expose_items` a non-empty
  prefix, `consider_produced` drops a prefix of what is exposed, `slurp` changes
  nothing. Exposure sizes are left entirely to the implementation.
* **Consumer contract**: an abstract deterministic machine with `step` (one item), `finish`,
  `flush`, each accepting or failing. Laws tie every method to that machine:
  `consume` is one step, `consume_slots m` is `m` steps on the written items, `expose_slots`
  offers at least one slot, failing only if every item would be refused.
* **Rule-respecting caller**: no call after an end (final, error, close); marks at
  most what is exposed by the most recent exposure; a different call in between
  invalidates the exposure.

* **Codec contract** (`lawful_codec`, CodecSpec.v): functions `enc : V -> list byte` and
  `dec : list byte -> parse`, such that `encode` writes `enc v` into *every* contract-abiding
  consumer up to the first refused byte, `decode` applies `dec` to the bytes of *every*
  contract-abiding producer and leaves the bytes after the encoding, `dec` does not depend
  on later bytes, and `dec (enc v)` is `v`. The endian wrappers are proved to satisfy it;
  CodecExamples.v has further instances.

* **Sharing**: a program with exclusive access is a tree of steps (`prog`), and `implements p f` says that
  `p`, run without interruption, is `f`. A schedule is a list of polls and drops. The specification of a
  shared object is the sequence of its calls in lock order (`in_turn`), and for codecs the machine or byte
  list that the calls amount to (`feed_calls`, `rel_decodes`).

* **Fuzz targets**: `full_slice_report`, `overwrite_report`, `pipe_report`, `fifo_sees`, `same_con`, `same_pro`, `answers`
  `bulk_consume_alike`, `bulk_produce_alike`, `mostly_transparent`, `transparent`, `merge_report` (FuzzSpec.v) say what a target
  accepts without running it, for arbitrary code under test.
* **Connections** (`closed`, FuzzIoSpec.v): the receiving end of a connection is determined by the calls to the sending end; a
  faithful connection delivers the bytes that were accepted by calls up to a successful `close`.

* **Codec fuzz targets** (`basic_verdict`, `canonic_verdict`, CodecFuzzSpec.v): what a target accepts, in terms of `enc` and
  `dec`. `encodes_as` is the encoding contract for a single value, for relative codecs that only encode some values.
* **Test vectors** (`holds_vectors`, VectorSpec.v): the contents of the output directory as a function of the inputs.
* **Exact behaviour where a contract is violated** (ExactSpec.v): `bulk_accepts` (what a sequence of `bulk_consume` calls reports),
  `p_conforms_leaking` (histories in which `slurp` may surface one particular error).

* **Texts of errors** (`reports`, ErrorSpec.v): the text ends with the decimal numeral of a number and "items".

Adaptors are proved to *preserve* the contracts, concrete types to *satisfy*
them; pipes and default methods are proved correct for everything satisfying
them. Theorems about histories are by induction over arbitrary lists of calls.

## 3. Plan per property

| Property | Modelled | Proof |
|---|---|---|
| C01, C03–C05, C07 | `Fixed` with backing list, read index, amount | refinement to bounded list, induction on call lists |
| C02 | `Static` as a separate definition | step-wise equality with `Fixed`, then C01 |
| C06 | same | `_refuted` witness at capacity 0 |
| C08, C09 | default `bulk_consume`, `(bulk_)consume_full_slice` | for every lawful consumer; the count of `bulk_consume_full_slice` as an equivalence for every consumer |
| C10, C11 | `produce_item`, `(bulk_)overwrite_full_slice`, `bulk_produce` | for every lawful producer |
| C12, C14 | `pipe`, `pipe_at_most` | for arbitrary records, by induction on fuel (traces); termination for finite lawful producers |
| C13, C15 | `bulk_pipe`, `bulk_pipe_at_most` | both equal one list-level specification function |
| C16, C17 | `FromSlice`, `FromBoxedSlice`, `Empty` | lawful instances + history theorem |
| C18 | `IntoVec` with backing vector and filler | lawful instance + history theorem |
| C19–C22 | `Limit`, `MapItem`, `MapFinal` | contract preservation; for `Limit` with `slurp`, a weaker contract that names the one deviation |
| C23 | `MapError` | `_refuted` witness; what does hold is proved separately |
| C24–C27 | `Invariant` (test) and `Invariant` (noop) | lock-step simulation; `_refuted` witnesses |
| C28–C29 | producer `BulkScrambler` | contract preservation (slurp-free); `_refuted` witness |
| C30–C32 | consumer `BulkScrambler` (release/debug) | delivered ++ pending = consumed invariant; `_refuted` witnesses |
| C33, C34 | `TestProducer`, `TestConsumer` | lawful instances + exact exposure sizes |
| C35 | `TestYielder` at poll level | arithmetic on the cyclic index |
| C36, C37 | `Merge` at poll level with a readiness oracle | interleaving invariant |
| C38–C41 | reader/writer adaptors over abstract readers/writers/queues | contract satisfaction for all short-read/short-write schedules; `_refuted` witnesses |
| C42–C46 | endian codec | `Z` arithmetic + generic full-slice theorems |
| C47–C50, C53 | codec traits and adaptors over an abstract lawful codec | reduction to list-level encode/decode |
| C54, C56 | the assertions of `proptest/absolute.rs` (`relative.rs` is the same code with a fixed reference value) | each assertion equals a list-level condition |
| C51, C52 | `Shared*` adaptors as tasks over a mutex; encoding and decoding as programs of uninterrupted steps | invariant over small-step schedules: every execution equals the sequential one in lock order |
| C57, C58 | same | `_refuted` witnesses |
| C59–C64 | the fuzz targets as functions of their input, with the code under test as a parameter | the theorems of the tested code; each target equals a report specification (FuzzSpec.v) |
| C67, C68 | the macros of `proptest.rs` as functions of the generated data | each assertion equals a list-level condition (per value, so that relative codecs may refuse values) |
| C69, C70 | `test_vector_generation.rs` over files as a function of directory and number | the loop writes the vector of each input; `_refuted` witnesses |
| C71 | `IntoSlice` as written (its module is commented out in `consumer.rs`) | lawful instance over a machine that takes as many items as fit; history theorem for what the accessors show |
| C72 | `Display`, `source`, `into_reason` of the error types | composition with C09, C10, C12; numerals by the standard library's conversion |
| C73 | the queues with `usize` below an arbitrary bound, with and without overflow checks | equality with the unbounded model under the bound, `_refuted` witness above it |
| C74 | the exported types: macros, `Invariant` in both builds, the checkers inside `TestProducer` and `TestConsumer` | lawful instances; simulation that forgets the inner checker, for arbitrary call lists |
| C75 | slices, `IntoVec`, `Limit`, `TestConsumer`, cyclic indices, full-slice methods and bounded pipes with `usize` below an arbitrary bound | invariants along permitted histories under which both arithmetics agree; exact bound and `_refuted` witness for `IntoVec`; panic or wrapped number for callers that overstep |
| C76 | the traits' provided methods, pipes, basic and test objects, adaptors, scramblers and codecs, poll by poll | structural recursion over futures; the completed future equals the first model; `Pending` only from, and exactly as often as, the objects used |
| C77 | states in which a pipe returns `Pending` | induction over the rounds of the pipe: one object is in the middle of one call, the other is at rest; `_refuted` witnesses for dropping a pipe |
| C78 | `TestProducer` and `TestConsumer` with `usize` below an arbitrary bound in every place | lawful histories keep lengths below the bound, so both arithmetics agree on every permitted call |
| C79 | adaptors for readers and writers, poll by poll; states in which they return `Pending` | as C76 and C77; the loop of `write_all` keeps written bytes queued, `_refuted` witness for dropping a flush |
| C80 | `Merge` over producers with arbitrary futures, callers that drop | simulation by the first model under a schedule; where the future of `produce` stands is a function of the state; measure: the larger number of futile polls |
| C81 | `Shared*` adaptors whose bodies are the futures of asynchronous objects and codecs | a future is a program; C51 and C52 with C76 |
| C82 | the `Arbitrary` instances of test objects, yielders, scrambler operations and checkers | composition lemmas for hints and for the set of generated values; `_refuted` witnesses by computation |
| C83 | `PartialEq` of `TestProducer` and `TestConsumer`, `into_data` | no call changes the slice of a producer; C33, C34 and C74 for the rest; `_refuted` witness for the last value |
| C84 | the tasks of compat.rs and compat_buf_read.rs polled in any order over a bounded connection, `join!`, `block_on`, futures-lite's `BufReader` | the adaptors poll by poll (C79), C66; step-indexed simulation against ends of the connection whose environment follows a script (CorrProofs.v), invariant over schedules; with debug assertions, the sender does what it does without them until it panics (JoinDebugProofs.v) |
| C85 | all adaptors, provided methods, bounded pipes, scramblers and codecs for numbers while they are pending | `suspended` (C77) computed exactly for the adaptors; lawful inner objects and the invariants of C28 and C30 for loops and scramblers |
| C86 | pipes, slice helpers, default methods, all synchronous adaptors, scramblers, Merge, encoders and decoders, endian codecs | monitors over calls and answers (`RulesSpec.v`), shown to admit exactly the histories that satisfy `p_rules`; objects that turn a forbidden call into any outcome `bad` make no difference; the objects themselves are arbitrary |
| C87 | the same as C86 | `calm`: no list of calls that is cut off where it would break a rule ends in `Panic` (`SafeSpec.v`, monitors of `RulesSpec.v`); the inner objects are arbitrary calm ones, so their state after each call is described only by what further calls may do |
| C88 | the same as C86, and the towers of C55 | `alike`: equal answers to every list of calls that is cut off where it would break a rule, panics included (`AlikeSpec.v`); objects whose bulk method is not the default one are excluded where a law removes an adaptor (`default_producer`); codecs are required to be parametric in the state (`uniform_encode`), as Rust's generics are |
| C89 | the consumer adaptors, encoders, `WriterToBulkConsumer`, pipes, shared encoders, asynchronous versions | `settles C idle`: every successful `flush` and `close` ends in a state that is `idle`, for any predicate on states (`SettleSpec.v`); nothing is assumed about what it means to be idle, nor about calls that fail |
| C90 | pipes, slice methods, towers of adaptors, `ReaderToBulkProducer`, `BufReaderToBulkProducer`, `WriterToBulkConsumer`, `Encoder` and `Decoder` for numbers | `CallsSpec.v`: histories of calls and answers (`p_trace`, `c_trace`), listed for every result (`pipe_calls`, `bulk_pipe_calls`, `consume_slice_calls`, ...); both directions, for arbitrary objects. `ct_call`, `pt_call` say what one call of a tower is in the middle, by recursion over the tower; scramblers and the closures of `MapItem`, `MapError` are not part of these towers. `br_call`, `rd_call`: the calls of a reader and what is made of their answers; `wr_call` the same for a writer (`wc_drain`, `wc_all`: emptying the queue, writing all of a slice); `encoder_call`, `decoder_call` |
| C91 | both scramblers | `ScheduleSpec.v`: reading ahead and passing on as relations over the items in the queue, the position in the operations and the calls made (`filled`, `drained`); how items lie in the ring buffer is left open (C01), so the sizes of exposed slices are only bounded |
| C92 | `pipe`, `bulk_pipe`, encoder and decoder around the reader and writer adaptors, as two tasks over the connection of C84 | C12, C13, C42, C79 on the ends of a connection that follow a script; the simulation of C84 (CorrProofs.v), extended to pipes and codecs (LinkCorrProofs.v) |
| C93 | the rule of lib.rs 33, for everything that has futures of something inside | `AbideSpec.v`: objects that are watched (`watch`: a call that begins before the one before it is complete leaves a mark), callers that follow the rule (`abiding`), predicates that hold between calls (`keeps`); induction over futures; `Merge` with dropped futures; `_refuted` witness for `SharedEncoder` |
| C94 | the same as C87, poll by poll, with callers that drop futures | `HardySpec.v`: `hardy`, the `calm` of C87 for calls with numbers of polls; a predicate over futures (`ok_polls`) that says what holds wherever they are dropped and where they end, with one rule per construct; `_refuted` witnesses for a second `close` |
| C95 | C94 for the adaptors of readers and writers, and for IntoSlice | `HardyIoSpec.v`: the least that is asked of readers and writers (`gentle_*`, and `calm_*` without waiting), over a predicate `OK` on their states; conclusion as in C94 and C87; `_refuted` witnesses for readers and writers that report too much, and for a queue without room |
| C96 | queue methods that clone, with `Clone` as a state transformer that may panic (CloneModel.v) | `CloneSpec.v`: `clones` and `breaks` (which items are cloned, once and in order), answers of a queue in these terms (`u_answer`); conformance for all lists of calls; conservation of items; link to the plain model |
| C97 | default methods, slice producers and pipes, with `Clone` as in C96 | `took`, `refused`, `broke` (CloneSpec.v): the three ways in which handing over clones ends; generic over the contracts; link to the plain model |
| C98 | `into_inner` of the adaptors, for whole towers (ApartModel.v) | conservation of items: emitted, held back (at most `pt_capacity`), and still in the inner producer; the inner consumer is in the state that `m_feed` of the consumed items gives; refuted with scramblers |
| C99 | test_vector_generation.rs on a file system with failures (VectorIoModel.v) | `stops_cleanly`: the first `m` files of the list of all files are there, the next one possibly cut off; `restartable`; refuted: an interrupted run leaves only complete test vectors |
| C100 | MapItem, MapFinal, MapError and `pipe` with closures that panic (ClosureModel.v) | `map_feed`, `skip_feed`: feeding a machine with what the closure makes of the items, up to the first panic or leaving out the items on which it panics; refuted: nothing is lost; `close` can be tried again |
| C101 | `as_ref` and `as_mut` of the BulkScramblers, Invariant and IntoSlice (ReachModel.v) | `p_mixed`, `c_mixed`: alternating rounds of calls of the adaptor and of what is inside; `interleave` from C36; refuted: an item can be fetched directly as long as the scrambler has not reported the end |
| C102 | `IntoVec`, `encode_into_boxed_slice` and the constructors of `Fixed` with an allocator (MemoryModel.v) | refinement of `into_vec_consumer` for every call and execution; a record of all requests (`recorded`): logarithmic number, linear sum; refuted: knowing the length of an encoding saves reallocations; `try_new` never panics |
| C103 | every implementation of `Debug`, hand-written or derived, and the builders of core::fmt with `PadAdapter` (DebugModel.v) | printing of trees (DebugSpec.v); a lexer and unambiguity of the token sequences give that texts determine trees, in both formats; relations `fixed_R`, `pscr_rel`, `cscr_rel` for reachable queues and scramblers |
| C104 | derived `PartialEq`, `PartialOrd`, `Ord`, `Hash` of all types, and those of `usize`, `bool`, integers, slices, `Option` (OrderModel.v) | laws from the documentation of the traits (OrderSpec.v), preserved by every type constructor; lexicographic characterisations; bytewise order of encodings via the values of digit sequences |
| C105 | the tasks and their mutex (SharedModel.v) | fair schedules, rounds (FairSpec.v); a well-founded order on the tasks of a system that every effective step descends, and a numeric bound for it; the history of the lock as the order of the encodings |
| C106 | Merge at the granularity of polls (MergeModel.v) | endless producers as functions, endless schedules (FairMergeSpec.v); positions of both sides as invariant, progress in every stretch of the schedule in which both are picked |
| C107 | Limit, MapFinal, Invariant, MapItem, scrambler, readers, slice methods, pipes, Decoder: the same models, over endless sequences | contract for sequences without a last item (EndlessSpec.v), both for every list of calls and as a relation, shown equivalent; `NoFuel` for every fuel means: does not return |
| C108 | producer BulkScrambler with `Clone` as in C96 (CloneScramblerModel.v) | `reads` and `stumbles`: what happens to queue and inner items while reading ahead; fate of each item (CloneScramblerSpec.v); link to the plain model |
| C109 | consumer BulkScrambler with `Clone` as in C96 (CloneSinkModel.v) | `passes`, `unwinds`, `balks`: what happens to the withheld items while the queue is emptied; fate of each item (CloneSinkSpec.v); link to the plain model |
| C110 | `produce` of the slice producers, TestProducer, Limit, MapFinal and Invariant with `Clone` as in C96 (CloneSourceModel.v) | contract `gives` (CloneScramblerSpec.v); sequence with an optional limit (CloneSourceSpec.v); link to the plain model |
| C111 | `consume` and `expose_slots` of IntoVec, TestConsumer, Limit and Invariant, `bulk_consume` and `pipe`, with an arbitrary `Default` (DefaultModel.v) | contract `takes`, answers `d_answer` against the machines of C18 and C34, accounting (DefaultSpec.v); link to the plain model |
| C112 | all adaptors, `pipe` and `bulk_pipe` around objects any of whose methods may panic (PanicModel.v) | runs of calls with answers, compared with runs of the inner object; rules of Invariant; `limited`; the calls of a pipe as a list of events (PanicSpec.v); link to the plain model |
| C113 | both BulkScramblers around objects any of whose methods may panic (PanicScramblerModel.v) | items drawn from, or fed to, the inner object by its calls (`drawn`, `fed`), against items given to, or accepted from, the caller (PanicScramblerSpec.v); link to the plain model |
| C65 | writer adaptor over a writer that accepts bytes and does not fail | contract satisfaction with the accept-everything machine; then the theorems about pipes |
| C66 | the targets compat.rs and compat_buf_read.rs over an abstract connection | C65, contracts of the reader adaptors and scramblers |
| C55 | towers of `Limit`, `MapFinal`, invariant wrapper, producer `BulkScrambler` | induction over a syntax of towers; list functions and machines compose |

## 4. Trusted base

Coq 8.16.1's kernel; the axioms listed by `Print Assumptions` next to each
theorem (all of them report "Closed under the global context", that is, none); the fidelity of the
hand-written model to the Rust text, which every definition documents by file and line.

Trusted and not modelled: the Rust compiler and `core`/`alloc`, `either`,
`futures::select` (used by `Merge`; modelled by its documented polling behaviour),
`wb_async_utils::Mutex` (mutual exclusion assumed), `futures_lite` I/O futures
(`read_exact`, `write_all` modelled after their documented loops), allocation failure and
memory exhaustion (other than in C102, which takes what `Vec` does with its capacity from its documentation), unwinding (other than out of a user's `clone`, C96, C97 and C108 to C110, of a user's `default` in IntoVec and TestConsumer, C111, out of the closures of adaptors, C100, and out of any method of what is inside the adaptors and pipes of C112 and the scramblers of C113).

Not modelled at all:
the `Arbitrary` instances of the standard types (parameters of C82; ArbitrarySpec.v has those of version 1 of the crate, from its
documentation, for examples and witnesses) and the derived ones of the codecs, the file system itself (C99 assumes that
operations on a file have no effect on other files), the network itself (the targets compat.rs and compat_buf_read.rs are modelled over an
abstract connection, sending everything before receiving in C66, and concurrently over a bounded queue in C84 and C92).

The `nightly` variants of the methods of `Fixed` (fixed.rs 202-237, 298-354) are the same text as the stable ones, and the model
stands for both; their constructors differ in the allocator only, which is a parameter in C102.

Evidence for the fidelity of the model: `ProjectTests.v` replays the project's own unit tests and documentation examples
on the model (queues, `IntoVec`, `Limit`, `TestConsumer`, `TestProducer`, `Empty`, `FromSlice`, the adaptor regression test, the
sixteen endian examples) and checks that the same assertions hold. Left out is `tcp_impl_is_not_broken`.

## 5. Places where documentation and code disagree

Each with the theorem that shows it, once the code concerned is modelled.

1. Zero-capacity queues: `consider_dequeued(0)` divides by zero (C06).
2. `bulk_consume_full_slice` reports as `count` only what complete `bulk_consume`
   calls consumed; items accepted by a call that later fails are not counted
   (C09_bulk_exact_count_refuted). The count is exact for consumers that accept
   everything they expose slots for; in general it is what the completed calls reported (C09_bulk_count_is_exactly).
3. `bulk_pipe` over a consumer whose `bulk_consume` answers 0 would loop; the contract
   excludes it, and the theorems are about contract-abiding consumers.
4. `TestConsumer` exposes at most its configured size; for sizes above 2048 possibly
   less than announced (C34_test_consumer_accepts_before_n states the exact rule).
5. Producer `Limit`: `slurp` is forwarded even when the limit is reached; if the
   inner producer fails right after exactly n items, that error surfaces
   although the sequence should end with `None` (C19_slurp_refuted). Nothing else deviates (C19_limit_conforms_exactly).
6. `MapError` takes its function on every call; the second call panics (C23).
   Even the first `bulk_produce`/`bulk_consume` panics, since the default consists
   of two calls.
7. The invariant checker stays active after an error of `consider_produced` or
   `consume_slots` (C26), and after a `bulk_consume`/`bulk_produce` that failed in
   its second half. It accepts marking slots of a stale exposure (C27).
8. No adaptor forwards `bulk_produce`/`bulk_consume` overrides; the default over the
   adaptor's own methods is used. The theorems compare with the inner object
   using the default (`invariant_noop_producer`).
9. Producer `BulkScrambler`: `slurp` calls `slurp` on an inner producer that has already
   ended, whenever the rest of the sequence is shorter than the buffer (C29).
10. Consumer `BulkScrambler`: `debug_assert!(yay.is_some())` has the wrong polarity
    (`enqueue` answers `None` on success), so debug builds panic on the first `consume`
    that finds the buffer full (C31).
11. Scramblers of capacity 0 panic or drop items (C32).
12. Reader/writer adaptors (C41): `bulk_produce` with an empty buffer reports the end of the
    sequence, `bulk_consume` with an empty buffer fails with `WriteZero`; the default methods
    would answer 0. A reader error of kind `UnexpectedEof` is the final value for `produce`
    and an error for all other methods. With a queue of capacity 0, `expose_items` and
    `expose_slots` panic.
13. The contract of `Encodable` admits an empty encoding for a type with one value. `Encoder` then
    passes on nothing, and `Decoder`, which looks for a byte before it decodes, reports the
    final value at once (C48_empty_encoding_refuted). The round trip is proved for codecs
    without empty encodings.
14. `Blame::i64_to_usize`, `i32_to_usize`, `i16_to_usize` convert to `isize`, not `usize` (C53).
15. `assert_basic_invariants` does not notice a decoder that leaves part of an encoding
    unread (C56_unread_bytes_refuted).
16. `Shared*` adaptors: a task cannot know that the call of another task has ended the shared
    object. Tasks that each respect the rules can make the shared object receive calls
    after an error or final value (C57), and a decoding error of one task leaves the next
    one in the middle of an encoding.
17. Dropping the future of a `SharedEncoder::consume` that has the lock releases the lock
    with part of the encoding written (C58). Dropping one that still waits is harmless
    (C51 covers it).
18. The fuzz targets of the consumer scrambler, `into_vec` and the consumer invariant panic in debug builds on
    every input of more than 2048 accepted items (C63; the cause is item 10).
19. Blind spots of fuzz targets: bulk_overwrite_full_slice.rs does not compare the slices (C60_slices_unnoticed);
    bulk_produce.rs never calls `bulk_produce` at the end of the sequence, since the loop stops when no items
    remain (C60_bulk_produce_passes); `PartialEq` of `TestProducer` compares the whole slice and not
    what remains, so that bulk_pipe.rs, bulk_pipe_at_most.rs do not notice lost items (C61_lost_items_unnoticed).
    Outside of the library's own tests `Invariant` is the forwarding variant, so that the two invariant
    targets compare a scrambler with itself.
20. The generators of test vectors for relative codecs write to `reencoded` the absolute encoding of the value, not its
    encoding relative to the value in `yay_relative_to` (C70_relative_reencoded_refuted). Existing files in the output
    directory are kept, so vectors of an earlier corpus mix with those of the present one (C70_stale_files_refuted).
    The canonic generator for relative codecs writes `reencoded`, the one for absolute codecs does not.
21. The canonic fuzz targets for relative codecs encode decoded values that the predicate may reject
    (C68_decoded_values_are_encoded).
22. Outside of the model: the generators parse corpus files with `Arbitrary::arbitrary`, while `fuzz_target!` of `libfuzzer_sys` parses its
    input with `arbitrary_take_rest`; the inputs of the vectors are then not those that were fuzzed. The
    theorems hold for every implementation of `Arbitrary`.
23. A queue of capacity c with 2c > `usize::MAX` + 1 (possible for items of size zero only) panics in `expose_items` when it is
    full and its read position is the last cell: in debug builds because the sum overflows, in release builds because the
    wrapped sum gives an invalid range (C73_zero_sized_refuted). The bound is exact (C73_word_queue_iff).
24. A full `IntoVec` with n items grows to 2n + 1 items, so it panics at the next item exactly if a vector cannot hold 2n + 1 of them
    (C75_into_vec_full). For items that take up memory this is the capacity overflow of `Vec`; the sum itself never overflows
    (C75_into_vec_sized). For items of size zero a vector can hold `usize::MAX` of them, but from half of that on the sum
    overflows in debug builds; in release builds it wraps around, the vector is truncated and the access panics
    (C75_zero_sized_refuted).
25. `TestProducer::size_hint` is a copy of `TestConsumer::size_hint`: it counts an `Error` and a `usize`, which the producer does not read,
    and leaves out the items and the last value. The lower bound is too large (C82_producer_hint_refuted); a fuzzer that rejects
    inputs below the lower bound rejects usable ones. C82_producer_right_hint states the right hint.
26. With the feature `dev`, the checkers `Invariant` derive `Arbitrary`, so that a generated checker can be inactive, or have slots
    on record that were never exposed: it panics at permitted calls, or lets wrong ones pass (C82_invariant_refuted). The
    variants without checks do not have this problem. Nothing in the project generates checkers this way.
27. "This implementation considers only the values that have been or will be emitted" (test_producer.rs 160): once the last value has been
    emitted, the comparison does not consider it, and `into_data`, which is documented to give back all values "including the last
    one", does not contain it (C83_producer_values_refuted).
28. `bulk_pipe` and `bulk_pipe_at_most` (lib.rs 579-613, 665-705) pass the number that the consumer's `bulk_consume` reports on to the
    producer's `consider_produced` without comparing it to the length of the slice; a consumer that counts one item too many makes them break
    the rule of the producer, and `bulk_pipe_at_most` report more items than its bound (C86_dishonest_refuted). The default `bulk_consume`
    never does so (C86_default_is_honest); that the number is at most the length of the slice is only implied by "reading them from a given
    buffer" (lib.rs 222).
29. `close` "should internally trigger flushing" (lib.rs 160-163). `SharedEncoder::close` and `SharedRelativeEncoder::close` (shared_encoder.rs
    48-51, shared_relative_encoder.rs 56-59) return at once (their own documentation says "Does nothing"), so that what the shared consumer delays remains delayed even if every user has
    closed their encoder successfully (C89_shared_close_refuted).
30. "It is forbidden to call any further UFOTOFU trait methods on the same value afterwards" (lib.rs 33) is not enough for the `Shared*` adaptors:
    if one user drops a future that has the lock, another one, which has broken no rule, makes the next call to a shared object in
    the middle of an abandoned call (C93_shared_refuted).
31. `MapFinal` and `Invariant` consumers give away their function, or note that they are closed, before the inner `close` is ready: if that future is
    dropped and `close` is called again, they panic even around consumers which do not (C94_close_refuted). lib.rs 33 forbids that call; all other calls
    after a dropped future are free of panics in the adaptors that were modelled.
32. `ReaderToBulkProducer::expose_items` trusts the number that the reader returns: a reader (safe code) that reports more bytes than the slots it was given
    makes the queue hold more items than its capacity, so that bytes are produced twice; `produce` panics (C95_boasting_refuted, C95_boasting_ex). Queues of capacity
    zero make both adaptors panic at the first `expose` (C95_no_room_refuted); the documentation of the constructors does not exclude them.
33. No contradiction, but an asymmetry that the documentation does not mention: if the `clone` of an item panics, `Fixed::dequeue` and `Static::dequeue`
    have already moved on, and the item is lost; `bulk_dequeue`, `bulk_enqueue` and the slice producers lose nothing (C96, C97_from_slice_keeps_the_item).
34. `BulkScrambler::into_inner` (both) is documented to return the wrapped producer or consumer; it drops the items in its buffer without a word
    (C98_nothing_lost_refuted, C98_consumer_scrambler_refuted). All other adaptors lose nothing.
35. The generators of test vectors write each file in place and panic at the first failure, so an interrupted run leaves an incomplete test vector that looks like any other
    (C99_complete_vectors_refuted); running again repairs it, if the corpus is still the same (C99_absolute, C70_stale_files_refuted).
36. When the closure of a MapItem panics, the item is gone, although the inner producer or consumer is fine (C100_nothing_lost_refuted). When that of a MapFinal consumer panics,
    the inner consumer is still open but cannot be closed through the adaptor (C100_close_again_refuted); it has to be taken out with `into_inner`.
37. `as_mut` of a producer's BulkScrambler gives access to a producer that may have ended without the scrambler having said so; a call is then a call after the end
    (C101_fetching_refuted). Items fetched directly overtake those that the scrambler has read ahead.
38. `encode_into_boxed_slice` announces the length of the encoding to `IntoVec::with_capacity`, but `IntoVec` grows through the sizes 1, 3, 7, 15, … (and from n to 2n+1 slots), so that
    the announced length suffices only if it is one less than a power of two: all codecs for numbers of more than one byte allocate twice, and shrink afterwards (C102_number_slices, C102_one_allocation_refuted).
39. `Fixed::try_new` returns `None` if the first allocation is refused, but goes through `into_boxed_slice`, which panics if the allocator gave too much and refuses to shrink (C102_try_new_refuted).
40. `Debug` of the maps omits the closure, and that of `Static` the capacity, so that equal texts do not mean equal behaviour (C103_map_item_tells_refuted, C103_static_capacity_refuted);
    that of `IntoVec` shows the slots that were exposed and not used (C103_into_vec_items_refuted).
41. The derived comparisons of `Invariant` look at its own fields in test builds, so that a producer that has exposed items differs from one that has not, although the wrapper "does
    nothing at all" in other builds (C104_builds_refuted).
42. A future of a Shared adaptor that has the lock and is neither polled nor dropped blocks all other users of the mutex, however often they are polled (C105_one_task_refuted); the
    documentation of the adaptors does not say that.
43. Merge says that it "forwards the first `Error`" (merge.rs 8), but nothing in it keeps one producer from starving the other: that depends on the order in which `select` polls
    (C106_starvation_refuted).
44. The scrambler of a producer loses an item if its `clone` panics in `produce` (after which `dequeue` has moved on), but is stuck at such an item for good if the pattern says
    `ConsiderProduced`, since then the `clone` into the queue panics before `consider_produced` (C108_example_moved, C108_example_stuck).
45. The scrambler of a consumer drops a withheld item if its `clone` panics in `dequeue`, and with it the item given to the `consume` that needed the room; if the pattern says
    `ConsumeSlots`, the item stays, and `flush` and `close` panic for as long as its `clone` does (C109_example_consume, C109_example_stuck).
46. `produce` of the `Limit` of a producer decrements `remaining` before it calls the inner `produce`. If that panics in the user's `clone`, the inner producer still has the item, but the
    limit has shrunk: with a limit of 2 over `[1, 2]` only one item comes out (C110_limit_refuted). The documentation says nothing about panics; `bulk_produce` does not deduct anything.
47. `consume` of the `Limit` of a consumer decrements `remaining` before it calls the inner `consume`. If that panics (for IntoVec: in the user's `default`, while the vector grows), nothing was taken, but
    the limit has shrunk: with a limit of 2 only one item gets through (C111_limit_refuted). The item itself is gone in any case, since it was moved into the call, so a `pipe` that is called again after a
    panic goes on with the next one (C111_pipe_refuted). The documentation says nothing about panics.
48. `close` of MapFinal (consumer) takes its function out before it calls the inner `close`, and that of Invariant sets `active` to false first. If the inner `close` panics, calling `close` again panics
    in the adaptor, although the inner consumer would accept it (C112_close_again_refuted). `bulk_pipe` calls `consider_produced` after the consumer has taken the items; if that panics without having
    done anything, a second `bulk_pipe` delivers the items again (C112_bulk_pipe_again_refuted), while `pipe` never repeats an item. The documentation says nothing about panics.
49. The BulkScrambler producer puts items into its buffer before it calls `consider_produced`; if that panics without having done anything, the items are drawn again (C113_once_refuted). The
    BulkScrambler consumer, when its buffer is full, drops the item it was asked to consume if draining panics or fails, besides the item that was being passed on (C113_one_lost_refuted).

## 6. Seeded faults

`seeded/LOG.jsonl` records faults injected into copies of the model outside `/verif`.
For each fault, everything that depends on the edited definition was rebuilt; proofs
that broke were admitted in the copy; a theorem counts as failed if it no longer
compiles or if `Print Assumptions` shows that it now rests on an admitted proof.
`failed` lists the theorems of the `Prop*` files, `failed_lemmas` the proofs that
broke first.

In the later rounds only what the theorems of the stated claim need was rebuilt, in
order, up to the first of these theorems that fails: `failed` then lists the theorems
that rest on the proofs that broke until then. One round took its faults from a list of
small textual changes (operators, constants, branches) at every place of the model;
there, `failed` has at most ten names and `and_more` counts the rest. A fault that no
theorem noticed has an empty `failed`; `tightened` names the theorems that were added
or made stronger because of it, and `note` says why a fault is none, for example because
the changed function is equal to the original.
