# Formal model of named-data/PSync in Rocq

This directory holds a functional model of the PSync library (source in `/repo`), written in
Rocq/Coq 8.16.1, and theorems about it.  `properties.jsonl` lists the properties, `MANIFEST.json`
maps each property to the theorems that settle it, `seeded/LOG.jsonl` records the mutation
experiments, and `rocq/theories/` holds the development.

## Layout

* Model files (definitions only, each with a citation of `/repo`): `Base`, `Murmur`, `Iblt`, `Tlv`,
  `State`, `NMap`, `Codec`, `Bloom`, `Store`, `Producer`, `Mon`, `Partial`, `Full`, `Consumer`,
  `Apps` (the example programs), `Life` (registration and destruction), `Destroy` (destruction from a callback), `Throwing` (callbacks that throw), `Options` (constructors), `Print` (output operators).
* Specification files (vocabulary of the statements, independent of the model's helpers where a
  helper would make a statement circular): `SpecIblt`, `SpecTlv`, `SpecBloom`, `SpecStore`,
  `SpecProducer`, `SpecPartial`, `SpecFull`, `SpecConsumer`, `SpecExchange`, `SpecGroup`,
  `SpecPair`, `SpecMurmur`, `SpecFresh`, `SpecDeliver`, `SpecWire`, `SpecNet`, `SpecSize`, `SpecFlood`, `SpecUnread`, `SpecThrow`, `SpecForget`, `SpecRecent`, `SpecSettle`, `SpecStored`, `SpecOrder`, `SpecBloomFull`, `SpecCircle`, `SpecAlike`, `SpecNames`, `SpecQuiet`, `SpecTimely`, `SpecOnce`, `SpecStory`, `SpecCauses`, `SpecTold`, `SpecWake`, `SpecDestroy`, `SpecAvail`, `SpecSnap`, `SpecCanon`.
* `Properties_*`: the theorems named in the manifest, each followed by `Print Assumptions` and by an
  example that meets the hypotheses.
* All other files are proofs.

## How the code is modelled

* Bytes are `Byte.byte`; unsigned machine words are `N` with explicit reduction; `int32_t` is `Z`
  with an explicit overflow outcome.  Names are lists of typed components; the TLV encoding of
  names, contents and numbers is modelled byte for byte.
* Every operation that can throw, execute undefined behaviour or loop returns an
  `outcome` (`Ok`, `Throw`, `UB`, `Hang`).  Loops without a syntactic bound take fuel and
  report `Hang` when it runs out; termination theorems say which fuel suffices, and
  non-termination theorems say that no fuel does.
* `std::map`/`std::set`/bimap are modelled as sorted lists / lists with the same observable order.
* Event handlers are state transformers over a record of the class members, in a
  state/effect/outcome monad (`Mon`), so that the state at the moment of an exception is visible.
  Effects are: Data put on the face, interest expressed, callback to the application.
* The event loop is a list of operations (API calls, interest arrivals, fetch completions and
  errors, timer expiries, time steps); `run` folds the step function, and reachable states are the
  states of such runs.  Application callbacks may call back into the API: the calls they make are
  part of the operation (a script).  A timer may run at any time at or after its deadline.
* Random jitter, the system clock, version timestamps, Data digests, compression libraries and the
  two libm functions `log`/`pow` and `rand` are parameters: theorems quantify over them, under the
  hypotheses stated in each theorem.
* Networks (C60-C65): every packet ever sent stays deliverable for ever, so loss, delay,
  duplication and reordering are all choices of the execution.  A fetch delivers any packets of the
  network whose names form the segments of one version under the interest name.

## Plan per property

| Property | Modelled | Proof |
|---|---|---|
| C01 | `IBLT` constructor, `ibltUpdate` | arithmetic; `UB` outcome for the modulo by zero |
| C02 | `insert`, `erase`, `ibltUpdate` | cellwise group action (Z x xor x xor); permutation/net-count lemma |
| C03, C04 | `appendToName`, `initialize` | 4-byte split/join lemmas, induction on cells |
| C05 | `operator-` | all cells zero, one pass |
| C06, C07 | `operator-` | table of a signed key list; case analysis on cells; injectivity of the check hash |
| C08, C09 | `operator-` | invariant: the peeled table is the table of the remaining signed keys; termination measure = number of remaining keys; completeness by peelability |
| C10, C11, C12 | `operator-` | invariant over the loop for arbitrary tables |
| C13, C14 | `operator-` | refuted: fixpoint of a pass with progress for all fuel; extreme count; positive results come from C05-C09; `SpecCircle`: a comparison that does not end is the iteration of a pass on a finite set of tables, so it comes back to a table (pigeonhole), and counts grow by at most the table size per pass |
| C15 | `murmurHash3` | every mixing step is a bijection on 32-bit words |
| C16, C17 | Bloom filter | bit-set algebra |
| C18, C19, C20 | constructor, `compute_optimal_parameters`, name codec | IEEE-754 binary64 via `Coq.Floats.SpecFloat`; finite sweep over the 1001 wire values; refutations by computation |
| C21-C24 | `State`, TLV, NNI | parser/printer round-trip by induction against a grammar; cache invariant |
| C25-C28 | `SegmentPublisher`, in-memory store, segmenter | list lemmas on FIFO store and chunks; >100 segments refuted |
| C29-C33 | `ProducerBase` | refinement to an abstract map; IBF invariant; collision refuted with a concrete colliding pair |
| C34-C41, C68 | `PartialProducer` | handler functional specifications plus invariants over runs; small sizes, waiting segments and forged interests refuted |
| C42-C46 | `FullProducer::onSyncInterest/onSyncData`, `Consumer::on*Data` | refutations by concrete inputs; positive parts as invariants |
| C47-C51 | `Consumer` | invariants over runs with re-entrant callbacks |
| C52-C59 | `FullProducer` | every handler is a chain of elementary changes (`FullTrace`); closed relations over chains; timers and pending interests by invariants over runs |
| C60, C61, C63 | two or more `FullProducer` instances | exchange lemma, lattice join, closure over pair schedules |
| C62 | any number of `FullProducer` instances and the network | induction over global executions; invariant on the names in every packet ever sent |
| C64, C65 | one `PartialProducer`, one `Consumer`, the network | history invariant linking the consumer's IBF to a past producer state; late subscription and removal refuted |
| C66 | `compress`, `decompress` dispatch | case analysis; library bodies are parameters |
| C67 | `State::wireDecode` that throws | invariant over interleavings; refuted when a decode throws |
| C71, C72 | `Consumer` over whole histories | invariant: a timer, a hello fetch, or a sync fetch whose outcome is still open; the IBF is set by the first completed hello |
| C73 to C75 | `Consumer`: outputs of each handler, timers | outputs classified per handler; a run with only a timer pending is silent until the timer is due; the IBF held changes only with a completed fetch |
| C76 | `Full`, `Store` | invariant: pending and waiting names were received as interests; every handler publishes only under such a name or a stored one; counterexample for Nacks (all states) |
| C77 | `Full`: sendSyncData, satisfyPendingInterests | induction over the pending interests up to the own one, whose answer clears the outstanding name, so the next interest is not suppressed |
| C78 | `Full`: onSyncData, timers | invariant of the pause (no fetch, timer set) kept by every event except a publication |
| C79, C80 | `Full`: pending interests | relation between the pending entries before and after each handler; counterexamples |
| C81 | `Partial`, `Store` | invariant: pending keys were received as interests, or are the base of one in loose form; counterexample for hello segments |
| C82 | `Partial` | step relation on pending entries; invariant: an entry's expiration names that entry or a longer name; induction over runs |
| C83 | `Bloom`: generate_unique_salt | exhaustive kernel computation for the 129 predefined cases, induction for the random ones |
| C84 | `Bloom`: compute_optimal_parameters | fold invariant with transitivity of < on doubles; arithmetic for the rounding |
| C85 | `SpecPair`: producer and consumer on a lossy network | the invariant of C64 extended: every fetch the consumer has running carries its filter and a past IBF of the producer; what is missing from a waiting interest is nothing (C38) |
| C86 | same | case analysis of the arrival of the interest with the decoded difference; the data of the reply carries the current IBF, so after the fetch nothing is missing |
| C87 | `Bloom`, `Consumer` (constructor), `Partial` (extraction) | case analysis of the parameter check; refuted by rate 0 |
| C88 | `Consumer`, `SpecConsumer`, `SpecPair` | case analysis of the event that calls the update callback; refuted by a filter false positive in a run of two honest parties and by an unsubscription under way |
| C89 | `Full`, `SpecFull`, `SpecExchange` | a crash is a new run from the initial state; composition with the exchange theorem of C60; refuted by a publication before the first exchange |
| C90 | `Partial`, `Consumer`, `SpecPair` | a crash is a new run from the initial state while the consumer's state stays; composition of C34 with the consumer's reply loop; refuted by a number both lives share |
| C91 | `Apps`: the two producer applications over an interface of the library | invariant of one stream, proved from five facts about the library that both producers satisfy; refuted by maximum 0, a negative maximum and a peer's announcement |
| C92 | `Apps`: `log_updates` | induction on the range; refuted for ranges that end at the largest number, with a consumer run that reports one |
| C93 | `Apps`: `after_hello` run inside `Consumer` | induction on the subscriptions; refuted by too few prefixes and by a second hello |
| C94 | `Store` inside `Partial` and `Full` | invariant: every stored segment has an erase timer no later than publication plus freshness, and was published in an earlier event |
| C95 | `Full`: `FeSegment`, `FeContent` | invariant from the segment on: the fetch is over or the recorded face is that segment's |
| C96 | all three classes | structural, over every handler but those of interests and content |
| C97 | all three classes | frame conditions of every handler; `offered` shown not to touch the map when names are known |
| C98 | `Full`: `on_finterest`, `process_waiting` | the handler by cases; for the timer, induction over the waiting names with the frame of each retry |
| C99 | `Partial`: `pp_step`; `Full`: `fp_step` | potential argument: packets sent plus interests remembered never exceeds interests received |
| C100 | `Life`: `pl_step`, `fl_step`, `cl_step` (destruction, registration, interest filters, fetchers) | invariants over runs with the destroyed object kept as an inert state; refutations by runs that call it |
| C101 | `Life`: `pl_step`, `fl_step` over `Partial`, `Full` | simulation with the model without registration, dropping the interests before the acceptance |
| C102 | `Full`: `fp_step`, all timers and fetch events | a budget for the deadline kept by every event that takes no time, ticks bounded by promptness; the deadline of a running fetch by an invariant |
| C103 | `Full`, `Store`, `SpecDeliver` | a log of all publications with the data of their moment (FullLog); every stored answer is younger than the longest freshness period; content of a moment tells the data of the moment |
| C104 | `Full`, two nodes on an ideal link (`joint`) | induction over the joint run; C102 gives an interest late enough, C103 what its answer tells, growth of data the rest |
| C105 | `Consumer`, `Partial`, `Full`, `Store`, `SpecWire` | invariants: every stored packet and every pending interest has a name of the protocol; every handler emits only such packets |
| C106 | `Full`, a path of nodes on ideal links (`SpecNet`) | histories are cut at a moment (a tick is split in two); C104 for the first link up to the cut, induction for the rest |
| C107 | `Full`, `Partial`, `Consumer`, `Tlv` | the invariants of C105 extended with the length of the IBF and of the filter table; lengths of TLV encodings |
| C108 | `Full` | amortised counting: the armed timer holds the time since it was set as credit, each waiting interest the price of one interest; every handler keeps the balance |
| C109 | `Partial`, `Full` | case analysis of the handlers, with C04 for the IBF |
| C110 | `Throwing` (handlers with the callback as a parameter) | the relations of `FullTrace` for the throwing event, the timer invariant of C57; counterexamples for consumers |
| C111 | `Partial`, `Full`, `Store` | C94 with the moment and the data each stored packet was made from; after the removal the number stays 0 by induction over the run |
| C112 | `Full`, `Partial` | a relation every handler preserves (where an entry of the two tables can come from, and when it expires), then an invariant over runs relating the try count of a waiting interest to its age |
| C113 | `Full`, `Iblt` | case analysis of the handler in any state; C13 and C14 give the bad IBFs |
| C114 | `Partial`, `Consumer` | C86's invariant: after the reply the consumer holds the current IBF, whose difference is empty; the endless run by induction on rounds |
| C115 | `Partial`, `Consumer`, both parties of `SpecPair` | the loop over the pending interests is followed to the waiting entry, whose filter contains every subscribed prefix by the invariant behind C85; arrival by the argument of C86 |
| C116 | `Full`, `Partial` | a relation over every full-sync handler: a kept IBF is one of the node's states (an empty difference is between equal tables); bounds on the cells make the operations on the node's data total; the loop over the pending interests of a producer by induction |
| C117 | `Full`, `Consumer` | every number said in front of the first bad name is held after the loop over the names, also if the loop stops with an exception; every number held was said, announced or 0; induction over the events; equal numbers give equal lists of live names and so equal IBFs |
| C118 | `Bloom`, `Murmur` | each round of the hash is injective in the last word, so by counting it is onto; a pad aligns the last word below any name; set bits are the images of the inserted names, so there are at most hashes times names |
| C119 | `Print` | numbers have no blanks and names no commas, so a printed form can be cut at the first separator; decimal and hexadecimal numerals are injective; the cells of an honest IBF by the sums behind C08 |
| C120 | `Partial`, `Full` | both runs are simulated side by side: the IBF, the map and the hash index depend only on the numbers (C32), and every handler reads nothing else that shows in the data |
| C121 | `Store`, `Partial`, `Full` | a list of all publications made so far, of which every packet in memory or sent is a segment, grows along every step; version and segment number in the name then give the entry and the index |
| C122 | `Options`, `Producer`, `Partial`, `Full`, `Consumer` | unfolding both constructions to the same configuration and the same run | 
| C123 | `Partial`, `Consumer`, `SpecQuiet` | invariant: every packet in memory stems from a moment within its freshness period and carries the IBF of that moment; with equal histories that is the present IBF; a request with the present IBF is never answered with a publication |
| C124 | `Partial`, `Consumer`, `SpecTimely` | what is sent stems from a moment within the freshness period (C123's invariant), so its IBF is that of a state at or after the moment in question; who holds an IBF knows the numbers it stands for (C82's invariant); only hello and sync data change numbers; induction over the execution |
| C125 | `Partial`, `Consumer`, `SpecOnce` | all data that a fetch of the consumer can complete with is decodable (DI invariant), so no handler throws and none of the numbers it stores is dropped from the report; each handler's report is a chain from the old to the new numbers; chains compose by induction over the execution |
| C126 | `Full`, `SpecGroup`, `SpecStory` | all that a fetcher can hand over was encoded by a node of the group from names that end in numbers (C62's invariant), so no handler for data throws; each handler's report is a chain from old to new numbers, and nothing is published before it within the handler; induction over the execution |
| C127 | `Consumer`, `SpecCauses` | potential argument: interests sent plus scheduled retries grow in each handler by at most the number of its causes; induction over the history |
| C128 | `Full`, `SpecNet`, `SpecStory`, `SpecTold` | C106 gives the knowledge at the end; the walk over the observations of the asking node (as in C126, here from any moment on) shows that the ranges are contiguous; a number within the bounds lies in exactly one of them |
| C129 | `Full` | walk over the waiting interests with a log of what is published; the fetched content is that of the logged publication; content covers; walk over the peer's observations |
| C130 | `Destroy` (the handlers of `Consumer` and `Full` cut at their callbacks; use of a destroyed object is a distinct outcome) | each cut handler is proved equal to the whole one; case analysis on what the reply brings; the fetch invariant for stop() |
| C131 | `Store`, `Partial`, `Full` | every handler is a sequence of publications, signatures, erase events and passage of time on the publisher (AvailFacts); the queue position of a packet and the uniqueness of its name are invariants of such sequences |
| C132 | `Store`, `Partial`, `Full` | the records of publications of C131, extended by what their content was computed from (reply_from, made_since), and induction over the fetch (SnapFacts) |
| C133 | `Tlv` (comparison), `Store` (lookup), `Partial`, `Full` | the comparison is the order of `SpecCanon` by induction on names; maps stay sorted over runs; outputs of the loop over waiting interests by induction on the keys |
| C69, C70 | `murmurHash3` on any buffer | equality with an arithmetic reference function; injectivity in each aligned word |

A property that the code violates is kept in its full form in `properties.jsonl`; its manifest
entry is `partial`, naming a `..._refuted` theorem (a concrete execution of the model that violates
it) and the strongest guarded statement proved (`..._partial`).

## Trusted base

* Coq 8.16.1's kernel (and `coqchk`), including its bytecode evaluator, which `vm_compute` proofs of
  examples and refutations use.
* `Print Assumptions` prints "Closed under the global context" for every theorem in the manifest:
  no axiom is used.  (Loading the standard library's ssreflect plugin files makes `coqchk` list
  `Coq.ssr.ssrunder.Under_rel.*`; these are standard-library module parameters that no theorem here
  depends on.)
* The correspondence between the model and the C++ text, documented by the citations on every
  definition.

### Modelled parts of /repo

`PSync/detail/`: `util.cpp` (hash; dispatch of `compress`/`decompress`), `iblt.cpp`,
`bloom-filter.cpp`, `state.cpp`; `PSync/`: `segment-publisher.cpp`, `producer-base.cpp`,
`partial-producer.cpp`, `full-producer.cpp`, `consumer.cpp`, and the inline members of their
headers; `examples/`: the classes of `producer.cpp`, `full-sync.cpp` and `consumer.cpp`.

### Not modelled

* Logging, the test-only counters and `access-specifiers.hpp`; how `ndn::Name` prints itself (a
  parameter of C119).
* Signing and validation.  Registration with the forwarder is modelled in `Life.v` only; the other
  files describe objects whose prefix is registered.
* Interest nonces and lifetimes on the wire (a lifetime matters only where the code reads it),
  packet size limits, hop limits.
* The destructor of the std::function of a callback that is running when the application destroys the
  object from it (the rest of such destruction: `Destroy.v`).
* Negative durations in the options (ndn-cxx refuses them when the first packet is built).
* `tests/`; of `examples/`: the parsing of the command line and of names.

### Assumptions on dependencies (ndn-cxx, Boost, libc are not in /repo)

* TLV, `Name`, `Component`: as in the NDN packet specification; the decoder checks of `Tlv.v`.
  Two names with the same components are the same name, with the same wire encoding: type and length
  numbers of received components are minimal, as that specification demands, or are rewritten so.
  Content types other than Nack are identified with Blob.
* `InMemoryStorageFifo`: FIFO eviction at the limit; `find` by prefix returns the leftmost match;
  entries inserted with a freshness stay until evicted or erased (`find` with `MustBeFresh` is not
  used by the code).
* `Segmenter`: consecutive chunks of at most 4400 bytes, FinalBlockId on every segment.
* `SegmentFetcher`: `afterSegmentValidated` before `onComplete`; completes once with the
  concatenation; silent after `stop()`, after completion and after an error.
* `Face`: a filter set together with a registration is set when the forwarder accepts, and removed
  with the scoped handle; a filter set on its own stays until its handle is cancelled; whether the
  answer to a cancelled registration is still processed is a parameter (`fa_late`).
* `SegmentFetcher` objects keep themselves alive until they end or are stopped.
* `Scheduler`: a cancelled event does not run; deadlines in whole milliseconds.
* Compression filters: any functions; theorems that need it assume decompression inverts
  compression.  `double` is IEEE binary64 with round-to-nearest; `log`, `pow`, `rand` are arbitrary.
* Platform: little-endian, 32-bit `int`, 64-bit `size_t`, no NDEBUG (a failed assertion is reported
  as the outcome `UB UbAssert`).
* C62, C64, C65: version timestamps of one node do not repeat, or every content fits one packet.
