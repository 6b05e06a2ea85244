{"id": "C01", "title": "IBF table size law", "statement": "An IBF built for n expected entries has a cell count that is a multiple of 3, at least 1.5*n (rounded down) and less than 1.5*n+3; it is empty exactly when n = 0, and inserting into an IBF built for n = 0 is undefined behaviour (division by zero).", "quantifier": "every expected-entry count n", "why_tests_cant": "tests build IBFs of two or three sizes only", "anchors": ["PSync/detail/iblt.cpp:IBLT::IBLT", "PSync/detail/iblt.cpp:ibltUpdate"]}
{"id": "C02", "title": "Insert and erase are exact inverses and commute", "statement": "Inserting a key and erasing it (in either order, with any other operations in between) leaves the IBF byte-for-byte as if neither had happened, and any two operation sequences with the same net count per key give equal IBFs.", "quantifier": "every table, every key, every interleaving of insert and erase calls", "why_tests_cant": "the order and interleaving space is unbounded", "anchors": ["PSync/detail/iblt.cpp:IBLT::insert", "PSync/detail/iblt.cpp:IBLT::erase", "PSync/detail/iblt.cpp:ibltUpdate"]}
{"id": "C03", "title": "IBF wire round-trip", "statement": "Appending an IBF to a name and initialising an IBF of the same configured size from that name component reproduces an equal IBF; two IBFs of the same size yield the same component only if they are equal.", "quantifier": "every table of every size, every cell value representable in 32 bits, every lossless compression scheme", "why_tests_cant": "cell contents range over 2^96 values per cell and every table size", "anchors": ["PSync/detail/iblt.cpp:IBLT::appendToName", "PSync/detail/iblt.cpp:IBLT::initialize"]}
{"id": "C04", "title": "IBF initialisation rejects exactly the wrong sizes", "statement": "Initialising from a component throws if and only if decompression fails or the decompressed length is not 12 bytes per cell; when it throws the receiving IBF is unchanged, and otherwise every cell is overwritten from the wire so nothing of the old table survives.", "quantifier": "every byte string and every table size", "why_tests_cant": "all byte strings of all lengths must be covered", "anchors": ["PSync/detail/iblt.cpp:IBLT::initialize"]}
{"id": "C05", "title": "Equal IBFs have an empty difference", "statement": "Subtracting an IBF from an equal one always terminates, reports successful decoding and returns two empty sets, whatever the table contains.", "quantifier": "every table, including tables no insert sequence produces", "why_tests_cant": "tests compare two small tables", "anchors": ["PSync/detail/iblt.cpp:operator-"]}
{"id": "C06", "title": "A difference of one key always decodes exactly", "statement": "If two peers' IBFs hold the same keys except that exactly one key is missing on one side, the difference decodes, terminates, and returns exactly that key on the right side, however many keys are shared.", "quantifier": "every key, every shared key collection of fewer than 2^31-1 keys, every table size", "why_tests_cant": "ranges over all 2^32 keys and all shared sets", "anchors": ["PSync/detail/iblt.cpp:operator-"]}
{"id": "C07", "title": "A difference of two keys decodes unless all three cells coincide", "statement": "If the peers' key sets differ in exactly two distinct keys the difference is decoded exactly when the two keys do not occupy the same three cells, and the returned sets are then exactly right; when they do coincide the result reports failure.", "quantifier": "every pair of distinct 32-bit keys on either side, every shared set, every table size", "why_tests_cant": "all pairs of 2^32 keys", "anchors": ["PSync/detail/iblt.cpp:operator-"]}
{"id": "C08", "title": "Difference soundness and termination for honest IBFs", "statement": "When both IBFs were built by inserting duplicate-free key sets and no 32-bit check-hash coincidence occurs among the differing keys, subtraction terminates, never overflows, and every reported positive key is held only by the left side and every negative key only by the right side, even when decoding fails.", "quantifier": "every pair of duplicate-free key sets whose difference is free of accidental check-hash matches, every table size", "why_tests_cant": "unbounded sets; soundness must hold on the failing path too", "anchors": ["PSync/detail/iblt.cpp:operator-", "PSync/detail/iblt.cpp:HashTableEntry::isPure"]}
{"id": "C09", "title": "Difference completeness", "statement": "Under the same conditions the difference reports success exactly when the differing keys can be ordered so that each occupies some cell used by no later key, and on success the two sets are exactly the two set differences.", "quantifier": "every pair of duplicate-free key sets free of accidental matches, every table size", "why_tests_cant": "success depends on the whole hypergraph of cells", "anchors": ["PSync/detail/iblt.cpp:operator-"]}
{"id": "C10", "title": "Successful decoding is algebraically faithful for any input", "statement": "Whenever subtraction reports success, for any two tables at all, the sequence of keys it peeled transforms the received table into the local one, cell for cell.", "quantifier": "every pair of equally sized tables, including malicious ones", "why_tests_cant": "arbitrary cell contents", "anchors": ["PSync/detail/iblt.cpp:operator-"]}
{"id": "C11", "title": "Difference is antisymmetric", "statement": "Swapping the two IBFs swaps the positive and negative sets and leaves the success flag unchanged.", "quantifier": "every pair of equally sized tables within the overflow-free range", "why_tests_cant": "arbitrary cell contents", "anchors": ["PSync/detail/iblt.cpp:operator-"]}
{"id": "C12", "title": "Difference depends only on the symmetric difference", "statement": "Keys held by both sides never influence the result: adding the same keys to both IBFs leaves the outcome of the subtraction unchanged, so an IBF holding far more keys than its expected size still synchronises small differences.", "quantifier": "every pair of tables, every list of common keys (within the 32-bit count range)", "why_tests_cant": "unbounded number of shared keys", "anchors": ["PSync/detail/iblt.cpp:operator-", "PSync/detail/iblt.cpp:IBLT::insert"]}
{"id": "C13", "title": "Processing a received IBF terminates", "statement": "Subtracting a received IBF of the right size from the local one terminates whatever bytes the network delivered.", "quantifier": "every local table and every received component of the accepted size", "why_tests_cant": "the inputs that hang are adversarial and not in any test", "anchors": ["PSync/detail/iblt.cpp:operator-", "PSync/partial-producer.cpp:onSyncInterest", "PSync/full-producer.cpp:onSyncInterest"]}
{"id": "C14", "title": "Processing a received IBF never overflows", "statement": "Subtracting a received IBF never executes a signed 32-bit overflow (undefined behaviour in C++).", "quantifier": "every local table and every received component of the accepted size", "why_tests_cant": "needs extreme counts from an adversary", "anchors": ["PSync/detail/iblt.cpp:operator-", "PSync/detail/iblt.cpp:ibltUpdate"]}
{"id": "C15", "title": "The check hash separates keys", "statement": "For every seed the 32-bit hash of a 32-bit key is injective, so two different keys never share a check value; every hash value fits in 32 bits.", "quantifier": "all 2^32 keys and all 2^32 seeds; all byte strings for the range part", "why_tests_cant": "2^64 pairs", "anchors": ["PSync/detail/util.cpp:murmurHash3", "PSync/detail/util.hpp:murmurHash3"]}
{"id": "C16", "title": "Bloom filter has no false negatives", "statement": "After any sequence of insertions containing a name, the filter reports the name as contained, and no access is out of bounds.", "quantifier": "every constructed filter with a non-degenerate table, every sequence of names", "why_tests_cant": "unbounded names and sequences", "anchors": ["PSync/detail/bloom-filter.cpp:BloomFilter::insert", "PSync/detail/bloom-filter.cpp:BloomFilter::contains"]}
{"id": "C17", "title": "Bloom filter contents are order independent", "statement": "The filter bits depend only on the set of inserted names: insertion is commutative and idempotent, never clears a bit, and clear() gives exactly the empty filter.", "quantifier": "every filter, every pair of insertion sequences with the same set of names", "why_tests_cant": "unbounded sequences", "anchors": ["PSync/detail/bloom-filter.cpp:BloomFilter::insert", "PSync/detail/bloom-filter.cpp:BloomFilter::clear"]}
{"id": "C18", "title": "Bloom filter survives the wire", "statement": "A producer that rebuilds the filter from the three name components gets the same bits, the same hash functions and hence the same answer for every name, for every false-positive rate that is a whole number of thousandths from 0.001 to 1; component parsing returns the projected count exactly.", "quantifier": "every projected count, every rate k/1000, every filter contents, every queried name", "why_tests_cant": "all counts, rates, and tables", "anchors": ["PSync/detail/bloom-filter.cpp:BloomFilter::appendToName", "PSync/detail/bloom-filter.cpp:BloomFilter::BloomFilter", "PSync/partial-producer.cpp:onSyncInterest"]}
{"id": "C19", "title": "Any configured false-positive rate reaches the producer", "statement": "The false-positive rate the consumer was configured with is the one the producer reconstructs.", "quantifier": "every double in (0,1)", "why_tests_cant": "depends on floating-point truncation for arbitrary doubles", "anchors": ["PSync/detail/bloom-filter.cpp:BloomFilter::appendToName", "PSync/partial-producer.cpp:onSyncInterest"]}
{"id": "C20", "title": "Bloom filter construction is memory safe for any wire parameters", "statement": "A filter built from any count, rate and table that construction accepts never reads or writes outside its bit table, and its table has exactly table_size/8 bytes.", "quantifier": "every projected count, every rate, every component", "why_tests_cant": "adversarial parameters (rate 1.0) are not tested", "anchors": ["PSync/detail/bloom-filter.cpp:compute_optimal_parameters", "PSync/detail/bloom-filter.cpp:BloomFilter::contains", "PSync/partial-producer.cpp:onSyncInterest"]}
{"id": "C21", "title": "Sync content round-trip", "statement": "Encoding any list of names as sync content and decoding the bytes yields the same names in the same order.", "quantifier": "every list of names, every component type and value, every length up to 2^64", "why_tests_cant": "unbounded names and lengths across all TLV length forms", "anchors": ["PSync/detail/state.cpp:State::wireEncode", "PSync/detail/state.cpp:State::wireDecode"]}
{"id": "C22", "title": "Sync content encoding is never stale", "statement": "After any interleaving of adding names and encoding, the encoding returned reflects exactly the names added so far.", "quantifier": "every interleaving of addContent and wireEncode and every length of history", "why_tests_cant": "caching bug would need the right interleaving", "anchors": ["PSync/detail/state.cpp:State::addContent", "PSync/detail/state.cpp:State::wireEncode"]}
{"id": "C23", "title": "Sync content decoding rejects foreign data", "statement": "Decoding succeeds only when the outer type is 128 and every inner element is a Name, returns precisely those elements in order, and otherwise throws.", "quantifier": "every byte string", "why_tests_cant": "all byte strings", "anchors": ["PSync/detail/state.cpp:State::wireDecode"]}
{"id": "C24", "title": "Sequence-number components are unambiguous", "statement": "Appending a sequence number to a prefix and splitting the name back returns the same prefix and number, and different (prefix, number) pairs give different names.", "quantifier": "every prefix and every 64-bit number", "why_tests_cant": "2^64 numbers and all names", "anchors": ["PSync/producer-base.cpp:updateSeqNo", "PSync/full-producer.cpp:onSyncData", "PSync/consumer.cpp:onSyncData"]}
{"id": "C25", "title": "Published content can be fetched back exactly", "statement": "Right after publish(), requesting each segment name returns that segment, the segments carry consecutive numbers from 0 with the last one announced as final, and their concatenation is the published buffer, provided the content needs no more segments than the store holds and no older stored packet shadows the name.", "quantifier": "every buffer, data name, version and store content", "why_tests_cant": "all content lengths", "anchors": ["PSync/segment-publisher.cpp:publish", "PSync/segment-publisher.cpp:replyFromStore"]}
{"id": "C26", "title": "Published content of any size can be fetched back", "statement": "Right after publish(), every segment of the published content can be fetched from the store, whatever the content size.", "quantifier": "every buffer length", "why_tests_cant": "needs more than 100 segments", "anchors": ["PSync/segment-publisher.cpp:publish", "PSync/segment-publisher.hpp:SegmentPublisher"]}
{"id": "C27", "title": "The segment store is bounded and cleans itself", "statement": "The store never holds more than its limit, and once the freshness period of every publication has passed and the scheduler ran, no segment of it remains and interests are no longer answered from memory.", "quantifier": "every history of publish, lookup and time steps", "why_tests_cant": "unbounded histories", "anchors": ["PSync/segment-publisher.cpp:publish", "PSync/segment-publisher.cpp:SegmentPublisher"]}
{"id": "C28", "title": "publish sends at most the one requested segment", "statement": "publish() puts at most one Data on the face: the segment named by the interest if it is in range, the first segment if the interest names none, and nothing otherwise. Looking up puts at most one stored Data that matches; the passage of time and the erase timers put nothing; none of them throws.", "quantifier": "every interest name, data name and buffer", "why_tests_cant": "all names and sizes", "anchors": ["PSync/segment-publisher.cpp:publish"]}
{"id": "C29", "title": "A producer's sequence numbers behave like a monotone map", "statement": "For any history of addUserNode, removeUserNode and updates, getSeqNo returns exactly what the simple model gives: absent before being added or after removal, 0 when added, and otherwise the maximum of the sequence numbers supplied since it was added; updates to unknown prefixes are ignored and addUserNode returns true only when the prefix was absent.", "quantifier": "every history of API calls on every set of prefixes", "why_tests_cant": "unbounded histories", "anchors": ["PSync/producer-base.cpp:addUserNode", "PSync/producer-base.cpp:removeUserNode", "PSync/producer-base.cpp:updateSeqNo", "PSync/partial-producer.cpp:publishName"]}
{"id": "C30", "title": "The IBF always equals the set of current names", "statement": "After any history of producer calls in which no two live names share a 32-bit hash, the producer's IBF is exactly the IBF of the hashes of all current prefix/sequence names with non-zero sequence number, and the hash lookup returns exactly those names.", "quantifier": "every collision-free history", "why_tests_cant": "unbounded histories", "anchors": ["PSync/producer-base.cpp:updateSeqNo", "PSync/producer-base.cpp:removeUserNode"]}
{"id": "C31", "title": "The IBF stays exact under hash collisions", "statement": "After any history of producer calls the IBF equals the IBF of the current names, even if two names hash alike.", "quantifier": "every history", "why_tests_cant": "needs a 32-bit collision", "anchors": ["PSync/producer-base.cpp:updateSeqNo", "PSync/producer-base.cpp:removeUserNode"]}
{"id": "C32", "title": "Replicas with equal sequence numbers send equal IBFs", "statement": "Two producers that hold the same sequence number for every prefix have identical IBFs and lookup answers whatever different histories led there (collision-free).", "quantifier": "every pair of histories with the same final sequence numbers", "why_tests_cant": "pairs of unbounded histories", "anchors": ["PSync/producer-base.cpp:updateSeqNo", "PSync/producer-base.cpp:removeUserNode"]}
{"id": "C33", "title": "Cumulative update count", "statement": "The count a full-sync node advertises equals, modulo 2^64, the sum over all accepted updates of the advance they made; without removals it is the sum of the current sequence numbers, so a node that knows at least as much never advertises less (absent wrap-around).", "quantifier": "every history", "why_tests_cant": "unbounded histories", "anchors": ["PSync/producer-base.cpp:updateSeqNo", "PSync/full-producer.cpp:sendSyncInterest"]}
{"id": "C34", "title": "Partial sync replies contain exactly the missing subscribed names", "statement": "When a producer answers a decodable sync interest at once, the content is exactly the names of its current updates that the decoded difference reports as missing at the consumer and that match the consumer's subscription filter, and the reply name ends with the producer's current IBF.", "quantifier": "every producer state and every well-formed interest", "why_tests_cant": "all states and IBFs", "anchors": ["PSync/partial-producer.cpp:onSyncInterest"]}
{"id": "C35", "title": "Partial sync: up-to-date consumers wait", "statement": "A sync interest from a consumer that misses nothing it subscribed to, with a total difference below the threshold (half the expected entries), produces no data and is remembered; in particular an interest carrying the producer's current IBF is never answered at once.", "quantifier": "every producer state and interest, every configured size", "why_tests_cant": "all states; small configured sizes are not tested", "anchors": ["PSync/partial-producer.cpp:onSyncInterest", "PSync/producer-base.cpp:ProducerBase"]}
{"id": "C36", "title": "Undecodable differences produce exactly one application Nack", "statement": "A partial producer sends an application Nack if and only if the request is well formed and the difference cannot be decoded; the Nack's name extends the request by the current IBF and segment 0 and nothing else is sent or remembered.", "quantifier": "every producer state and interest", "why_tests_cant": "all states", "anchors": ["PSync/partial-producer.cpp:onSyncInterest", "PSync/producer-base.cpp:sendApplicationNack"]}
{"id": "C37", "title": "publishName answers every pending subscriber once", "statement": "publishName on a known prefix answers each pending interest whose filter matches the prefix with a reply that names the prefix's latest sequence number and carries the latest IBF, removes those entries (and the undecodable ones), and leaves the other entries untouched unless their difference reached the threshold, in which case they get an empty reply with the latest IBF.", "quantifier": "every producer state, every set of pending interests", "why_tests_cant": "unbounded pending sets", "anchors": ["PSync/partial-producer.cpp:publishName", "PSync/partial-producer.cpp:satisfyPendingSyncInterests"]}
{"id": "C38", "title": "No update is skipped for a pending subscriber", "statement": "In every reachable producer state, no pending interest is missing an update its filter matches: the reply that finally moves a consumer to the latest IBF mentions every matching name that changed since the consumer's IBF.", "quantifier": "every reachable state (exact differences)", "why_tests_cant": "needs an invariant over all histories", "anchors": ["PSync/partial-producer.cpp:onSyncInterest", "PSync/partial-producer.cpp:satisfyPendingSyncInterests"]}
{"id": "C39", "title": "Pending sync interests expire", "statement": "An unanswered pending interest is forgotten when its lifetime has passed.", "quantifier": "every interest and every schedule", "why_tests_cant": "the failing case needs a six-component interest that is stored", "anchors": ["PSync/partial-producer.cpp:onSyncInterest", "PSync/full-producer.cpp:onSyncInterest"]}
{"id": "C40", "title": "Hello data lists everything", "statement": "A hello interest not answered from memory is answered with the complete list of user nodes with their current sequence numbers, once each in name order, named with the current IBF.", "quantifier": "every producer state", "why_tests_cant": "all states", "anchors": ["PSync/partial-producer.cpp:onHelloInterest"]}
{"id": "C41", "title": "A partial producer survives any interest", "statement": "No interest makes a partial producer throw an exception into the event loop.", "quantifier": "every interest name under the registered prefixes, every state, every configured size", "why_tests_cant": "all byte strings in all components", "anchors": ["PSync/partial-producer.cpp:onSyncInterest", "PSync/partial-producer.cpp:onHelloInterest"]}
{"id": "C42", "title": "A full-sync node survives any interest", "statement": "No interest makes a full-sync node throw an exception into the event loop.", "quantifier": "every interest name under the sync prefix, every state", "why_tests_cant": "all byte strings; the failing input is not tested", "anchors": ["PSync/full-producer.cpp:onSyncInterest"]}
{"id": "C43", "title": "A node survives any sync data", "statement": "No received sync data makes a consumer or full-sync node throw or invoke undefined behaviour.", "quantifier": "every byte string received as content", "why_tests_cant": "all byte strings; tests use two", "anchors": ["PSync/full-producer.cpp:onSyncData", "PSync/consumer.cpp:onSyncData", "PSync/consumer.cpp:onHelloData"]}
{"id": "C44", "title": "Every accepted update is reported to the application", "statement": "Whenever processing sync data advances a known sequence number, the advance is reported by the update callback in the same call.", "quantifier": "every received content and every state", "why_tests_cant": "the failing case needs a malformed later element", "anchors": ["PSync/full-producer.cpp:onSyncData", "PSync/consumer.cpp:onSyncData"]}
{"id": "C45", "title": "Reported ranges are contiguous and duplicate free", "statement": "For each prefix, the ranges reported by successive callbacks start right after the sequence number known before and end at the one known after, so each sequence number is announced at most once and none is skipped, for every history of received data while the prefix stays known.", "quantifier": "every history of received data and API calls", "why_tests_cant": "unbounded histories", "anchors": ["PSync/full-producer.cpp:onSyncData", "PSync/consumer.cpp:onSyncData", "PSync/consumer.cpp:onHelloData"]}
{"id": "C46", "title": "Reported ranges are non-empty", "statement": "Every range reported to the application satisfies lowSeq <= highSeq.", "quantifier": "every history, honest peers included", "why_tests_cant": "needs publishName(prefix, 0) on a peer", "anchors": ["PSync/full-producer.cpp:onSyncData", "PSync/full-producer.cpp:publishName", "PSync/consumer.cpp:onSyncData"]}
{"id": "C47", "title": "Consumer subscription semantics", "statement": "addSubscription returns true exactly when the prefix was not subscribed and makes it subscribed; removeSubscription returns true exactly when it was subscribed and makes it unsubscribed; other prefixes are unaffected.", "quantifier": "every history of API calls and received data", "why_tests_cant": "needs a Bloom-filter false positive before the call", "anchors": ["PSync/consumer.cpp:addSubscription", "PSync/consumer.cpp:removeSubscription"]}
{"id": "C48", "title": "The subscription filter covers and equals the subscription list", "statement": "In every reachable consumer state the Bloom filter sent in sync interests is exactly the filter of the currently subscribed names, so a producer never misses a subscribed name and removed names leave no trace.", "quantifier": "every history of API calls and received data", "why_tests_cant": "unbounded histories", "anchors": ["PSync/consumer.cpp:addSubscription", "PSync/consumer.cpp:removeSubscription", "PSync/consumer.cpp:sendSyncInterest"]}
{"id": "C49", "title": "Consumer sequence numbers never go backwards", "statement": "While a prefix stays subscribed its sequence number never decreases, and it only takes values received from the producer or passed to addSubscription.", "quantifier": "every history", "why_tests_cant": "unbounded histories", "anchors": ["PSync/consumer.cpp:onSyncData", "PSync/consumer.cpp:onHelloData"]}
{"id": "C50", "title": "Nack leads to hello", "statement": "When the reply to a sync interest is an application Nack the consumer changes no sequence number, notifies nothing, sends a hello interest, and treats later replies as data again.", "quantifier": "every consumer state", "why_tests_cant": "all states and orders of events", "anchors": ["PSync/consumer.cpp:sendSyncInterest"]}
{"id": "C51", "title": "Consumer keeps at most one exchange of each kind and stop() silences it", "statement": "A consumer never has more than one active hello fetch and one active sync fetch, replies to superseded interests are ignored, and after stop() no timer or fetch remains so nothing is sent until the application asks again.", "quantifier": "every history of API calls, replies, errors and timers", "why_tests_cant": "all schedules", "anchors": ["PSync/consumer.cpp:sendHelloInterest", "PSync/consumer.cpp:sendSyncInterest", "PSync/consumer.cpp:stop"]}
{"id": "C52", "title": "Full sync replies contain exactly what the peer lacks", "statement": "When a full-sync node answers a decodable interest directly, the content is exactly its current names reported missing at the peer except those for which the peer already shows the next sequence number, and an answer is sent exactly when this list is non-empty.", "quantifier": "every state and interest", "why_tests_cant": "all states", "anchors": ["PSync/full-producer.cpp:onSyncInterest", "PSync/full-producer.cpp:isFutureHash"]}
{"id": "C53", "title": "Undecodable full-sync differences send the entire state", "statement": "If the difference cannot be decoded and the node has accepted at least as many updates as the peer advertises, it answers with every name with non-zero sequence number (unless both counts are equal and the peer alone is seen to be ahead, or it has nothing to send); if the peer advertises more, it sends no data.", "quantifier": "every state and interest", "why_tests_cant": "needs decode failure for arbitrary states", "anchors": ["PSync/full-producer.cpp:onSyncInterest"]}
{"id": "C54", "title": "Full-sync publish answers every pending interest", "statement": "publishName on a known prefix answers all pending interests with content that includes the published name, and leaves no pending interest.", "quantifier": "every state and pending set", "why_tests_cant": "unbounded pending sets", "anchors": ["PSync/full-producer.cpp:publishName", "PSync/full-producer.cpp:satisfyPendingInterests"]}
{"id": "C55", "title": "A waiting interest is retried at most twice", "statement": "An interest put on the waiting list because this node is behind is reprocessed at most twice and then dropped.", "quantifier": "every history", "why_tests_cant": "failing paths return early without marking the entry", "anchors": ["PSync/full-producer.cpp:processWaitingInterests", "PSync/full-producer.cpp:onSyncInterest"]}
{"id": "C56", "title": "The waiting list is always served", "statement": "Whenever an interest is waiting a timer to process it is armed, every entry is dropped after at most 65535 attempts, and processing never touches other entries.", "quantifier": "every history", "why_tests_cant": "unbounded histories", "anchors": ["PSync/full-producer.cpp:processWaitingInterests", "PSync/full-producer.cpp:scheduleProcessWaitingInterests"]}
{"id": "C57", "title": "A full-sync node never goes silent", "statement": "In every reachable state a timer for the next sync interest is armed, provided the system clock does not run backwards.", "quantifier": "every history and schedule with a non-decreasing clock", "why_tests_cant": "all schedules", "anchors": ["PSync/full-producer.cpp:sendSyncInterest", "PSync/full-producer.cpp:onSyncData"]}
{"id": "C58", "title": "A full-sync node never goes silent even if the clock steps back", "statement": "In every reachable state a timer for the next sync interest is armed, whatever the system clock does.", "quantifier": "every history and every clock", "why_tests_cant": "needs a clock step between two interests", "anchors": ["PSync/full-producer.cpp:sendSyncInterest"]}
{"id": "C59", "title": "At most one own sync interest is outstanding, and it carries the current IBF", "statement": "Every sync interest sent names the node's IBF and count at that moment; a new one always cancels the previous fetch; two consecutive interests with the same name are sent less than the minimum jitter apart only if the node itself answered that name in between.", "quantifier": "every history", "why_tests_cant": "all schedules", "anchors": ["PSync/full-producer.cpp:sendSyncInterest", "PSync/full-producer.cpp:sendSyncData"]}
{"id": "C60", "title": "One exchange merges the peer's knowledge", "statement": "If a full-sync node answers a peer's interest with data (freshly computed), then after the peer has processed it the peer knows, for every prefix, at least the sequence number the answering node had (decodable and exact, or undecodable full-state answer), and the peer loses nothing.", "quantifier": "every pair of reachable states", "why_tests_cant": "all pairs of states", "anchors": ["PSync/full-producer.cpp:onSyncInterest", "PSync/full-producer.cpp:onSyncData"]}
{"id": "C61", "title": "Full sync converges", "statement": "For any two full-sync nodes without removals, a fixed finite number of loss-free interest/data exchanges makes both know the pointwise maximum of their sequence numbers, whether or not IBF decoding succeeds; for a group, exchanging along all pairs makes all nodes agree.", "quantifier": "every pair (group) of reachable states", "why_tests_cant": "all states", "anchors": ["PSync/full-producer.cpp:onSyncInterest", "PSync/full-producer.cpp:onSyncData"]}
{"id": "C62", "title": "Full sync invents nothing", "statement": "In any group of full-sync nodes on a network that loses, duplicates, reorders and delays packets arbitrarily, no node ever holds a sequence number for a prefix higher than the highest one some application published for it, and sequence numbers never decrease except by removal.", "quantifier": "every execution of any number of nodes", "why_tests_cant": "all executions", "anchors": ["PSync/full-producer.cpp:onSyncInterest", "PSync/full-producer.cpp:onSyncData", "PSync/full-producer.cpp:satisfyPendingInterests"]}
{"id": "C63", "title": "Quiescence", "statement": "When two nodes hold the same sequence numbers, an interest from one is remembered silently by the other: no data, no callback, no change of sequence numbers.", "quantifier": "every pair of states with equal sequence numbers", "why_tests_cant": "all states", "anchors": ["PSync/full-producer.cpp:onSyncInterest"]}
{"id": "C64", "title": "Partial sync delivers every subscribed update", "statement": "With a consumer that subscribes inside the hello callback, over a network that loses, duplicates and delays packets, whenever the consumer holds the producer's current IBF it also holds the producer's current sequence number for every subscribed prefix, and it never holds a higher one.", "quantifier": "every execution (exact differences, no filter or hash collision assumptions beyond those stated)", "why_tests_cant": "all executions", "anchors": ["PSync/consumer.cpp:onSyncData", "PSync/consumer.cpp:onHelloData", "PSync/partial-producer.cpp:onSyncInterest", "PSync/partial-producer.cpp:satisfyPendingSyncInterests"]}
{"id": "C65", "title": "Late subscription loses nothing", "statement": "A prefix subscribed at any time with the sequence number from the last hello data is up to date whenever the consumer holds the producer's current IBF.", "quantifier": "every execution", "why_tests_cant": "needs a specific interleaving of sync data and addSubscription", "anchors": ["PSync/consumer.cpp:addSubscription", "PSync/consumer.cpp:onSyncData"]}
{"id": "C66", "title": "Compression scheme support", "statement": "Without a compression scheme content is passed through unchanged in both directions; a scheme that was not compiled in raises CompressionError for every input in both directions and never returns data.", "quantifier": "every scheme, build configuration and buffer", "why_tests_cant": "build configurations are tested one at a time", "anchors": ["PSync/detail/util.cpp:compress", "PSync/detail/util.cpp:decompress"]}
{"id": "C67", "title": "Sync content stays consistent across decoding", "statement": "After any interleaving of adding names, encoding and decoding, including decoding attempts that throw, the encoding returned decodes to exactly the names the object reports as its content.", "quantifier": "every interleaving of addContent, wireEncode and wireDecode, and every block", "why_tests_cant": "needs a decode that throws half way", "anchors": ["PSync/detail/state.cpp:State::wireDecode", "PSync/detail/state.cpp:State::wireEncode"]}
{"id": "C68", "title": "A partial producer always finishes handling an interest", "statement": "Handling an interest under the registered prefixes ends, without undefined behaviour, whatever bytes its name carries.", "quantifier": "every interest name, every state, every configured size", "why_tests_cant": "the failing names need a forged IBF or filter parameters", "anchors": ["PSync/partial-producer.cpp:onSyncInterest", "PSync/detail/iblt.cpp:operator-", "PSync/detail/bloom-filter.cpp:BloomFilter"]}
{"id": "C69", "title": "Name hashes are MurmurHash3", "statement": "The 32-bit hash of every name is MurmurHash3_x86_32 with seed 11 of the name's TLV value, and the IBF's bucket and check hashes are the same function of the key's four bytes, so nodes built from independent implementations of the published function agree.", "quantifier": "every name, key, seed and buffer", "why_tests_cant": "tests compare a few vectors; tails of each length and unusual bytes are not covered", "anchors": ["PSync/detail/util.cpp:murmurHash3", "PSync/detail/util.hpp:murmurHash3"]}
{"id": "C70", "title": "Neighbouring sequence numbers never collide", "statement": "Two sequence numbers of the same prefix that differ only in their last eight bits never have the same hash; more generally two names of one encoded length that differ only within one aligned group of four bytes never collide.", "quantifier": "every prefix and every pair of numbers in the same block of 256", "why_tests_cant": "2^32 hash values, unbounded names", "anchors": ["PSync/detail/util.cpp:murmurHash3", "PSync/producer-base.cpp:updateSeqNo"]}
{"id": "C71", "title": "A consumer never stops asking by itself", "statement": "After sendHelloInterest or sendSyncInterest, as long as the application does not call stop and its hello callback asks again, the consumer always has an interest outstanding or a retry scheduled, whatever replies, Nacks, errors and timeouts it gets.", "quantifier": "every history of calls, replies, errors and timers", "why_tests_cant": "a consumer that falls silent shows only after a particular sequence of failures", "anchors": ["PSync/consumer.cpp:sendHelloInterest", "PSync/consumer.cpp:sendSyncInterest", "PSync/consumer.cpp:onSyncData"]}
{"id": "C72", "title": "sendSyncInterest works once hello data arrived", "statement": "Once a hello reply has arrived, whatever it contained, sendSyncInterest can always be called and sends one interest that carries the subscription filter and an IBF; called before any hello reply it aborts the program.", "quantifier": "every history before the call", "why_tests_cant": "all histories", "anchors": ["PSync/consumer.cpp:sendSyncInterest", "PSync/consumer.cpp:onHelloData"]}
{"id": "C73", "title": "The hello callback gets the producer's list", "statement": "Each hello reply that decodes calls the hello callback exactly once, before anything else the reply causes, with exactly the prefixes the reply lists and for each the first number it has there; nothing else calls it.", "quantifier": "every reply content, state and history", "why_tests_cant": "all contents", "anchors": ["PSync/consumer.cpp:onHelloData"]}
{"id": "C74", "title": "Failed interests are retried after a random delay", "statement": "When a hello fetch fails, or a sync fetch fails otherwise than by timeout, the interest is sent again between 100 and 500 ms later and not before; a sync interest that timed out is sent again at once.", "quantifier": "every history before the failure, every schedule of events in the waiting time, every random draw", "why_tests_cant": "depends on random delays and on what else happens in the meantime", "anchors": ["PSync/consumer.cpp:sendHelloInterest", "PSync/consumer.cpp:sendSyncInterest"]}
{"id": "C75", "title": "Sync interests carry the IBF of the last reply", "statement": "Every sync interest a consumer sends ends with the IBF component of the name of the last hello or sync reply it received, whatever it called or lost since.", "quantifier": "every history, including retries, timers and calls from callbacks", "why_tests_cant": "all interleavings of replies with retries", "anchors": ["PSync/consumer.cpp:sendSyncInterest", "PSync/consumer.cpp:onHelloData", "PSync/consumer.cpp:onSyncData"]}
{"id": "C76", "title": "Full-sync data answers interests", "statement": "Every data packet a full-sync node sends matches the name of an interest it received.", "quantifier": "every history of interests, publications, received data and timers", "why_tests_cant": "all histories; the failing case needs a segment that has left the store", "anchors": ["PSync/full-producer.cpp:onSyncInterest", "PSync/full-producer.cpp:sendSyncData", "PSync/producer-base.cpp:sendApplicationNack"]}
{"id": "C77", "title": "A node that answers its own interest asks again", "statement": "If a peer is waiting with the very interest this node has outstanding, a publication answers that interest and the node sends a new sync interest with its new state at once, even when it was pausing.", "quantifier": "every history and publication", "why_tests_cant": "needs two nodes in the same state and a pause at the moment of publication", "anchors": ["PSync/full-producer.cpp:sendSyncData", "PSync/full-producer.cpp:publishName", "PSync/full-producer.cpp:satisfyPendingInterests"]}
{"id": "C78", "title": "The node pauses after an answer without news, and only then", "statement": "After an answer that tells it nothing new, a full-sync node sends no sync interest until the freshness period and at least 100 ms have passed, whatever happens, unless the application publishes; then it asks. After an answer with news it asks again at once or within 500 ms.", "quantifier": "every history before the answer, every schedule of events after it, every random draw", "why_tests_cant": "timing and interleaving", "anchors": ["PSync/full-producer.cpp:onSyncData", "PSync/full-producer.cpp:sendSyncInterest"]}
{"id": "C79", "title": "An interest with the node's own state is remembered", "statement": "A sync interest whose IBF equals the node's is kept, for the interest's lifetime, until the node has put data for it on the face or the data for it arrived from a peer; then it is dropped.", "quantifier": "every history and every event in the meantime", "why_tests_cant": "all interleavings of events while the interest is pending", "anchors": ["PSync/full-producer.cpp:onSyncInterest", "PSync/full-producer.cpp:satisfyPendingInterests", "PSync/full-producer.cpp:deletePendingInterests"]}
{"id": "C80", "title": "News reach pending interests", "statement": "As soon as a full-sync node has something the sender of a pending interest lacks, it answers that interest, whether the news came from its own application or from a peer.", "quantifier": "every history", "why_tests_cant": "needs news from a peer while another peer's interest is pending", "anchors": ["PSync/full-producer.cpp:satisfyPendingInterests", "PSync/full-producer.cpp:onSyncData"]}
{"id": "C81", "title": "Partial-sync data answers interests", "statement": "Every data packet a partial producer sends satisfies an interest it received: an interest brings at most one packet, which satisfies it, and a publication brings packets only for waiting interests.", "quantifier": "every history of interests, publications and timers", "why_tests_cant": "all histories; the failing case needs a hello segment that has left the memory", "anchors": ["PSync/partial-producer.cpp:onHelloInterest", "PSync/partial-producer.cpp:onSyncInterest", "PSync/partial-producer.cpp:satisfyPendingSyncInterests", "PSync/partial-producer.cpp:publishName"]}
{"id": "C82", "title": "Waiting sync interests are not lost", "statement": "A sync interest that waits at a partial producer stays unchanged until a publication decides it or its lifetime, counted from the last time it arrived, is over; nothing else removes or changes it.", "quantifier": "every history before it arrives and every schedule of events after", "why_tests_cant": "all interleavings of events while the interest waits", "anchors": ["PSync/partial-producer.cpp:onSyncInterest"]}
{"id": "C83", "title": "Bloom filter hash functions are distinct", "statement": "Every Bloom filter, new or rebuilt from a name, uses between 1 and 999 hash functions with pairwise different, non-zero seeds; as many as the parameter computation asked for.", "quantifier": "every expected count, false-positive rate, C library (log, pow, rand) and received component", "why_tests_cant": "all 128 table-driven cases and every random stream", "anchors": ["PSync/detail/bloom-filter.cpp:generate_unique_salt", "PSync/detail/bloom-filter.cpp:BloomFilter"]}
{"id": "C84", "title": "Bloom filter tables are as small as the rate allows", "statement": "The number of hash functions is the one from 1 to 999 for which the required number of bits is least, and the table has that many bits rounded up to whole bytes, unless that is zero or does not fit in 32 bits: then the table is empty.", "quantifier": "every expected count, false-positive rate and C library", "why_tests_cant": "floating-point minimum over 999 candidates for arbitrary parameters", "anchors": ["PSync/detail/bloom-filter.cpp:compute_optimal_parameters", "PSync/detail/bloom-filter.cpp:BloomFilter"]}
{"id": "C85", "title": "Waiting consumers are up to date", "statement": "While a consumer's sync interest waits at the producer, the consumer has the producer's current sequence number of every prefix it subscribes to.", "quantifier": "every history of a producer that removes no prefix and a consumer that subscribes in the hello callback, every loss, delay and repetition of packets", "why_tests_cant": "all interleavings of publications, fetches and losses", "anchors": ["PSync/partial-producer.cpp:onSyncInterest", "PSync/partial-producer.cpp:satisfyPendingSyncInterests", "PSync/consumer.cpp:onSyncData"]}
{"id": "C86", "title": "One exchange brings a consumer up to date", "statement": "A sync interest that reaches the producer waits only if the consumer is up to date, and is answered otherwise, with data or with a Nack; data computed for it (or for a hello interest), fetched before the next publication, leaves the consumer with the producer's current number of every subscribed prefix.", "quantifier": "every history of the two before, every number of missed updates, every schedule in between", "why_tests_cant": "all histories and any number of lost packets before the exchange", "anchors": ["PSync/partial-producer.cpp:onSyncInterest", "PSync/partial-producer.cpp:onHelloInterest", "PSync/consumer.cpp:onSyncData", "PSync/consumer.cpp:onHelloData"]}
{"id": "C87", "title": "Unusable filter parameters are refused", "statement": "Creating a consumer with an expected count or false-positive rate for which no filter can be computed throws, and a producer ignores sync interests with such parameters.", "quantifier": "every count, rate, C library and interest", "why_tests_cant": "all parameter values; the failing ones are undefined behaviour that a test may not notice", "anchors": ["PSync/detail/bloom-filter.cpp:bloom_parameters", "PSync/detail/bloom-filter.cpp:BloomFilter", "PSync/consumer.cpp:Consumer", "PSync/partial-producer.cpp:onSyncInterest"]}
{"id": "C88", "title": "Only subscribed prefixes are reported", "statement": "The update callback is only called for prefixes the consumer is subscribed to at that moment.", "quantifier": "every history of calls, replies and losses, every reply content", "why_tests_cant": "the failing cases need a false positive of the filter or an unsubscription while an interest is under way", "anchors": ["PSync/consumer.cpp:onSyncData", "PSync/consumer.cpp:onHelloData", "PSync/consumer.cpp:addSubscription", "PSync/consumer.cpp:removeSubscription"]}
{"id": "C89", "title": "A restarted full-sync node resumes its numbers", "statement": "A full-sync node that lost its state and was started again continues the sequence numbers of its prefixes where the group last saw them: what it publishes after hearing from a peer gets the next number, and its peers report it.", "quantifier": "every history of the group before the crash, every crash point, every order of events after the restart", "why_tests_cant": "the crash point and what the peers had learned by then are arbitrary", "anchors": ["PSync/full-producer.cpp:publishName", "PSync/full-producer.cpp:onSyncInterest", "PSync/full-producer.cpp:onSyncData"]}
{"id": "C90", "title": "Updates of a restarted partial-sync producer are reported", "statement": "A partial-sync producer that lost its state and was started again numbers its prefixes from 1; consumers that know the producer from before the crash report every update it publishes in its new life.", "quantifier": "every history before the crash, every crash point, every history of the new life", "why_tests_cant": "whether updates are reported depends on the numbers both sides had reached at the crash", "anchors": ["PSync/partial-producer.cpp:publishName", "PSync/partial-producer.cpp:onSyncInterest", "PSync/consumer.cpp:onSyncData"]}
{"id": "C91", "title": "The example producers publish the configured number of updates", "statement": "The example producer and full-sync applications publish exactly the configured number of updates of each of their data streams, numbered 1, 2, 3 and so on, and then stop.", "quantifier": "every set of streams, every configured maximum, every schedule of timers and every network traffic", "why_tests_cant": "the numbers are those of the library, which other nodes and the order of events influence", "anchors": ["examples/producer.cpp:Producer::doUpdate", "examples/full-sync.cpp:Producer::doUpdate"]}
{"id": "C92", "title": "The example update callbacks log every number and return", "statement": "The update callbacks of the example consumer and the example full-sync application log each number of each reported range once and return.", "quantifier": "every list of ranges the library can report", "why_tests_cant": "the ranges are arbitrary 64-bit numbers, including the largest", "anchors": ["examples/consumer.cpp:PSyncConsumer::processSyncUpdate", "examples/full-sync.cpp:Producer::processSyncUpdate"]}
{"id": "C93", "title": "The example consumer subscribes to the requested number of prefixes", "statement": "The example consumer subscribes to exactly the requested number of the prefixes announced in the hello data, at the numbers announced there, and then sends a sync interest.", "quantifier": "every hello data, every requested number, every result of the shuffle, every history", "why_tests_cant": "the announced prefixes, the shuffle and how often hello data arrives are arbitrary", "anchors": ["examples/consumer.cpp:PSyncConsumer::afterReceiveHelloData"]}
{"id": "C94", "title": "Answers from memory are recent", "statement": "Every data packet a producer sends, newly signed or kept from an earlier publication, was published at most its freshness period ago, provided the due erase timers have run; what a partial producer sends lists names with the numbers it had at that moment, and hello data lists all of them.", "quantifier": "every history of calls, interests and timers", "why_tests_cant": "the age of an answer depends on the whole schedule between publication and request", "anchors": ["PSync/segment-publisher.cpp:SegmentPublisher::publish", "PSync/segment-publisher.cpp:SegmentPublisher::replyFromStore"]}
{"id": "C95", "title": "Updates name the face they came from", "statement": "The incoming face reported with every update of a full-sync node is the one the last validated segment of the fetched sync data arrived on, and 0 if that segment carried no face tag, whatever else happens between that segment and the end of the fetch.", "quantifier": "every history, every interleaving of calls, interests, other fetches and timers between the segment and the callback", "why_tests_cant": "the face is kept in a member that every fetch writes", "anchors": ["PSync/full-producer.cpp:FullProducer::sendSyncInterest", "PSync/full-producer.cpp:FullProducer::onSyncData"]}
{"id": "C96", "title": "API calls and timers never throw", "statement": "No call of the producers' or the consumer's API, no timer and no report of the segment fetcher other than received content lets an exception escape.", "quantifier": "every state (every reachable state for full-sync nodes), every argument", "why_tests_cant": "any state of the pending and waiting maps, the IBF and the compression can be met by a call", "anchors": ["PSync/partial-producer.cpp:PartialProducer::publishName", "PSync/full-producer.cpp:FullProducer::publishName", "PSync/full-producer.cpp:FullProducer::processWaitingInterests", "PSync/consumer.cpp:Consumer::sendSyncInterest"]}
{"id": "C97", "title": "Interests and timers change no numbers", "statement": "Interests of others, timers, segments and errors change no sequence number, no IBF and no update count of a producer: only the application's calls do, and for full-sync nodes received sync data. A consumer's numbers change only with received data and subscriptions, its subscriptions only by its own calls.", "quantifier": "every state and every event; for full-sync nodes names survive the URI round trip and no hashes collide", "why_tests_cant": "interests carry arbitrary IBFs and names, and isFutureHash inserts into the map it looks things up in", "anchors": ["PSync/full-producer.cpp:FullProducer::onSyncInterest", "PSync/full-producer.cpp:FullProducer::isFutureHash", "PSync/partial-producer.cpp:PartialProducer::onSyncInterest", "PSync/consumer.cpp:Consumer::onSyncData"]}
{"id": "C98", "title": "A peer that is ahead is answered later", "statement": "A sync interest whose sender is ahead of a full-sync node (its IBF has names the node lacks and none the node could send, or the difference cannot be computed and its count is higher) sends nothing and changes nothing but that it waits, with a timer running; coming again while it waits it changes nothing. When the timer fires, every interest that still waits and that the node can by then help with (it has a name the sender lacks, or the difference cannot be computed, the node is not behind and has published something) is answered with data for it.", "quantifier": "every reachable state, every received IBF and count, every set of waiting interests", "why_tests_cant": "what the node has when the timer fires depends on everything that happened while the interest waited", "anchors": ["PSync/full-producer.cpp:FullProducer::onSyncInterest", "PSync/full-producer.cpp:FullProducer::processWaitingInterests", "PSync/full-producer.cpp:FullProducer::scheduleProcessWaitingInterests"]}
{"id": "C99", "title": "One data packet per interest", "statement": "Over any run a producer puts no more data packets on its face than it received interests (the flow balance of NDN), and for one event never more than there are interests to answer: at most one for a received interest, at most one per pending interest for a publication, at most one per waiting interest for the timer of a full-sync node.", "quantifier": "every sequence of API calls, received interests, contents, fetch failures, ticks and timer firings", "why_tests_cant": "pending and waiting tables, the segment store and the retries each add answers; only an account over the whole history shows that none is answered twice", "anchors": ["PSync/partial-producer.cpp:PartialProducer::satisfyPendingSyncInterests", "PSync/full-producer.cpp:FullProducer::onSyncInterest", "PSync/full-producer.cpp:FullProducer::satisfyPendingInterests", "PSync/full-producer.cpp:FullProducer::processWaitingInterests", "PSync/segment-publisher.cpp:SegmentPublisher::replyFromStore"]}
{"id": "C100", "title": "A destroyed object is not called", "statement": "After a producer, full-sync node or consumer has been destroyed, nothing that happens on the face, in the forwarder or in a running segment fetch calls into the destroyed object: later interests, registration answers, segments, fetch ends and timers have no effect and nothing is sent.", "quantifier": "every history before the destruction, every moment of destruction outside the object's own callbacks, every sequence of events after it, forwarders that answer the registration before, after or never", "why_tests_cant": "a use after free depends on when the object dies relative to registration answers and packets in flight; a unit test that destroys an object at the end of its scope does not process what the face receives later", "anchors": ["PSync/full-producer.cpp:FullProducer::~FullProducer", "PSync/partial-producer.cpp:PartialProducer::PartialProducer", "PSync/full-producer.hpp:m_registeredPrefix", "PSync/partial-producer.hpp:m_registeredPrefix", "PSync/consumer.hpp:Consumer", "PSync/consumer.cpp:Consumer::stop"]}
{"id": "C101", "title": "Interests are served from the acceptance of the sync prefix on", "statement": "Until the forwarder has accepted the sync prefix a producer or full-sync node puts no data on its face; from the acceptance on it treats every interest exactly as a node that had been registered from the start and had not received the earlier interests. If the forwarder refuses, an exception leaves the event loop and no data is ever sent.", "quantifier": "every sequence of API calls and network events before and after the forwarder's answer", "why_tests_cant": "the answer may arrive between any two events; tests register with a face that answers at once", "anchors": ["PSync/producer-base.cpp:ProducerBase::onRegisterFailed", "PSync/full-producer.cpp:FullProducer::FullProducer", "PSync/partial-producer.cpp:PartialProducer::PartialProducer"]}
{"id": "C102", "title": "A full-sync node asks regularly", "statement": "While the system clock does not go back and timers fire when they are due, a full-sync node never goes longer than half its sync interest lifetime, its sync reply freshness and two maximum jitters without sending a sync interest, whatever arrives and whatever the application does meanwhile; the interest asks with the data the node has at that moment.", "quantifier": "every history before, and every sequence of API calls, interests, answers with and without news, fetch errors and timeouts, and timer events after", "why_tests_cant": "answers without news and fetch errors move the deadline of the next interest, and stopping a fetch cancels it; that no interleaving of them postpones the interest again and again needs all schedules", "anchors": ["PSync/full-producer.cpp:FullProducer::sendSyncInterest", "PSync/full-producer.cpp:FullProducer::onSyncData", "PSync/full-producer.cpp:FullProducer::scheduleProcessWaitingInterests"]}
{"id": "C103", "title": "An answer tells everything older than the freshness period", "statement": "When a full-sync node is asked by a peer, and neither has removed a name meanwhile, the answer (fresh or repeated from the store) names, for every prefix, a sequence number at least as high as the one the node knew one reply freshness period earlier, wherever the peer is behind it; if the node does not answer, the peer already knows all of it; and a peer that receives the content knows all of it. News younger than the freshness period may be missing, because a stored answer is repeated.", "quantifier": "every history of the node, every moment, every peer with data that can be compared (no hash collision, the difference decodes), and everything the peer learned meanwhile", "why_tests_cant": "whether an old stored answer can hide news depends on every combination of publications, earlier askers, freshness periods and erase timers", "anchors": ["PSync/full-producer.cpp:FullProducer::onSyncInterest", "PSync/full-producer.cpp:FullProducer::sendSyncData", "PSync/segment-publisher.cpp:SegmentPublisher::replyFromStore", "PSync/segment-publisher.cpp:SegmentPublisher::publish"]}
{"id": "C104", "title": "On an ideal link news arrives within a bounded time", "statement": "Two full-sync nodes are connected by a link that delivers the interests of the second to the first at once and fetches every answer completely. Then whatever the first node knew, the second knows once the longest freshness period of the first, half the sync interest lifetime, the freshness period and two maximum jitters of the second have passed, whatever else happens at both nodes meanwhile, provided that no name is removed and the data stay comparable.", "quantifier": "every history of both nodes, every joint run with further publications, interests of others, callbacks and timer events", "why_tests_cant": "a bound on the delay speaks about every schedule of timers, stored answers, retries and concurrent publications", "anchors": ["PSync/full-producer.cpp:FullProducer::sendSyncInterest", "PSync/full-producer.cpp:FullProducer::onSyncInterest", "PSync/full-producer.cpp:FullProducer::onSyncData", "PSync/segment-publisher.cpp:SegmentPublisher::replyFromStore"]}
{"id": "C105", "title": "Packets carry the names of the protocol", "statement": "Whatever happens, the interests and data put on the face have the names of the protocol: a consumer asks for /P/hello or /P/sync/(count)/(rate)/(filter)/(IBF); a partial-sync producer answers under the name asked for followed by its IBF, with version and segment number and the number of the last segment, or with an application Nack with segment number 0 and no content; a full-sync node asks with /P/(IBF)/(count) and answers under such a name; numbers are NonNegativeIntegers of 1, 2, 4 or 8 bytes, version and segment components have types 54 and 50.", "quantifier": "every history of a consumer, a partial-sync producer or a full-sync node, every interest and data packet it puts on the face", "why_tests_cant": "interoperability with other implementations depends on every name that any state, compression scheme and sequence of events can produce", "anchors": ["PSync/consumer.cpp:Consumer::sendHelloInterest", "PSync/consumer.cpp:Consumer::sendSyncInterest", "PSync/partial-producer.cpp:PartialProducer::onHelloInterest", "PSync/partial-producer.cpp:PartialProducer::onSyncInterest", "PSync/producer-base.cpp:ProducerBase::sendApplicationNack", "PSync/full-producer.cpp:FullProducer::sendSyncInterest", "PSync/segment-publisher.cpp:SegmentPublisher::publish"]}
{"id": "C106", "title": "News crosses a path of ideal links within the sum of the delays", "statement": "Full-sync nodes form a path in which every node answers the interests of the next over an ideal link. Then whatever the first node knew, the last one knows once the sum of the delays of the single links has passed; the delay of a link is the longest freshness period of the node that answers, half the sync interest lifetime, the freshness period and two maximum jitters of the node that asks. It does not matter what else happens at the nodes, provided that no name is removed, timers are prompt, clocks never go back and the data stay comparable.", "quantifier": "every number of nodes, every configuration of each, every history before, every joint run with further publications, interests of others, callbacks and timer events", "why_tests_cant": "the bound speaks about every number of hops and every interleaving of the events of all nodes", "anchors": ["PSync/full-producer.cpp:FullProducer::sendSyncInterest", "PSync/full-producer.cpp:FullProducer::onSyncInterest", "PSync/full-producer.cpp:FullProducer::onSyncData", "PSync/segment-publisher.cpp:SegmentPublisher::replyFromStore"]}
{"id": "C107", "title": "Interests and packets do not grow with the data", "statement": "The size of what goes over the face is fixed by the configuration, however many prefixes and updates there are. The name of every sync interest of a full-sync node takes the bytes of the sync prefix, of one IBF of the configured size and at most ten more; without compression it takes exactly that up to seven bytes, so that a node configured for 489 entries or more asks with names larger than any NDN packet. A consumer's sync interest takes the sync prefix, the table of the filter it was configured with, between 12 and 26 bytes, and the IBF component of the last reply. Every data packet has at most 4400 bytes of content, and its name exceeds the name that was asked for by at most the producer's IBF and 20 bytes.", "quantifier": "every configuration, every compression library with a bound on its output for an input of a given length, every history of a node, producer or consumer", "why_tests_cant": "a test measures the packets of a few runs; the bound is about every state the application can reach", "anchors": ["PSync/full-producer.cpp:FullProducer::sendSyncInterest", "PSync/consumer.cpp:Consumer::sendSyncInterest", "PSync/partial-producer.cpp:PartialProducer::onSyncInterest", "PSync/segment-publisher.cpp:SegmentPublisher::publish", "PSync/detail/iblt.cpp:IBLT::appendToName", "PSync/detail/bloom-filter.cpp:BloomFilter::appendToName"]}
{"id": "C108", "title": "A full-sync node does not flood the network with interests", "statement": "Over any run a full-sync node sends at most one sync interest at the start, one for every half sync interest lifetime and 100 ms that pass, and one more for each data packet it sends, each sync interest it receives and each fetch of its own that completes or fails. Over any part of a run the same holds, where the interests on the waiting list at its beginning count as received.", "quantifier": "every configuration, every history, every part of it", "why_tests_cant": "a counting bound over unbounded runs; loops between answering, waiting and asking are what it excludes", "anchors": ["PSync/full-producer.cpp:FullProducer::sendSyncInterest", "PSync/full-producer.cpp:FullProducer::sendSyncData", "PSync/full-producer.cpp:FullProducer::onSyncData", "PSync/full-producer.cpp:FullProducer::processWaitingInterests"]}
{"id": "C109", "title": "Requests that cannot be read have no effect", "statement": "An interest under the registered prefixes that is not answered from the store and is no request (wrong number of components, parameters that are no numbers, a filter whose size does not fit its parameters, an IBF that does not decompress to the size of the producer's table, a foreign suffix after hello) leaves a producer or full-sync node as it is: nothing is sent, nothing is remembered and, except for the unreadable count of full sync (C42), nothing is thrown.", "quantifier": "every state, reachable or not, every configuration and every such name", "why_tests_cant": "all byte strings in every component at every state", "anchors": ["PSync/partial-producer.cpp:PartialProducer::onSyncInterest", "PSync/partial-producer.cpp:PartialProducer::onHelloInterest", "PSync/full-producer.cpp:FullProducer::onSyncInterest", "PSync/detail/bloom-filter.cpp:BloomFilter::BloomFilter"]}
{"id": "C110", "title": "Callbacks that throw lose nothing and stop nothing", "statement": "If the application's callback throws, everything the node or consumer took from the received data has been, or will be, reported, and the node or consumer goes on asking for news: the exception costs at most a delay.", "quantifier": "every history with any number of callbacks that throw after any calls, every content, every configuration", "why_tests_cant": "every callback of every history may be the one that throws, after any calls back into the library", "anchors": ["PSync/full-producer.cpp:FullProducer::onSyncData", "PSync/consumer.cpp:Consumer::onHelloData", "PSync/consumer.cpp:Consumer::onSyncData"]}
{"id": "C111", "title": "A removed user node is no longer announced", "statement": "After removeUserNode the node has no number for the prefix, and no packet it sends names the prefix once the packets published before the removal have expired, unless the application adds or publishes the prefix again.", "quantifier": "every history before and after the removal, every configuration, every packet sent later", "why_tests_cant": "packets kept in memory, pending interests and data from peers can each bring a removed prefix back, at any later moment", "anchors": ["PSync/producer-base.cpp:ProducerBase::removeUserNode", "PSync/segment-publisher.cpp:SegmentPublisher::publish", "PSync/full-producer.cpp:FullProducer::onSyncData", "PSync/partial-producer.cpp:PartialProducer::onHelloInterest"]}
{"id": "C112", "title": "Only recent interests are held", "statement": "What a node holds for answering later is bounded by what it received recently, however long it has run: an interest that waits or is pending arrived within the longest wait (65536 turns of the timer, half a second each) or within its lifetime, so no more interests are held than arrived in that window.", "quantifier": "every history whose timers run on time, every configuration, every window", "why_tests_cant": "a leak of one entry per odd interest shows up only after long runs and depends on the shape of the interests", "anchors": ["PSync/full-producer.cpp:FullProducer::onSyncInterest", "PSync/full-producer.cpp:FullProducer::processWaitingInterests", "PSync/full-producer.cpp:FullProducer::sendSyncInterest", "PSync/partial-producer.cpp:PartialProducer::onSyncInterest"]}
{"id": "C113", "title": "A full-sync node always finishes handling an interest", "statement": "Handling an interest under the sync prefix ends, without undefined behaviour, whatever bytes its name carries.", "quantifier": "every interest name, every state, every configured size", "why_tests_cant": "the bad inputs are IBFs made up for the node's present state; random inputs do not find them", "anchors": ["PSync/full-producer.cpp:FullProducer::onSyncInterest", "PSync/detail/iblt.cpp:IBLTDifference", "PSync/detail/iblt.cpp:IBLT::initialize"]}
{"id": "C114", "title": "A partial-sync exchange settles", "statement": "Once a consumer has fetched the answer to its interest and the producer's application has done nothing in between, its next sync interest is not answered but waits at the producer, and the consumer knows the current number of every prefix it subscribed to. A Nack is followed by hello data, which settles it in the same way.", "quantifier": "every reachable state of a producer and a consumer and every schedule of deliveries between the two, every size of at least 2", "why_tests_cant": "a protocol that keeps exchanging packets although nothing changes shows up only in long runs, and which states lead to it depends on the IBFs", "anchors": ["PSync/partial-producer.cpp:PartialProducer::onSyncInterest", "PSync/consumer.cpp:Consumer::onSyncData", "PSync/consumer.cpp:Consumer::onHelloData", "PSync/consumer.cpp:Consumer::sendSyncInterest"]}
{"id": "C115", "title": "A published update goes at once to the consumer that waits for it", "statement": "While a consumer's current sync interest waits at the producer, publishName for a prefix the consumer is subscribed to answers that interest at once with sync data that carries the producer's new IBF, or, if the difference between the two IBFs cannot be decoded, forgets the interest without a word (refuted as an unconditional delivery: with a table for two entries the update from number 1 to number 2 is never sent, and the consumer is left with the old number until its interest is sent again, which then gets a Nack). Fetched before the producer's application does anything else, the answer brings the consumer up to date, and its next interest waits at the producer again.", "quantifier": "every run of a producer and a consumer over a network that delays, repeats, reorders and drops packets, every waiting interest, every subscribed prefix and every published number", "why_tests_cant": "It joins the pending-interest table, the Bloom filter, the IBF difference and the consumer's fetch over arbitrary histories; the drop depends on which keys happen to meet in the table.", "anchors": ["PSync/partial-producer.cpp: PartialProducer::publishName, PartialProducer::satisfyPendingSyncInterests", "PSync/consumer.cpp: Consumer::onSyncData, Consumer::sendSyncInterest", "PSync/detail/iblt.cpp: IBLT::operator-"]}
{"id": "C116", "title": "Interests that were stored do not harm later calls", "statement": "Whatever interests a node received and kept before, a later call of the application (addUserNode, removeUserNode, publishName) finishes. For full sync this holds as long as the node's own names have distinct hashes, its own states can be told apart and its counters do not overflow, because an interest is only kept for answering if its IBF is one the node itself had. For partial sync it is refuted: an interest with the producer's own IBF and a filter of rate 1.000 is stored without complaint in every quiet state, and the next publishName reads out of bounds; publishName fails exactly when a counter overflows, a stored IBF makes the comparison overflow or loop, or a stored filter has no table. The waiting list of full sync is refuted too: a forged IBF is put on it without complaint, and after the next publication the timer that serves the list overflows a signed integer.", "quantifier": "every history of calls, interests (forged or not), sync data and timers, and every later call", "why_tests_cant": "The damage appears at a later event than the one that caused it; a test would have to guess the combination of stored interest and later state.", "anchors": ["PSync/partial-producer.cpp: PartialProducer::onSyncInterest, PartialProducer::satisfyPendingSyncInterests", "PSync/full-producer.cpp: FullProducer::onSyncInterest, FullProducer::satisfyPendingInterests, FullProducer::processWaitingInterests", "PSync/detail/bloom-filter.cpp: BloomFilter::contains"]}
{"id": "C117", "title": "The order in which updates arrive does not matter", "statement": "As long as the application does not remove a prefix, the sequence number that a full-sync node holds for it is the largest of all numbers that the node could learn: those that received content names for the prefix (in front of the first name that does not end in a number) and those that its own application announced; it is 0 if there were none. Hence two nodes that could learn the same numbers hold the same numbers, whatever the order, the repetitions and the timing, and then describe them by the same IBF. The same goes for the number a consumer holds for a prefix it subscribes to: it is the largest of the number at the beginning and those that replies named since.", "quantifier": "every history of calls, interests, contents (well-formed or not), timers and exceptions, every prefix; every pair of such histories", "why_tests_cant": "The number of arrival orders grows faster than exponentially with the number of contents, and each may be interleaved with everything else a node does.", "anchors": ["PSync/full-producer.cpp: FullProducer::onSyncData", "PSync/producer-base.cpp: ProducerBase::updateSeqNo", "PSync/consumer.cpp: Consumer::onSyncData, Consumer::onHelloData", "PSync/full-producer.cpp: FullProducer::publishName"]}
{"id": "C118", "title": "A subscription filter matches everything only when all its bits are set", "statement": "However many names are inserted into a Bloom filter and however often it is cleared, no more bits of its table are set than the number of hash functions times the number of different names inserted since the last clear. A filter, whether made here or received in an interest, matches every name exactly if every bit of its table is set. While one bit is clear, below every name there is a name, one component of at most eight bytes longer, that the filter rejects. In particular a filter with more bits than hash functions times inserted names rejects names below every prefix. (Tables of a single bit are excluded; see C16.)", "quantifier": "all filter parameters, C libraries, sequences of insertions and clears, received tables, and prefixes", "why_tests_cant": "A test probes a few names against a few filters. That a rejected name exists below every prefix for every clear bit needs the hash to reach every 32-bit value below every name, which no sampling shows.", "anchors": ["PSync/detail/bloom-filter.cpp: insert, contains, clear, compute_indices", "PSync/detail/util.cpp: murmurHash3"]}
{"id": "C119", "title": "Printed IBFs, filters and contents show what they hold", "statement": "Two IBFs are printed alike exactly if they have the same number of entries and, entry by entry, the same count, the same key sum, and both or neither have an empty entry or a check field that matches the key sum. In an IBF that holds a list of keys, every entry with no key or one key is printed with \"true\", so \"false\" marks entries that hold at least two keys. Two Bloom filters are printed alike exactly if they are equal in the sense of operator==, that is if their tables are. Different sync contents are printed differently, provided that different names are, and that a printed name is not empty and has no comma.", "quantifier": "all hash tables, filters, contents, and ways to print names", "why_tests_cant": "A test prints a few objects; that no two different objects share a printed form is a statement about all pairs of objects.", "anchors": ["PSync/detail/iblt.cpp: operator<<", "PSync/detail/bloom-filter.hpp: operator<<, operator==", "PSync/detail/state.cpp: operator<<"]}
{"id": "C120", "title": "Producers that know the same answer alike", "statement": "Take two producers with equal options whose sequence numbers are the same, however they got there, and that do not have the reply in memory. An interest makes both throw the same or neither, and the data they send is the same up to the version in the name and the signature. A request that waits in both or in neither, with the same filter and IBF, still does afterwards. If the same requests wait in both, then a publication too makes them send the same data. Full-sync nodes do the same if they also counted the same number of updates, which holds in particular if neither removed a prefix.", "quantifier": "all pairs of configurations with equal options, all pairs of histories that lead to the same sequence numbers, all interests and publications", "why_tests_cant": "That nothing but the sequence numbers (no clock, version, order of earlier calls, or hidden state) reaches the reply is a statement about all pairs of histories.", "anchors": ["PSync/partial-producer.cpp: onHelloInterest, onSyncInterest, satisfyPendingSyncInterests", "PSync/full-producer.cpp: onSyncInterest, satisfyPendingInterests, publishName", "PSync/producer-base.cpp"]}
{"id": "C121", "title": "A name is never used for two different contents", "statement": "Among all packets a producer or a full-sync node has ever sent, and those it still has in memory, two packets with the same name have the same type, content, final block and freshness, and if they carry data they are identical to the signature, so a fetcher or a cache that mixes packets it got at different times never combines pieces of different replies. This assumes that the clock gave each reply its own version and that at most 2^64 packets were signed.", "quantifier": "all configurations, all histories of calls, interests, received content and timers, all pairs of packets", "why_tests_cant": "That a name is not used again for something else concerns every pair of replies in an unbounded history, including replies from memory, expired ones and notices of a failed comparison.", "anchors": ["PSync/segment-publisher.cpp: publish, replyFromStore", "PSync/producer-base.cpp: sendApplicationNack", "PSync/partial-producer.cpp", "PSync/full-producer.cpp: sendSyncData"]}
{"id": "C122", "title": "Constructors apply the settings they are given", "statement": "A producer, full-sync node or consumer runs with exactly the settings passed to its constructor, and with the documented defaults for those left out. The deprecated constructors, which take the settings one by one and a user prefix, build an object that behaves in every later history as the one built from the options structure with the same settings, followed by addUserNode(userPrefix) for producers and nodes.", "quantifier": "every combination of settings, every number of expected entries the parameter type can hold, every later history of calls and events", "why_tests_cant": "settings are passed on by position and through a narrowing cast; a test constructs objects with a few small values", "anchors": ["PSync/partial-producer.hpp:PartialProducer::Options", "PSync/partial-producer.cpp:PartialProducer::PartialProducer", "PSync/full-producer.hpp:FullProducer::Options", "PSync/full-producer.cpp:FullProducer::FullProducer", "PSync/consumer.hpp:Consumer::Options", "PSync/consumer.cpp:Consumer::Consumer", "PSync/common.hpp"]}
{"id": "C123", "title": "A consumer settles after one exchange with a quiet producer", "statement": "Once a producer's application has done nothing for its longest freshness period, everything it answers, computed or from memory, carries the IBF of its present state. A consumer that fetches one such answer, hello or sync data, knows the number of every prefix it is subscribed to, and its next sync interest is not answered but waits at the producer. A sync interest that reaches the producer in that state waits, gets data, or gets a Nack, which leads to a hello interest that is answered with data.", "quantifier": "every history of a producer and a consumer on an arbitrary network with arbitrary other interests, every moment at which the application has been quiet for the freshness period, every exchange from then on", "why_tests_cant": "what is in the memory depends on everything that was asked and published before; tests fetch from a producer with an empty memory", "anchors": ["PSync/partial-producer.cpp:PartialProducer::onHelloInterest", "PSync/partial-producer.cpp:PartialProducer::onSyncInterest", "PSync/segment-publisher.cpp:SegmentPublisher::replyFromStore", "PSync/consumer.cpp:Consumer::onHelloData", "PSync/consumer.cpp:Consumer::onSyncData"]}
{"id": "C124", "title": "News reach a consumer within the freshness period and the interval of its exchanges", "statement": "Let a producer and a consumer be connected by a link that may lose packets but does not delay them, and let at least every T milliseconds one sync interest of the consumer lead to a complete exchange: it is left unanswered at the producer, or answered with data that the consumer fetches, or answered with a Nack and the hello interest that follows is answered with data that the consumer fetches. Then, whatever else both applications, other consumers and timers do, every sequence number that the producer has at some moment for a prefix the consumer is subscribed to is known to the consumer once more than the producer's longest freshness period and T have passed, and stays known. A single complete exchange tells the consumer all that the producer had more than a freshness period earlier.", "quantifier": "every history of a producer and a consumer, every interval T, every moment of the producer, every continuation with the stated exchanges and arbitrary other events, answers from memory included", "why_tests_cant": "the delay depends on what is in the producer's memory, on which interests wait, and on the way over Nack and hello interest in every combination; a test observes one latency on one schedule", "anchors": ["PSync/partial-producer.cpp:PartialProducer::onSyncInterest", "PSync/partial-producer.cpp:PartialProducer::onHelloInterest", "PSync/segment-publisher.cpp:SegmentPublisher::replyFromStore", "PSync/consumer.cpp:Consumer::onHelloData", "PSync/consumer.cpp:Consumer::onSyncData", "PSync/consumer.cpp:Consumer::sendSyncInterest"]}
{"id": "C125", "title": "A consumer of a well-behaved producer is told every update exactly once and in order", "statement": "Let a producer and a consumer be connected by a link that may lose, delay, repeat and reorder packets, and let the application keep its subscription to a prefix. The ranges of sequence numbers that the update callback reports for the prefix then follow each other without gap and without overlap: they begin right after the number known at the start, and end at the number known at the end, which is a number that the producer has. No update is skipped, none is reported twice, whatever hello data, sync data, Nacks, timeouts and retransmissions come in between. If the link moreover does not delay packets and one exchange completes at least every T milliseconds, then every update that the producer had at some moment and the consumer did not know has been reported once more than the longest freshness period and T have passed.", "quantifier": "every history of a producer and a consumer, every prefix with a number, every continuation in which the application does not unsubscribe from it, every order of delivery", "why_tests_cant": "a duplicate or a gap needs a particular mix of late data, answers from memory, Nacks and hello data; a test sees a few of them", "anchors": ["PSync/consumer.cpp:Consumer::onHelloData", "PSync/consumer.cpp:Consumer::onSyncData", "PSync/consumer.cpp:Consumer::addSubscription", "PSync/partial-producer.cpp:PartialProducer::onSyncInterest", "PSync/partial-producer.cpp:PartialProducer::satisfyPendingSyncInterests", "PSync/segment-publisher.cpp:SegmentPublisher::publish"]}
{"id": "C126", "title": "In a group of well-behaved full-sync nodes every application learns every number exactly once", "statement": "Let any number of full-sync nodes exchange packets over a network that may lose, delay, repeat and reorder them, and deliver any interests. For each node whose application removes no user node, the numbers that the application published itself and the ranges that the update callback told it, in the order in which they happened, follow each other without gap and without overlap: they begin at 1 and end at the number that the node has. Handling sync data never ends in an exception there, so no update that a node takes over is lost to its application.", "quantifier": "every group size, every execution of the group, every node and prefix, every delivery of any packet ever sent to any node, any interests, any calls from callbacks", "why_tests_cant": "publications in callbacks, late data and data from several peers interleave in unboundedly many ways; a test runs a few nodes on one schedule", "anchors": ["PSync/full-producer.cpp:FullProducer::onSyncData", "PSync/full-producer.cpp:FullProducer::publishName", "PSync/producer-base.cpp:ProducerBase::updateSeqNo", "PSync/full-producer.cpp:FullProducer::sendSyncData"]}
{"id": "C127", "title": "A consumer does not flood the network with interests", "statement": "Over any run, the hello and sync interests that a consumer has sent and the retries it has scheduled are together at most as many as the calls of sendHelloInterest and sendSyncInterest, from callbacks included, the fetches that ended with content or an error, and the segments that came in. Segments count only if application Nacks are among them. Over any part of a run the same holds, where the retries scheduled at its beginning count as well.", "quantifier": "every configuration, every history of calls, segments, contents, errors and timers, every part of it", "why_tests_cant": "a handler that sends twice, or that both sends and schedules a retry, doubles the number of interests with each exchange, which a test with few exchanges does not notice", "anchors": ["PSync/consumer.cpp:Consumer::sendHelloInterest", "PSync/consumer.cpp:Consumer::sendSyncInterest", "PSync/consumer.cpp:Consumer::onHelloData", "PSync/consumer.cpp:Consumer::onSyncData"]}
{"id": "C128", "title": "In a network of ideal links every application is told everything once and in time", "statement": "Full-sync nodes form a path in which every node answers the interests of the next over an ideal link. At each node behind the first, what its application publishes and what it is told makes up, without gap and without repetition, the numbers by which the node's knowledge of a prefix grows. Once the sum of the delays of the links has passed, every number that the first node knew in the beginning and that the last did not know has been published or reported at the last one exactly once; if its application does not publish that prefix itself, it has been reported in exactly one update.", "quantifier": "every number of nodes, every configuration of each, every history before, every joint run with further publications, interests of others, callbacks and timer events, every prefix and number", "why_tests_cant": "combines timing across several hops with exactly-once delivery to the callback under arbitrary interleavings", "anchors": ["PSync/full-producer.cpp:FullProducer::sendSyncInterest", "PSync/full-producer.cpp:FullProducer::onSyncInterest", "PSync/full-producer.cpp:FullProducer::onSyncData"]}
{"id": "C129", "title": "A full-sync publication reaches a waiting peer at once", "statement": "A full-sync node holds the sync interest by which a peer asks. When the application of the node publishes an update of a prefix the node knows, the node answers that interest at once. Whatever the node published before and whatever else waits, a peer that fetches this answer then knows the published number, and its application is told of every number of that prefix it did not know, up to the published one, exactly once. If the two nodes' data differ little enough for the filter to be decoded, the peer then knows everything the node knows.", "quantifier": "all full-sync configurations that can talk to each other, all histories of both nodes without hash collisions, all sets of waiting interests, all prefixes and published numbers, all data with which the peer asked, all application calls from the peer's callback that remove nothing", "why_tests_cant": "It connects the handling of a publication, the list of waiting interests, segmentation, the store, compression and the peer's processing, over any history of the two nodes and any number of other waiting interests. A test shows one publication to one peer.", "anchors": ["PSync/full-producer.cpp: publishName, satisfyPendingInterests, sendSyncData, onSyncData", "PSync/segment-publisher.cpp: publish"]}
{"id": "C130", "title": "Destroying an object inside one of its own callbacks", "statement": "An application may destroy a consumer or a full-sync node from inside a callback that the object makes: the handler then uses the object no more, has shown what it would have shown anyway, and nothing calls the object afterwards.", "quantifier": "every reachable consumer and full-sync node, every content received, every callback, every sequence of calls the application makes in the callbacks before, every sequence of events afterwards", "why_tests_cant": "Whether a handler touches the object after a callback depends on what the reply contains and on which callback is made last; a test that destroys the object in one place on one input shows neither the harmless nor the harmful cases, and use after free often goes unnoticed at run time.", "anchors": ["PSync/consumer.cpp: Consumer::onHelloData", "PSync/consumer.cpp: Consumer::onSyncData", "PSync/full-producer.cpp: FullProducer::onSyncData"]}
{"id": "C131", "title": "A reply can be fetched completely as long as it is fresh", "statement": "When a producer or a full-sync node makes a reply (the packet sent was not in memory before), then from that moment until the freshness period of the reply is over every segment of it, also those not asked for yet, is sent, unchanged and at once, to whoever asks for it by name, whatever else the object does in between: publications, other replies, interests, expirations, erase events of other replies. This holds as long as at most 100 packets, the capacity of the memory, have been signed since just before the reply was made; it assumes that the clock gave each reply its own version and that at most 2^64 packets were signed.", "quantifier": "all configurations, all histories before the reply, all events that make a reply, all histories after it, all segments and interest lifetimes; for the publisher itself also all capacities, data names, contents and freshness periods", "why_tests_cant": "a segment is lost by an erase event of another reply with a nested name, by an insertion that evicts it, or by a lookup that finds another packet first, in some history; a test tries a few", "anchors": ["PSync/segment-publisher.cpp: publish, replyFromStore", "PSync/partial-producer.cpp: onHelloInterest, onSyncInterest, satisfyPendingSyncInterests", "PSync/full-producer.cpp: onSyncInterest, sendSyncData"]}
{"id": "C132", "title": "A reply fetched segment by segment is the list of one moment", "statement": "When a producer or a full-sync node makes a reply and somebody fetches its segments one after the other, with any other events at the object between these interests (publications, removals, other interests, erase events), then every interest is answered with the segment asked for, which names the last segment, and the segments put together are the encoding of one list of names: the numbers the object had at the moment it made the reply, the same moment as the IBF in the name of the reply of a partial producer. The hello reply has all prefixes known at that moment. It is never a mixture of an older and a newer list. As in C131 the fetch ends within the freshness period and before more than 100 packets were signed.", "quantifier": "all configurations, all histories, all events that make a reply, all events between the interests of the fetch, all numbers of segments", "why_tests_cant": "a mixture arises only from a publication between two particular interests of a multi-segment fetch; a test has to guess that schedule", "anchors": ["PSync/segment-publisher.cpp: publish, replyFromStore", "PSync/partial-producer.cpp: onHelloInterest, onSyncInterest, satisfyPendingSyncInterests", "PSync/full-producer.cpp: onSyncInterest, sendSyncData", "PSync/consumer.cpp: onHelloData, onSyncData"]}
{"id": "C133", "title": "Names are compared in the canonical order", "statement": "Whatever is ordered by name is in the canonical order of NDN names: a proper prefix comes first, otherwise the first differing component decides, by its type, then its length, then its bytes. So an interest that packets in memory match is answered at once with exactly one packet, the first of the matching ones in that order (whether or not it is the newest); hello data lists the streams in that order; and when a publication is made, the waiting interests are answered in the order of their names, at most one packet for each.", "quantifier": "every state of a producer and every interest under its prefixes; every history of calls and interests before a hello interest or a publication; every number of waiting interests; any names and any number of packets in memory", "why_tests_cant": "Which of several matching packets is sent and in which order replies leave depends on arbitrary sets of names; tests compare a few short names, for which several different orders agree.", "anchors": ["PSync/segment-publisher.cpp: SegmentPublisher::replyFromStore", "PSync/partial-producer.cpp: PartialProducer::onHelloInterest, satisfyPendingSyncInterests", "PSync/full-producer.cpp: FullProducer::satisfyPendingInterests", "PSync/producer-base.hpp: ProducerBase::m_prefixes"]}
