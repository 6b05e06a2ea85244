{
 "claims": [
  {
   "property": "C01",
   "status": "proved",
   "theorems": [
    "C01_table_size_law"
   ],
   "note": ""
  },
  {
   "property": "C02",
   "status": "proved",
   "theorems": [
    "C02_insert_erase_group",
    "C02_insert_erase_total",
    "C02_insert_then_erase"
   ],
   "note": ""
  },
  {
   "property": "C03",
   "status": "proved",
   "theorems": [
    "C03_wire_roundtrip",
    "C03_wire_injective",
    "C03_reachable_cells"
   ],
   "note": ""
  },
  {
   "property": "C04",
   "status": "proved",
   "theorems": [
    "C04_initialize"
   ],
   "note": ""
  },
  {
   "property": "C05",
   "status": "proved",
   "theorems": [
    "C05_equal_ibfs"
   ],
   "note": ""
  },
  {
   "property": "C06",
   "status": "proved",
   "theorems": [
    "C06_one_key"
   ],
   "note": ""
  },
  {
   "property": "C07",
   "status": "proved",
   "theorems": [
    "C07_two_keys"
   ],
   "note": ""
  },
  {
   "property": "C08",
   "status": "proved",
   "theorems": [
    "C08_honest_soundness"
   ],
   "note": "no_coincidence is the 'no accidental 32-bit check-hash match' condition of the English statement."
  },
  {
   "property": "C09",
   "status": "proved",
   "theorems": [
    "C09_completeness"
   ],
   "note": ""
  },
  {
   "property": "C10",
   "status": "proved",
   "theorems": [
    "C10_faithful"
   ],
   "note": ""
  },
  {
   "property": "C11",
   "status": "proved",
   "theorems": [
    "C11_antisymmetric",
    "C11_honest_antisymmetric"
   ],
   "note": "the second disjunct is the signed-overflow case excluded by the English statement's quantifier. C11_honest_antisymmetric: between honest peers without the exception for overflowing counts; its hypotheses are met by C08_C09_example."
  },
  {
   "property": "C12",
   "status": "proved",
   "theorems": [
    "C12_common_keys_cancel"
   ],
   "note": ""
  },
  {
   "property": "C13",
   "status": "partial",
   "theorems": [
    "C13_endless_means_circling",
    "C13_termination_refuted",
    "C13_termination_partial"
   ],
   "note": "The statement as given is false of the code: for every honest local IBF there is a received IBF of the right size on which subtraction loops forever (C13_termination_refuted). Proved instead: termination when the received IBF was built by an honest peer, and, for all tables with 32-bit fields, that the comparison never ends exactly if the peeling comes back to a table it has already been at (C13_endless_means_circling): there is no other way not to end."
  },
  {
   "property": "C14",
   "status": "partial",
   "theorems": [
    "C14_overflow_at_once",
    "C14_overflow_takes_long",
    "C14_overflow_refuted",
    "C14_overflow_partial"
   ],
   "note": "The statement as given is false of the code (C14_overflow_refuted gives the received IBF). Proved instead: no overflow when the received IBF was built by an honest peer; for all tables of equal size, the subtraction overflows at once exactly if two counts differ by more than an int32_t holds (C14_overflow_at_once), and otherwise only after a number of passes that the theorem bounds from below (C14_overflow_takes_long)."
  },
  {
   "property": "C15",
   "status": "proved",
   "theorems": [
    "C15_check_hash_injective",
    "C15_hash_range"
   ],
   "note": ""
  },
  {
   "property": "C16",
   "status": "proved",
   "theorems": [
    "C16_no_false_negatives"
   ],
   "note": ""
  },
  {
   "property": "C17",
   "status": "proved",
   "theorems": [
    "C17_order_independent",
    "C17_monotone_and_clear"
   ],
   "note": ""
  },
  {
   "property": "C18",
   "status": "proved",
   "theorems": [
    "C18_wire",
    "C18_wire_total"
   ],
   "note": "Consumer and producer are assumed to run the same log/pow/rand (one libm parameter L). rate t is the double nearest to t/1000."
  },
  {
   "property": "C19",
   "status": "partial",
   "theorems": [
    "C19_any_rate_refuted",
    "C19_tiny_rate_refuted",
    "C19_any_rate_partial"
   ],
   "note": "False as stated: 0.0015 arrives as 0.001 (C19_any_rate_refuted) and 0.0005 arrives as 0, on which the producer's constructor executes an undefined float conversion (C19_tiny_rate_refuted). Proved instead: every whole number of thousandths up to 1 arrives exactly."
  },
  {
   "property": "C20",
   "status": "partial",
   "theorems": [
    "C20_memory_safety_refuted",
    "C20_memory_safety_partial"
   ],
   "note": "False as stated: rate 1.000 gives an empty table with one bit (C20_memory_safety_refuted). Proved instead: a filter that construction accepts is safe exactly when its size is not 1."
  },
  {
   "property": "C21",
   "status": "proved",
   "theorems": [
    "C21_content_roundtrip"
   ],
   "note": ""
  },
  {
   "property": "C22",
   "status": "proved",
   "theorems": [
    "C22_encoding_not_stale"
   ],
   "note": ""
  },
  {
   "property": "C23",
   "status": "proved",
   "theorems": [
    "C23_decoding_exact",
    "C23_otherwise_throws"
   ],
   "note": ""
  },
  {
   "property": "C24",
   "status": "proved",
   "theorems": [
    "C24_split",
    "C24_injective",
    "C24_injective_on_wire"
   ],
   "note": ""
  },
  {
   "property": "C25",
   "status": "proved",
   "theorems": [
    "C25_published_content_fetchable"
   ],
   "note": ""
  },
  {
   "property": "C26",
   "status": "partial",
   "theorems": [
    "C26_any_size_partial",
    "C26_any_size_refuted"
   ],
   "note": "False as stated: content needing more segments than the store holds loses its oldest segments before anyone can fetch them (C26_any_size_refuted). Proved instead: the newest segments, as many as the store holds, can be fetched."
  },
  {
   "property": "C27",
   "status": "proved",
   "theorems": [
    "C27_store_bounded",
    "C27_store_cleans_itself",
    "C27_scheduler_can_run"
   ],
   "note": ""
  },
  {
   "property": "C28",
   "status": "proved",
   "theorems": [
    "C28_at_most_one_segment_put",
    "C28_other_operations"
   ],
   "note": ""
  },
  {
   "property": "C29",
   "status": "proved",
   "theorems": [
    "C29_sequence_numbers",
    "C29_add_returns_new",
    "C29_unknown_ignored"
   ],
   "note": ""
  },
  {
   "property": "C30",
   "status": "proved",
   "theorems": [
    "C30_ibf_is_current_names",
    "C30_live_names"
   ],
   "note": ""
  },
  {
   "property": "C31",
   "status": "partial",
   "theorems": [
    "C31_under_collisions_refuted",
    "C31_under_collisions_partial"
   ],
   "note": "False as stated: two live names with the same 32-bit hash leave the IBF different from the IBF of the current names even after both were superseded (C31_under_collisions_refuted). Proved instead: exact while no two simultaneously live names collide."
  },
  {
   "property": "C32",
   "status": "proved",
   "theorems": [
    "C32_replicas_agree"
   ],
   "note": ""
  },
  {
   "property": "C33",
   "status": "proved",
   "theorems": [
    "C33_cumulative_count",
    "C33_count_without_removals",
    "C33_more_knowledge_more_count"
   ],
   "note": ""
  },
  {
   "property": "C34",
   "status": "proved",
   "theorems": [
    "C34_reply_content",
    "C34_reply_to_honest_consumer"
   ],
   "note": "names under the reply are those of State::addContent order (ascending hash). Hypotheses: no live hash collision in the history, a usable filter (C20), the request is not answered from the in-memory storage."
  },
  {
   "property": "C35",
   "status": "partial",
   "theorems": [
    "C35_current_consumers_wait_partial",
    "C35_current_ibf_waits_partial",
    "C35_small_size_refuted",
    "C35_small_sizes_never_wait"
   ],
   "note": "False as stated for configured sizes 0 and 1, whose threshold is 0: a consumer with the current IBF is answered at once (C35_small_size_refuted). Proved instead: holds whenever the difference is below half the configured size, and for the current IBF whenever the size is at least 2. Exactness: with sizes below 2 every interest with the current IBF is answered at once (C35_small_sizes_never_wait)."
  },
  {
   "property": "C36",
   "status": "proved",
   "theorems": [
    "C36_nack_iff_undecodable",
    "C36_nack_shape",
    "C36_only_interests"
   ],
   "note": ""
  },
  {
   "property": "C37",
   "status": "proved",
   "theorems": [
    "C37_publish_answers_pending",
    "C37_honest_entries_decided",
    "C37_unknown_prefix"
   ],
   "note": ""
  },
  {
   "property": "C38",
   "status": "proved",
   "theorems": [
    "C38_no_update_skipped",
    "C38_reply_complete"
   ],
   "note": "'exact differences' is the hypothesis exact_throughout (no accidental check-hash match between the consumer's IBF and any past state)."
  },
  {
   "property": "C39",
   "status": "partial",
   "theorems": [
    "C39_pending_expire_partial",
    "C39_pending_expire_refuted",
    "C39_forgotten_exactly_when"
   ],
   "note": "Refuted in general: an interest with version and segment is stored under a shorter key, and its timer erases the longer name, so the entry stays. Proved for every entry all of whose storing interests carry no version and segment. Exactness: a waiting interest is forgotten exactly if it carried no version and segment (C39_forgotten_exactly_when)."
  },
  {
   "property": "C40",
   "status": "proved",
   "theorems": [
    "C40_hello_lists_everything"
   ],
   "note": ""
  },
  {
   "property": "C41",
   "status": "proved",
   "theorems": [
    "C41_no_exception"
   ],
   "note": "Exceptions only, as stated; endless loops and undefined behaviour are C68."
  },
  {
   "property": "C42",
   "status": "partial",
   "theorems": [
    "C42_throws_exactly_when",
    "C42_survives_numbered_interests_partial",
    "C42_survives_any_interest_refuted"
   ],
   "note": "False as stated: an interest with two components after the sync prefix whose last one is not a number throws out of the interest handler (C42_survives_any_interest_refuted). Proved instead: every interest whose count component is a number (or that has another length) is survived. Endless loops and signed overflow on forged IBFs are C13/C14. C42_throws_exactly_when says exactly which interests throw: those not answered from memory with two components after the sync prefix of which the second is no number; none reads out of bounds."
  },
  {
   "property": "C43",
   "status": "partial",
   "theorems": [
    "C43_consumer_survives_good_content_partial",
    "C43_consumer_survives_any_content_refuted",
    "C43_full_ends_badly_exactly_when",
    "C43_consumer_ends_badly_exactly_when",
    "C43_full_survives_good_content_partial",
    "C43_full_survives_any_content_refuted"
   ],
   "note": "False as stated: a received name that does not end in a number throws, and an empty name is read out of bounds (C43_full_survives_any_content_refuted, C43_consumer_survives_any_content_refuted). Proved instead, for full-sync nodes and consumers: contents in which every name ends in a number are survived. 'tame' excludes exceptions and out-of-bounds accesses; overflow of IBF counts by forged pending IBFs is C14. The ..._exactly_when theorems say exactly which contents throw and which read out of bounds, for full-sync nodes and consumers."
  },
  {
   "property": "C44",
   "status": "partial",
   "theorems": [
    "C44_consumer_changes_are_reported_partial",
    "C44_consumer_every_change_is_reported_refuted",
    "C44_changes_are_reported_partial",
    "C44_every_change_is_reported_refuted",
    "C44_consumer_unreported_exactly_when",
    "C44_unreported_exactly_when",
    "C44_reported_exactly_when"
   ],
   "note": "False as stated: a content whose second name is malformed advances the first prefix, then throws, and the application is never told (C44_every_change_is_reported_refuted, C44_consumer_every_change_is_reported_refuted). Proved instead, for full-sync nodes and consumers: holds whenever the handler ends without an exception. Exactness: a change goes unreported exactly if a name without number follows the one that makes it (C44_unreported_exactly_when, C44_consumer_unreported_exactly_when for sync replies). C44_reported_exactly_when: content whose handling ends normally makes a full-sync node report a prefix if and only if one of its names gives the prefix its first or a higher number."
  },
  {
   "property": "C45",
   "status": "partial",
   "theorems": [
    "C45_consumer_announced_at_most_once",
    "C45_consumer_none_skipped_partial",
    "C45_consumer_none_skipped_refuted",
    "C45_consumer_ranges_follow_each_other",
    "C45_ranges_follow_each_other",
    "C45_announced_at_most_once",
    "C45_none_skipped_partial",
    "C45_none_skipped_refuted"
   ],
   "note": "The 'none skipped' half is false: a content whose second name is malformed advances the first prefix and then throws, so its numbers are never announced (C45_none_skipped_refuted, C45_consumer_none_skipped_refuted). Proved for histories in which every received name ends in a number; the rest is proved for all histories."
  },
  {
   "property": "C46",
   "status": "partial",
   "theorems": [
    "C46_consumer_ranges_nonempty_partial",
    "C46_consumer_ranges_nonempty_refuted",
    "C46_consumer_empty_exactly_when",
    "C46_empty_exactly_when",
    "C46_ranges_nonempty_partial",
    "C46_nonempty_without_zeros_partial",
    "C46_ranges_nonempty_refuted"
   ],
   "note": "False as stated, between honest nodes: publishing sequence number 0 while an interest is pending sends a name that the peer reports as the range from 1 to 0 (C46_ranges_nonempty_refuted, and the same for consumers). Proved instead: that is the only way to get an empty range, and none occurs if no received name ends in 0. Exactly: a reported range of a prefix is empty if and only if the prefix was not known and the first received name about it ends in 0 (C46_consumer_empty_exactly_when, C46_empty_exactly_when)."
  },
  {
   "property": "C47",
   "status": "partial",
   "theorems": [
    "C47_remove",
    "C47_add_partial",
    "C47_add_when_replies_match_partial",
    "C47_add_refuted"
   ],
   "note": "False as stated: sync data can name a prefix that is not subscribed (a false positive of the filter, or one unsubscribed while the interest was in flight); its number is remembered and addSubscription then returns false and does not subscribe (C47_add_refuted). Proved instead: addSubscription does what is stated for prefixes without a remembered number, and fully in histories whose contents name only subscribed prefixes; removeSubscription does what is stated in all histories."
  },
  {
   "property": "C48",
   "status": "proved",
   "theorems": [
    "C48_filter_is_the_subscriptions",
    "C48_interests_carry_it",
    "C48_next_interest_carries_it"
   ],
   "note": ""
  },
  {
   "property": "C49",
   "status": "proved",
   "theorems": [
    "C49_never_decreases",
    "C49_values_were_offered"
   ],
   "note": ""
  },
  {
   "property": "C50",
   "status": "proved",
   "theorems": [
    "C50_nack_leads_to_hello",
    "C50_data_again"
   ],
   "note": ""
  },
  {
   "property": "C51",
   "status": "partial",
   "theorems": [
    "C51_one_of_each_kind",
    "C51_superseded_are_ignored",
    "C51_finished_are_ignored",
    "C51_stop_silences_partial",
    "C51_stop_in_callback_refuted",
    "C51_stop_in_callback_exactly_when"
   ],
   "note": "False in one case: stop() called from the update callback of a sync reply is followed by another sync interest (C51_stop_in_callback_refuted). Proved: everything else, for all histories. Exactness: stop() as the last call in the update callback silences the consumer exactly for hello replies (C51_stop_in_callback_exactly_when)."
  },
  {
   "property": "C52",
   "status": "proved",
   "theorems": [
    "C52_reply_content",
    "C52_reply_to_honest_peer"
   ],
   "note": ""
  },
  {
   "property": "C53",
   "status": "proved",
   "theorems": [
    "C53_undecodable_difference"
   ],
   "note": ""
  },
  {
   "property": "C54",
   "status": "proved",
   "theorems": [
    "C54_publish_answers_pending",
    "C54_publish_unknown_does_nothing"
   ],
   "note": "Hypothesis: the differences with the stored IBFs are computed without overflow or endless loop (true for honest peers, C13/C14)."
  },
  {
   "property": "C55",
   "status": "partial",
   "theorems": [
    "C55_dropped_after_two_partial",
    "C55_dropped_after_two_refuted",
    "C55_kept_exactly_when",
    "C55_any_number_of_attempts_refuted"
   ],
   "note": "False as stated: if all this node could send is withheld because the peer shows the next sequence number, the interest stays on the list (C55_dropped_after_two_refuted: four attempts; C56 bounds them by 65535). Proved instead: dropped at the second attempt or answered from the store, except in that case and in the equal-count case of C53. C55_kept_exactly_when: for an attempt after the first that sends no data for the interest, it stays on the list if and only if this node is in one of those two cases. No limit below that of C56 holds: for every v < 65535 an interest can have had v attempts and still be waiting (C55_any_number_of_attempts_refuted)."
  },
  {
   "property": "C56",
   "status": "proved",
   "theorems": [
    "C56_timer_is_armed",
    "C56_timer_serves_all",
    "C56_interests_touch_one_entry",
    "C56_other_events",
    "C56_attempts_are_bounded"
   ],
   "note": ""
  },
  {
   "property": "C57",
   "status": "proved",
   "theorems": [
    "C57_never_silent"
   ],
   "note": ""
  },
  {
   "property": "C58",
   "status": "partial",
   "theorems": [
    "C58_never_silent_partial",
    "C58_never_silent_refuted",
    "C58_revived_exactly_when",
    "C58_silence_lasts",
    "C58_publication_revives_exactly_when",
    "C58_interest_revives_exactly_when",
    "C58_silent_exactly_when"
   ],
   "note": "False as stated: a clock step backwards suppresses the interest without rearming the timer (C58_never_silent_refuted). Proved instead: C57, for clocks that never go back. Exactness: the step at which a node falls silent is characterised for every history (C58_silent_exactly_when). How long the silence lasts: the timer is armed again exactly at an event that sends an interest (C58_revived_exactly_when); with nothing waiting, only a peer's interest or a publication can do so, whatever time passes (C58_silence_lasts); and a publication of a known prefix does exactly if the name of the node's last interest is itself pending from a peer (C58_publication_revives_exactly_when). A peer's interest does exactly if it has the name of the node's last interest and the node makes data for it (C58_interest_revives_exactly_when)."
  },
  {
   "property": "C59",
   "status": "proved",
   "theorems": [
    "C59_interests_carry_current_ibf",
    "C59_one_outstanding",
    "C59_interests_are_paced"
   ],
   "note": ""
  },
  {
   "property": "C60",
   "status": "proved",
   "theorems": [
    "C60_exchange_merges",
    "C60_exchange_outcome"
   ],
   "note": "Two theorems: the general one lets anything happen to the asking node between asking and processing as long as it forgets nothing, and any callback without removals; the second says exactly what one exchange does. Loss-free segments, no hash collision among the names involved, exact difference, contents below 2^64 bytes."
  },
  {
   "property": "C61",
   "status": "proved",
   "theorems": [
    "C61_two_nodes_converge",
    "C61_group_converges"
   ],
   "note": "Two nodes: b asks, a asks, b asks again, with anything idle in between; holds whether or not differences decode. Group: every pair meets once, in any order. Assumes exact differences and distinct hashes for the names of the nodes, and counts below 2^64."
  },
  {
   "property": "C62",
   "status": "proved",
   "theorems": [
    "C62_invents_nothing",
    "C62_reports_announced",
    "C62_never_decreases"
   ],
   "note": "The network is the set of all packets ever sent; a fetcher may get any packets with the right names, any number of times, at any time, or nothing. Interests are arbitrary. Assumes that contents fit 2^64 bytes and that either versions (timestamps) do not repeat or every content fits one packet. Holds under hash collisions, decoding coincidences and callbacks that call the API; handlers may end in exceptions."
  },
  {
   "property": "C63",
   "status": "proved",
   "theorems": [
    "C63_quiescence"
   ],
   "note": "The interest is only recorded as pending; holds for equal sequence numbers regardless of how they came about (prefixes at 0 may differ)."
  },
  {
   "property": "C64",
   "status": "partial",
   "theorems": [
    "C64_current_ibf_means_current_numbers_partial",
    "C64_never_ahead_partial",
    "C64_current_numbers_refuted",
    "C64_never_ahead_refuted"
   ],
   "note": "False as stated in two ways: subscribing in the hello callback while a sync interest with the old filter is outstanding, without sending a new one, lets its answer bring an IBF that covers a missed update (C64_current_numbers_refuted); and after the producer removes and re-adds a prefix the consumer is ahead (C64_never_ahead_refuted). Proved for the same network (loss, duplication, delay, any interests from others): without removals and with a new sync interest after subscribing, the consumer is never ahead and, whenever it holds the current IBF, is up to date on all subscriptions. Assumes distinct hashes, exact differences and contents of at most 2^64 bytes that are told apart (distinct versions or one packet)."
  },
  {
   "property": "C65",
   "status": "partial",
   "theorems": [
    "C65_current_once_current_later",
    "C65_lost_only_if_late",
    "C65_hello_repairs",
    "C65_later_updates_arrive_partial",
    "C65_never_ahead_partial",
    "C65_late_subscription_refuted"
   ],
   "note": "False as stated: an update between the hello data and a later subscription can be covered by an IBF that arrived in the meantime, and is then skipped (C65_late_subscription_refuted). Proved: whatever is published after the subscription arrives whenever the consumer holds the current IBF, and the consumer is never ahead. A subscriber that once knew the current number knows it whenever it holds the current IBF later (C65_current_once_current_later); so an update is lost only if it was published before the subscription and nothing was published for the prefix since (C65_lost_only_if_late). Asking again repairs the loss (C65_hello_repairs): hello data that names the current number of a subscribed prefix brings the consumer up to date, and it stays so whenever it holds the current IBF."
  },
  {
   "property": "C66",
   "status": "proved",
   "theorems": [
    "C66_compression_support"
   ],
   "note": ""
  },
  {
   "property": "C67",
   "status": "partial",
   "theorems": [
    "C67_addition_repairs",
    "C67_failed_decode_exactly_when",
    "C67_encoding_after_decode_partial",
    "C67_encoding_after_decode_refuted"
   ],
   "note": "False as stated: a decode that throws half way leaves the cached wire and the content different (C67_encoding_after_decode_refuted). Proved instead: holds for every history in which no decode throws. Exactness: which failed decodes break it (C67_failed_decode_exactly_when), and the next addContent repairs it (C67_addition_repairs)."
  },
  {
   "property": "C68",
   "status": "partial",
   "theorems": [
    "C68_fails_exactly_when",
    "C68_interest_hangs_refuted",
    "C68_honest_interest_handled_partial"
   ],
   "note": "False as stated: for every state of the producer there is an interest on which it loops for ever and one on which it overflows a signed integer (C68_interest_hangs_refuted). Proved instead: interests with a usable filter and an honest IBF are handled. C68_fails_exactly_when: in any state the producer finishes every interest except sync requests whose filter parameters make the table size undefined, whose IBF makes the comparison overflow or never end, or whose filter has no table (rate 1.000) while there is a name to look up."
  },
  {
   "property": "C69",
   "status": "proved",
   "theorems": [
    "C69_hash_is_murmur3",
    "C69_inputs"
   ],
   "note": ""
  },
  {
   "property": "C70",
   "status": "proved",
   "theorems": [
    "C70_one_word_changes_the_hash",
    "C70_numbers_of_one_prefix"
   ],
   "note": ""
  },
  {
   "property": "C71",
   "status": "partial",
   "theorems": [
    "C71_keeps_asking_partial",
    "C71_keeps_asking_refuted"
   ],
   "note": "False as stated: an exception in a handler ends the asking, since the fetch is over and nothing was scheduled (C71_keeps_asking_refuted). Proved: with well-formed contents the consumer is never idle."
  },
  {
   "property": "C72",
   "status": "proved",
   "theorems": [
    "C72_sync_after_hello",
    "C72_sync_before_hello"
   ],
   "note": "Both directions; the reply counts once its fetch completed, also when its content was malformed."
  },
  {
   "property": "C73",
   "status": "proved",
   "theorems": [
    "C73_hello_callback",
    "C73_only_for_hello_replies"
   ],
   "note": "Malformed contents are C43."
  },
  {
   "property": "C74",
   "status": "proved",
   "theorems": [
    "C74_retry",
    "C74_not_before",
    "C74_timeout",
    "C74_fires_once",
    "C74_others_wait"
   ],
   "note": "C74_not_before is for a consumer with nothing else going on; the retry itself (C74_retry, C74_timeout) for every state. Sync retries assume that a hello reply arrived before, as in C72."
  },
  {
   "property": "C75",
   "status": "proved",
   "theorems": [
    "C75_interests_carry_the_last_ibf"
   ],
   "note": "A Nack leaves the IBF alone: C50_nack_leads_to_hello."
  },
  {
   "property": "C76",
   "status": "partial",
   "theorems": [
    "C76_data_answers_interests_partial",
    "C76_data_answers_interests_refuted"
   ],
   "note": "False as stated: the Nack sent for a segment interest that the store cannot answer is named after the sync prefix and the current IBF and never matches that interest, whatever it is (C76_data_answers_interests_refuted holds for every state and every such interest). All other data packets match a received interest."
  },
  {
   "property": "C77",
   "status": "proved",
   "theorems": [
    "C77_asks_again_after_publishing"
   ],
   "note": "The own interest counts as outstanding while the node has put no data for it on the face."
  },
  {
   "property": "C78",
   "status": "proved",
   "theorems": [
    "C78_pause_without_news",
    "C78_nothing_else_happens",
    "C78_pause_ends",
    "C78_asks_again_after_news"
   ],
   "note": "Four theorems: the pause, that nothing else happens, that it ends (C57's assumption of a clock that is not set back), and the next interest after news."
  },
  {
   "property": "C79",
   "status": "partial",
   "theorems": [
    "C79_equal_interest_is_remembered",
    "C79_pending_until_answered_partial",
    "C79_deadline_stays",
    "C79_expires",
    "C79_remembered_for_its_lifetime_refuted",
    "C79_dropped_when_published",
    "C79_dropped_when_entire_state_sent",
    "C79_dropped_when_content_arrives",
    "C79_dropped_when_answered_refuted"
   ],
   "note": "False as stated about the lifetime: an interest that had to wait first is kept for the default 4 s (C79_remembered_for_its_lifetime_refuted); and about the end: an interest that comes again and is answered with a decoded difference stays pending (C79_dropped_when_answered_refuted). Proved: kept for its lifetime if it was equal on arrival; kept until answered, expired or fetched, for names that do not end in a segment number; dropped when a publication answers it, when the entire state is sent for it, when its content arrives (and it does not wait as well) and when it expires."
  },
  {
   "property": "C80",
   "status": "partial",
   "theorems": [
    "C80_news_answer_pending_refuted",
    "C80_own_news_answer_pending_partial"
   ],
   "note": "False for news from peers: content never answers pending interests, in any state with nobody on the waiting list (C80_news_answer_pending_refuted). Proved for the node's own publications."
  },
  {
   "property": "C81",
   "status": "partial",
   "theorems": [
    "C81_reply_matches_partial",
    "C81_publication_matches_partial",
    "C81_other_events_silent",
    "C81_data_answers_interests_partial",
    "C81_reply_matches_refuted"
   ],
   "note": "False as stated: anything below /sync-prefix/hello whose fourth component from the end is 'hello' is answered with the current hello reply under a new version, so a segment asked for again after it left the memory is answered with data that does not satisfy the interest (C81_reply_matches_refuted). Proved for all other interests, step by step and over whole histories."
  },
  {
   "property": "C82",
   "status": "proved",
   "theorems": [
    "C82_waiting_kept",
    "C82_waits_for_its_lifetime",
    "C82_copy_shortens_wait"
   ],
   "note": "C82_copy_shortens_wait shows a consequence: a copy with a shorter lifetime ends the wait earlier than the first interest asked for. What publications do to waiting interests is C37 and C38; entries whose expiration erases the wrong key are C39."
  },
  {
   "property": "C83",
   "status": "proved",
   "theorems": [
    "C83_distinct_hash_functions",
    "C83_salts"
   ],
   "note": "The 129 table-driven cases are decided by kernel computation (salts_sweep), which covers every case the code distinguishes; the random case is by induction over the rejection loop."
  },
  {
   "property": "C84",
   "status": "proved",
   "theorems": [
    "C84_least_table"
   ],
   "note": "SFltb is < on IEEE doubles; its transitivity (SFltb_trans) carries the minimum through the loop. log and pow are those of the C library (parameter L)."
  },
  {
   "property": "C85",
   "status": "proved",
   "theorems": [
    "C85_waiting_means_up_to_date"
   ],
   "note": "Conditions as in C64/C65: no removals, distinct hashes along the history (plain), the consumer subscribes in the hello callback with the reported numbers."
  },
  {
   "property": "C86",
   "status": "proved",
   "theorems": [
    "C86_interest_is_decided",
    "C86_reply_brings_up_to_date"
   ],
   "note": "C86_interest_is_decided: waits (and then is up to date), Nack or data. C86_reply_brings_up_to_date: the data, once fetched, closes the gap."
  },
  {
   "property": "C87",
   "status": "partial",
   "theorems": [
    "C87_unusable_refused_refuted",
    "C87_refused_partial"
   ],
   "note": "Refuted: rate 0.000 passes the check, and the table size is a conversion of minus infinity to unsigned int, in the constructor of Consumer and on arrival of an interest. Proved: exactly which parameters throw; zero counts (also multiples of 2^32 on the wire) are ignored by producers."
  },
  {
   "property": "C88",
   "status": "partial",
   "theorems": [
    "C88_reported_exactly_when",
    "C88_reports_partial",
    "C88_reports_subscribed_partial",
    "C88_reports_refuted"
   ],
   "note": "Refuted: a prefix the Bloom filter contains by false positive is reported, between an honest producer and an honest consumer; so is one unsubscribed while the interest was under way. Proved: every reported prefix was subscribed before the event, is subscribed by a call in it, or is named in the sync reply with the reported number; with replies that only name subscribed prefixes, only subscribed prefixes are reported. Exactly: a sync reply makes the consumer report a prefix, subscribed or not, if and only if all names of the reply end in numbers and one of them gives the prefix its first or a higher number (C88_reported_exactly_when)."
  },
  {
   "property": "C89",
   "status": "partial",
   "theorems": [
    "C89_restart_resumes_partial",
    "C89_restart_resumes_refuted"
   ],
   "note": "Refuted: a node that publishes before it has heard from a peer reuses number 1, and a peer that knows a higher number reports nothing. Proved: a node that has only declared prefixes since its start knows, after one exchange with a peer, exactly the numbers the peer knows, and its next publication gets the next number."
  },
  {
   "property": "C90",
   "status": "partial",
   "theorems": [
    "C90_restart_reported_partial",
    "C90_ignored_until_passed",
    "C90_restart_reported_refuted"
   ],
   "note": "Refuted: the first update of the new life has a number the consumer already knows; the consumer's interest is left waiting and nothing is reported. Proved: as soon as the new number u exceeds the consumer's number v, the consumer's interest is answered and exactly v+1..u is reported; as long as it does not, replies lead to no report."
  },
  {
   "property": "C91",
   "status": "partial",
   "theorems": [
    "C91_partial_streams_partial",
    "C91_full_streams_partial",
    "C91_full_streams_increase",
    "C91_streams_refuted",
    "C91_full_streams_refuted",
    "C91_producer_update_ends",
    "C91_full_update_ends"
   ],
   "note": "Refuted: with maximum 0 one update is published, a negative maximum means 2^64 minus its size, and in the full-sync application the numbers of a stream jump when another node announces its prefix. Proved: the partial-sync application, and the full-sync application for streams no other node announces, log exactly 1..k with k at most max(1, maximum), and have one further update scheduled exactly as long as k is below; in all cases numbers are never repeated and updates go on exactly until the maximum is reached. Both update loops end and never throw: the sequence number of the published prefix is always known."
  },
  {
   "property": "C92",
   "status": "partial",
   "theorems": [
    "C92_callback_returns_partial",
    "C92_callback_returns_refuted",
    "C92_returns_exactly_when"
   ],
   "note": "Refuted: a range that ends at 2^64-1 is logged forever, and the example consumer reports such a range to itself when it subscribes at that number. Proved for all other ranges. Exactness: the callback returns exactly if no range ends at 2^64-1 (C92_returns_exactly_when)."
  },
  {
   "property": "C93",
   "status": "partial",
   "theorems": [
    "C93_calls_partial",
    "C93_calls_refuted",
    "C93_first_hello_partial",
    "C93_first_hello_refuted"
   ],
   "note": "Refuted: with fewer announced prefixes than requested the callback reads beyond the end of the vector (undefined behaviour), and when hello data arrives again after a nack it subscribes to more. Proved for the first hello data when enough prefixes are announced."
  },
  {
   "property": "C94",
   "status": "proved",
   "theorems": [
    "C94_full_lists_current",
    "C94_producer_answers_are_recent",
    "C94_full_answers_are_recent"
   ],
   "note": "Age and content, for partial producers and for full-sync nodes (C94_full_lists_current: every name was the current number of its prefix when the packet was made, or was announced by a publishName call of that very event). The erase timers that are due before the event must have run; without that a late timer would keep an old answer."
  },
  {
   "property": "C95",
   "status": "proved",
   "theorems": [
    "C95_incoming_face"
   ],
   "note": "Any number of segments may precede; nothing is assumed about the events in between except that none is a segment of the same fetch."
  },
  {
   "property": "C96",
   "status": "proved",
   "theorems": [
    "C96_producer_calls_do_not_throw",
    "C96_full_calls_do_not_throw",
    "C96_consumer_calls_do_not_throw"
   ],
   "note": "Interests and received content can throw (C41, C42, C43). sendSyncInterest before any hello data is an assertion failure, not an exception (C72)."
  },
  {
   "property": "C97",
   "status": "proved",
   "theorems": [
    "C97_producer_only_calls_change_numbers",
    "C97_full_only_calls_and_data_change_numbers",
    "C97_full_interests_and_timers_change_nothing",
    "C97_consumer_only_calls_and_data_change_numbers"
   ],
   "note": "Without the assumptions on URIs and collisions, a prefix the node does not know may be entered with number 0; its numbers, IBF and count still do not change."
  },
  {
   "property": "C98",
   "status": "proved",
   "theorems": [
    "C98_interest_of_peer_ahead_waits",
    "C98_waiting_interest_is_answered"
   ],
   "note": "The answer is proved for names that do not end in a segment number, which is what nodes send, under the usual assumptions on URIs and hash collisions."
  },
  {
   "property": "C99",
   "status": "partial",
   "theorems": [
    "C99_producer_sends_one_per_interest",
    "C99_producer_one_event",
    "C99_full_node_sends_one_per_interest_refuted",
    "C99_full_node_sends_one_per_interest_partial",
    "C99_full_node_one_event",
    "C99_full_node_content",
    "C99_full_node_bounded"
   ],
   "note": "False for full-sync nodes over a whole run: an interest can be pending and waiting at once, and then a publication answers it and the timer answers it again from the store (C99_full_node_sends_one_per_interest_refuted). Proved for partial-sync producers, for every single event of a full-sync node whose update callback calls nothing, and for whole runs in which no interest is both pending and waiting. Properties_Owed.v: C99_full_node_content bounds what received content makes a node send (pending + waiting, whatever the callback does), and C99_full_node_bounded bounds the amplification without any hypothesis on the run: at most 65535 packets per received interest."
  },
  {
   "property": "C100",
   "status": "partial",
   "theorems": [
    "C100_full_node_partial",
    "C100_full_node_late_answer_refuted",
    "C100_producer_refuted",
    "C100_producer_partial",
    "C100_consumer_refuted",
    "C100_consumer_partial"
   ],
   "note": "False of the code. The two interest filters of a partial-sync producer are never removed, so the first hello or sync interest after its destruction calls it (C100_producer_refuted); consumers have no destructor, so a fetch under way calls a destroyed consumer (C100_consumer_refuted); a full-sync node destroyed before the forwarder answered is called if the face handles the late answer (C100_full_node_late_answer_refuted). Proved for full-sync nodes destroyed after the answer, for producers while no hello or sync interest arrives, and for consumers on which stop() was called."
  },
  {
   "property": "C101",
   "status": "proved",
   "theorems": [
    "C101_producer_silent_until_accepted",
    "C101_producer_serves_once_accepted",
    "C101_full_node_no_data_until_accepted",
    "C101_full_node_serves_once_accepted",
    "C101_producer_refusal",
    "C101_full_node_refusal"
   ],
   "note": "For both producer classes; data sent, since a full-sync node sends its own sync interests whether registered or not. Full-sync: the two size schemes of the filter agree (schemes_ok), as elsewhere."
  },
  {
   "property": "C102",
   "status": "proved",
   "theorems": [
    "C102_asks_regularly",
    "C102_every_delay_occurs"
   ],
   "note": "Timers that fire late move the interest by their delay (prompt excludes it); the schemes are compiled in (schemes_ok), as elsewhere. The interest uses the data of the moment: asks over the operations shown so far."
  },
  {
   "property": "C103",
   "status": "proved",
   "theorems": [
    "C103_old_news_are_told",
    "C103_old_news_arrive",
    "C103_young_news_missing"
   ],
   "note": "C103_young_news_missing shows that the age condition is needed. Assumed: no two names in play share a hash, the difference decodes (comparable), the versions of publications differ (they are timestamps), erase timers ran when due, schemes lossless and compiled in."
  },
  {
   "property": "C104",
   "status": "proved",
   "theorems": [
    "C104_news_arrive_in_time"
   ],
   "note": "The link is the relation joint (SpecDeliver): zero delay, no loss, erase timers run when due, no handler throws. Lost interests and failed fetches are outside the relation; C102 says that the node asks again after them."
  },
  {
   "property": "C105",
   "status": "proved",
   "theorems": [
    "C105_consumer_interests",
    "C105_producer_data",
    "C105_node_data",
    "C105_node_interests"
   ],
   "note": "What the IBF, filter and count components contain is the subject of C34 and C75 (partial sync) and C52 and C59 (full sync)."
  },
  {
   "property": "C106",
   "status": "proved",
   "theorems": [
    "C106_news_cross_the_network"
   ],
   "note": "One millisecond per link is added because the bound of C104 is strict. A node that has several ideal links towards it is outside the model of a link (only one answer reaches the fetcher)."
  },
  {
   "property": "C107",
   "status": "proved",
   "theorems": [
    "C107_node_interests",
    "C107_node_interests_plain",
    "C107_large_tables",
    "C107_node_data",
    "C107_producer_data",
    "C107_consumer_interests"
   ],
   "note": "The size of a name is the number of bytes of its components; the other fields of an Interest or Data packet, and the signature, belong to ndn-cxx and are not counted."
  },
  {
   "property": "C108",
   "status": "proved",
   "theorems": [
    "C108_interests_bounded",
    "C108_interests_bounded_apart",
    "C108_interests_have_causes",
    "C108_interests_of_a_stretch"
   ],
   "note": "C108_bound_is_met shows that the bound in terms of time is sharp. That the number of data packets is in turn bounded by the interests received is C99, with the exception shown there. C108_interests_bounded puts the two together: a bound in terms of what the node receives and of time alone, for every run; C108_interests_bounded_apart has the constant 2 for runs in which no interest is both pending and waiting."
  },
  {
   "property": "C109",
   "status": "proved",
   "theorems": [
    "C109_producer_ignores",
    "C109_hello_ignores",
    "C109_node_ignores"
   ],
   "note": "Filter parameters for which computing the size is undefined behaviour are excluded (C20, C87)."
  },
  {
   "property": "C110",
   "status": "partial",
   "theorems": [
    "C110_node_reports",
    "C110_node_goes_on",
    "C110_node_still_retries",
    "C110_consumer_goes_on_refuted",
    "C110_consumer_reports_refuted",
    "C110_consumer_resumes_partial",
    "C110_consumer_hello_partial"
   ],
   "note": "Full sync: proved (C110_node_reports, C110_node_goes_on, C110_node_still_retries). Consumers: refuted twice. A consumer whose update callback throws on sync data falls silent until the application calls again (consumer.cpp 281-285: the next interest is sent after the callback); one whose hello callback throws passes over numbers of subscribed prefixes without a report (consumer.cpp 184-189). C110_consumer_resumes_partial: a call of sendSyncInterest brings the consumer exactly to where it would be. C110_consumer_hello_partial: an update callback that throws on hello data changes nothing."
  },
  {
   "property": "C111",
   "status": "partial",
   "theorems": [
    "C111_producer_number",
    "C111_producer_forgets",
    "C111_node_forgets_partial",
    "C111_node_number_partial",
    "C111_node_forgets_refuted"
   ],
   "note": "Partial producers: proved (C111_producer_number, C111_producer_forgets). Full sync: refuted: received sync data that still names the prefix adds it again (full-producer.cpp onSyncData has no memory of removals), and the node announces it from then on. C111_node_forgets_partial and C111_node_number_partial: it holds as long as no received data names the prefix and the application does not publish it; a pending interest, a packet in memory or adding it again does not bring it back."
  },
  {
   "property": "C112",
   "status": "partial",
   "theorems": [
    "C112_waiting_is_recent",
    "C112_pending_is_recent",
    "C112_waiting_bounded",
    "C112_pending_bounded",
    "C112_producer_bounded_partial",
    "C112_producer_bounded_refuted",
    "C112_producer_grows_refuted"
   ],
   "note": "Full sync: proved for histories in which the waiting timer fires when it is due (punctual) and the due expirations have run (none_overdue). Partial sync: refuted (C112_producer_bounded_refuted): an interest with a version component is stored under the shorter name and its expiration erases the longer one (see C39), so it is held for ever; C112_producer_bounded_partial: with no such interest the bound holds. C112_producer_grows_refuted: on every producer for at least four entries such interests pile up without bound (any number up to 2^32, with one key in their IBF each)."
  },
  {
   "property": "C113",
   "status": "partial",
   "theorems": [
    "C113_fails_exactly_when",
    "C113_interest_hangs_refuted",
    "C113_honest_interest_handled_partial"
   ],
   "note": "Refuted as C68 is: for every state of the node there is an interest on which it loops for ever and one on which it overflows a signed integer (C113_interest_hangs_refuted). C113_fails_exactly_when: in any state it finishes every interest except those whose count is no number (it throws, C42) and those whose IBF makes the comparison itself overflow or never end. C113_honest_interest_handled_partial: an interest with the IBF of some set of names is handled."
  },
  {
   "property": "C114",
   "status": "partial",
   "theorems": [
    "C114_settles_after_sync_data_partial",
    "C114_settles_after_hello_data_partial",
    "C114_nack_leads_to_hello_data",
    "C114_one_round_trip_partial",
    "C114_endless_rounds_refuted"
   ],
   "note": "Refuted for a producer constructed for fewer than two entries: the difference it regards as large is then the empty one, so a consumer that is up to date is answered at once, again and again (C114_endless_rounds_refuted: any number of rounds without any publication). From size 2 on: C114_settles_after_sync_data_partial, C114_settles_after_hello_data_partial, and no second exchange of sync data (C114_one_round_trip_partial). C114_nack_leads_to_hello_data has no such condition. As in C64, hashes are assumed to differ and differences to be exact."
  },
  {
   "property": "C115",
   "status": "partial",
   "theorems": [
    "C115_update_is_sent_partial",
    "C115_update_arrives",
    "C115_forgotten_gets_nack",
    "C115_update_is_sent_refuted"
   ],
   "note": "C115_update_is_sent_partial (answered at once or undecodable), C115_update_arrives, C115_forgotten_gets_nack; C115_update_is_sent_refuted shows an update that is not sent although everything else is in order."
  },
  {
   "property": "C116",
   "status": "partial",
   "theorems": [
    "C116_kept_filters_are_own",
    "C116_calls_finish",
    "C116_publish_fails_exactly_when",
    "C116_publish_finishes_partial",
    "C116_stored_filter_refuted",
    "C116_waiting_list_refuted"
   ],
   "note": "C116_kept_filters_are_own, C116_calls_finish (full sync), C116_publish_fails_exactly_when and C116_publish_finishes_partial (partial sync); C116_stored_filter_refuted and C116_waiting_list_refuted show the failures."
  },
  {
   "property": "C117",
   "status": "proved",
   "theorems": [
    "C117_number_is_the_largest",
    "C117_order_is_irrelevant",
    "C117_same_filter",
    "C117_consumer_number_is_the_largest",
    "C117_consumer_order_is_irrelevant"
   ],
   "note": "C117_number_is_the_largest, C117_order_is_irrelevant and C117_same_filter (full sync), C117_consumer_number_is_the_largest and C117_consumer_order_is_irrelevant (consumers)."
  },
  {
   "property": "C118",
   "status": "proved",
   "theorems": [
    "C118_few_bits_are_set",
    "C118_matches_everything_only_if_full",
    "C118_room_left"
   ],
   "note": "Closed under the global context. Uses that the hash, as a function of the last aligned word, is injective on 32-bit words and therefore onto."
  },
  {
   "property": "C119",
   "status": "proved",
   "theorems": [
    "C119_printed_ibf",
    "C119_collisions_are_visible",
    "C119_printed_filter",
    "C119_printed_content"
   ],
   "note": "Closed under the global context. How ndn::Name prints itself is a parameter; its three assumed properties are premises of C119_printed_content and shown for a concrete printer."
  },
  {
   "property": "C120",
   "status": "proved",
   "theorems": [
    "C120_producers_answer_alike",
    "C120_producers_publish_alike",
    "C120_nodes_answer_alike",
    "C120_nodes_that_keep_answer_alike",
    "C120_nodes_publish_alike"
   ],
   "note": "Closed under the global context. C120_count_matters shows two nodes with the same numbers and different counts that answer differently."
  },
  {
   "property": "C121",
   "status": "proved",
   "theorems": [
    "C121_producer_names_bound",
    "C121_node_names_bound"
   ],
   "note": "Closed under the global context. C121_versions_matter shows a node whose clock is set back using the same name for two contents. C121_two_nodes shows two nodes that use one name for two contents, having answered the same interest in the same millisecond."
  },
  {
   "property": "C122",
   "status": "partial",
   "theorems": [
    "C122_producer_old_exactly",
    "C122_node_old_exactly",
    "C122_settings",
    "C122_defaults",
    "C122_producer_partial",
    "C122_node_partial",
    "C122_consumer",
    "C122_producer_refuted",
    "C122_node_refuted"
   ],
   "note": "C122_settings and C122_defaults: the options reach the object under their names, and the values left out. C122_producer_partial, C122_node_partial, C122_consumer: the deprecated constructors equal the new ones (and addUserNode) for counts below 2^32. C122_producer_refuted, C122_node_refuted: a size_t count is cut to 32 bits without notice; a multiple of 2^32 leaves a table without cells and the first publishName divides by zero. Exactly, for every count: the old constructors behave as the new ones with the count modulo 2^32 (C122_producer_old_exactly, C122_node_old_exactly)."
  },
  {
   "property": "C123",
   "status": "proved",
   "theorems": [
    "C123_answers_are_current",
    "C123_one_exchange_settles",
    "C123_interest_is_decided",
    "C123_waiting_is_needed"
   ],
   "note": "C123_answers_are_current: the producer alone. C123_one_exchange_settles: both parties, without the assumption of C86 and C114 that nothing is in memory. C123_interest_is_decided: what becomes of a sync interest, including the way over a Nack. C123_waiting_is_needed: within the freshness period any number of rounds of sync interest, Nack, hello interest and old hello data from memory can follow each other."
  },
  {
   "property": "C124",
   "status": "proved",
   "theorems": [
    "C124_exchange_tells",
    "C124_news_arrive_in_time",
    "C124_freshness_counts"
   ],
   "note": "C124_exchange_tells: one exchange. C124_news_arrive_in_time: all executions; since the consumer replaces a sync interest that times out at once (C74), T is the lifetime of sync interests when nothing is lost. C124_freshness_counts: within the freshness period a complete exchange, answered from memory, may tell nothing."
  },
  {
   "property": "C125",
   "status": "proved",
   "theorems": [
    "C125_reported_exactly_once",
    "C125_reported_in_time"
   ],
   "note": "C125_reported_exactly_once: all executions (the reports that are lost when malformed data throws, C44, cannot occur with this producer). C125_reported_in_time: together with C124."
  },
  {
   "property": "C126",
   "status": "proved",
   "theorems": [
    "C126_learned_exactly_once",
    "C126_data_never_throws"
   ],
   "note": "C126_learned_exactly_once, C126_data_never_throws: all executions. For one node among arbitrary peers see C44 and C45, where malformed data makes a handler throw after it took over numbers. Ranges may be empty (C46)."
  },
  {
   "property": "C127",
   "status": "proved",
   "theorems": [
    "C127_interests_have_causes",
    "C127_without_nacks",
    "C127_interests_of_a_stretch",
    "C127_bound_is_met"
   ],
   "note": "C127_interests_have_causes, C127_without_nacks, C127_interests_of_a_stretch: all histories, contents that make handlers throw included. C127_bound_is_met: the bound is attained, and each segment of a Nack does cause one hello interest."
  },
  {
   "property": "C128",
   "status": "proved",
   "theorems": [
    "C128_learned_once_and_in_time",
    "C128_told_once_and_in_time"
   ],
   "note": "C128_learned_once_and_in_time and C128_told_once_and_in_time combine C106 (time) with the walk over observations of C126. Assumptions as in C106: ideal links, no removal, prompt timers, comparable data."
  },
  {
   "property": "C129",
   "status": "proved",
   "theorems": [
    "C129_waiting_peer_is_answered",
    "C129_publication_arrives",
    "C129_everything_arrives",
    "C129_peer_is_told"
   ],
   "note": "answered, the published number arrives, everything arrives when the difference is decoded, the application is told exactly once"
  },
  {
   "property": "C130",
   "status": "partial",
   "theorems": [
    "C130_hello_reply_partial",
    "C130_stop_then_destroy_partial",
    "C130_no_callback_no_effect",
    "C130_hello_callback_refuted",
    "C130_update_callback_refuted",
    "C130_node_callback_refuted",
    "C130_node_no_callback_no_effect"
   ],
   "note": "False of the code: after the update callback of a sync reply a consumer goes on to send its next interest (C130_update_callback_refuted), after the hello callback it calls the update callback if there is news (C130_hello_callback_refuted), and a full-sync node schedules its next interest (C130_node_callback_refuted). Proved: destruction is harmless in the update callback of a hello reply and in the hello callback of a reply without news, and if the application calls stop() first nothing calls the consumer later; a callback that is not made changes nothing."
  },
  {
   "property": "C131",
   "status": "proved",
   "theorems": [
    "C131_segments_stay",
    "C131_producer_replies_stay",
    "C131_node_replies_stay"
   ],
   "note": "The counterpart of C94 (nothing is sent after its freshness period): nothing is lost before it. C131_segments_stay is about the publisher with any capacity and counts per segment; the other two are about the objects. C26 shows that the bound on the packets is needed."
  },
  {
   "property": "C132",
   "status": "proved",
   "theorems": [
    "C132_producer_snapshot",
    "C132_node_snapshot"
   ],
   "note": "This discharges, for a fetch that finishes in time, the assumption of the model that a segment fetch delivers the content of one publication."
  },
  {
   "property": "C133",
   "status": "proved",
   "theorems": [
    "C133_producer_answers_first",
    "C133_node_answers_first",
    "C133_hello_in_order",
    "C133_producer_replies_in_order",
    "C133_node_replies_in_order"
   ],
   "note": "The order is stated in SpecCanon.v without the comparison functions of the model. C133_memory_example shows an older hello reply being served although a newer one is in memory."
  }
 ]
}