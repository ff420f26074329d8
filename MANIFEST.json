{
 "claims": [
  {
   "property": "C01",
   "status": "proved",
   "theorems": [
    "C01_header_roundtrip",
    "C01_wire_layout",
    "C01_bytes_roundtrip",
    "C01_short_fails"
   ],
   "note": "Also fixes the wire position and byte order of every field."
  },
  {
   "property": "C02",
   "status": "proved",
   "theorems": [
    "C02_request_roundtrip",
    "C02_codec_exists"
   ],
   "note": "The protobuf codec is a parameter: any pair with parse (ser h) = Some h whose attachment-size field can be set and read (C02_codec_exists shows such pairs exist)."
  },
  {
   "property": "C03",
   "status": "proved",
   "theorems": [
    "C03_response_roundtrip"
   ],
   "note": "As C02, for the response encoder and decoder, which is laxer than the request decoder."
  },
  {
   "property": "C04",
   "status": "partial",
   "theorems": [
    "C04_encoded_accepted_partial",
    "C04_exact",
    "C04_response_sizes",
    "C04_large_header_refuted"
   ],
   "note": "False as stated: the encoder does not check sizes and C04_large_header_refuted shows a successful encode whose frame decodes to a different message. C04_exact says exactly which requests arrive: those whose header fits 16 bits and whose frame fits 32 bits and the limit of the receiver. C04_response_sizes: no response with a longer header decodes to what was sent."
  },
  {
   "property": "C05",
   "status": "proved",
   "theorems": [
    "C05_chunk_independent",
    "C05_malformed_chunking_refuted"
   ],
   "note": "For frames within the configured maximum; buffers stay below 4 GiB. With malformed bytes behind a good frame the outcome depends on chunking (C05_malformed_chunking_refuted)."
  },
  {
   "property": "C06",
   "status": "proved",
   "theorems": [
    "C06_check_conserves",
    "C06_bad_head_rejected",
    "C06_checked_frame_decodable",
    "C06_huge_buffer_refuted",
    "C06_metadata_from_header",
    "C06_decode_unchecked_refuted"
   ],
   "note": "Need-more is exact for buffers below 4 GiB; at 4 GiB the 32-bit truncation stalls the connection (C06_huge_buffer_refuted). C06_decode_unchecked_refuted: decoding bytes that did not pass the check is undefined behaviour."
  },
  {
   "property": "C07",
   "status": "proved",
   "theorems": [
    "C07_meta_roundtrip",
    "C07_data_roundtrip",
    "C07_encode_wrong_types_refused",
    "C07_meta_decode_total",
    "C07_types_distinct"
   ],
   "note": "DATA decode does not check its types, as the property says; decoding of the other three is defined on all inputs."
  },
  {
   "property": "C08",
   "status": "proved",
   "theorems": [
    "C08_buffer_is_byte_string",
    "C08_layouts_reachable",
    "C08_past_end_undefined",
    "C08_move_assign_empty_block_refuted"
   ],
   "note": "Refinement of every operation sequence to byte strings. Appending an empty block is outside the specification: C08_move_assign_empty_block_refuted shows it can abort the process. C08_past_end_undefined shows the stated precondition is necessary."
  },
  {
   "property": "C09",
   "status": "proved",
   "theorems": [
    "C09_builder_exact",
    "C09_create_slow_exact",
    "C09_reuse_after_get_refuted"
   ],
   "note": "For every block size > 0. Use after DestructiveGet is refuted (null dereference)."
  },
  {
   "property": "C10",
   "status": "proved",
   "theorems": [
    "C10_find_first",
    "C10_find_empty_block_refuted",
    "C10_pattern_underread_refuted"
   ],
   "note": "Proved for every layout without empty blocks and for any value of the byte before the pattern; with an empty block in the middle the claim is refuted (out-of-range read), and the preprocessing reads pattern[-1] (refuted memory safety)."
  },
  {
   "property": "C11",
   "status": "proved",
   "theorems": [
    "C11_flatten_exact",
    "C11_flatten_until"
   ],
   "note": "Layouts without empty blocks."
  },
  {
   "property": "C12",
   "status": "proved",
   "theorems": [
    "C12_input_stream_exact",
    "C12_input_stream_read_all",
    "C12_output_stream_exact",
    "C12_output_stream_write_string",
    "C12_empty_block_stalls_refuted",
    "C12_byte_count_refuted"
   ],
   "note": "Layouts without empty blocks; findings: an empty front block makes Next return zero-length chunks for ever; OutputStream::ByteCount ignores the pending area."
  },
  {
   "property": "C13",
   "status": "proved",
   "theorems": [
    "C13_reply_is_read_back",
    "C13_pipelined_replies_are_read_back",
    "C13_blocks_do_not_matter",
    "C13_chunks_give_all_replies",
    "C13_any_depth_refuted"
   ],
   "note": "Reader::GetReply modelled over lists of blocks; arrays up to 8 levels (7 inside a pipeline). Finding: the ninth level is a protocol error."
  },
  {
   "property": "C14",
   "status": "proved",
   "theorems": [
    "C14_truncated_reply_is_incomplete",
    "C14_truncated_pipeline_is_incomplete",
    "C14_verdict_is_final",
    "C14_checker_keeps_the_incomplete_reply",
    "C14_checker_reads_merged_replies",
    "C14_reader_is_safe",
    "C14_no_overflow_refuted",
    "C14_malformed_is_rejected_refuted"
   ],
   "note": "Strict prefixes are incomplete, verdicts are stable under more data, the reader terminates and is undefined only with 19 digits in a row. Findings: signed overflow for integers beyond 64 bits and for the smallest one; the CRLF behind a bulk string is not checked; a malformed integer reads as -1."
  },
  {
   "property": "C15",
   "status": "proved",
   "theorems": [
    "C15_command_is_resp",
    "C15_command_decodes_to_its_arguments",
    "C15_commands_are_a_prefix_code",
    "C15_format_gives_the_words",
    "C15_format_stays_in_bounds_refuted",
    "C15_long_conversion_refuted",
    "C15_raw_request_refuted"
   ],
   "note": "EncodeImpl and FormatCommand (printf itself is a parameter). Findings: a format ending within a conversion runs past the terminator; conversions of 14 or more characters are dropped; a raw request without parameters is undefined."
  },
  {
   "property": "C16",
   "status": "proved",
   "theorems": [
    "C16_round_trip",
    "C16_path_round_trip",
    "C16_encode_exact",
    "C16_decode_any",
    "C16_url_decode_in_bounds",
    "C16_url_decode_forms",
    "C16_url_decode_accepts_garbage_refuted",
    "C16_normalize_url"
   ],
   "note": "PercentEncode/PercentEncodePath/PercentDecode/UrlDecode/NormalizeUrl with bounds-checked reads and writes. Finding: UrlDecode accepts %zz."
  },
  {
   "property": "C17",
   "status": "proved",
   "theorems": [
    "C17_round_trip",
    "C17_length",
    "C17_decode_any",
    "C17_decode_high_byte_refuted"
   ],
   "note": "Round trip, length and exact decoding for 7-bit strings. Finding: a character >= 0x80 indexes before the decode table (undefined behaviour), so decoding is not total."
  },
  {
   "property": "C18",
   "status": "proved",
   "theorems": [
    "C18_headers_are_a_multimap",
    "C18_query_parameters_are_a_multimap",
    "C18_set_if_not_present_ignores_case_refuted",
    "C18_comparison_cycle_refuted",
    "C18_pseudo_prefix_refuted",
    "C18_nul_refuted",
    "C18_empty_name_refuted"
   ],
   "note": "FieldMap for headers (case-insensitive) and query parameters (case-sensitive), all calls, std::multimap as a sorted list. Findings: the comparison is not an order with pseudo headers (cycle, prefixes equal), NUL and empty names; SetIfNotPresent ignores case in the case-sensitive map."
  },
  {
   "property": "C19",
   "status": "proved",
   "theorems": [
    "C19_request_is_dispatched",
    "C19_dispatch_is_deterministic",
    "C19_segments_are_bound_uniquely",
    "C19_placeholder_pattern_is_read",
    "C19_plain_path_is_itself",
    "C19_regex_is_searched",
    "C19_remainder_rule",
    "C19_dot_matches_anything_refuted",
    "C19_empty_rule_matches_one_character_refuted"
   ],
   "note": "Routes, MatchRule and all matchers. std::regex is not modelled: placeholder patterns are modelled for literals, dots and <name>; a <regex...> is an arbitrary function of the URL. Bindings are determined when every placeholder ends at a slash. Findings: a dot in a placeholder pattern matches any character; a rule without matchers takes every one-character path."
  },
  {
   "property": "C20",
   "status": "proved",
   "theorems": [
    "C20_parse_uint_exact",
    "C20_content_length_accepts",
    "C20_content_length_range",
    "C20_content_length_exact",
    "C20_content_length_overflow_refuted",
    "C20_content_length_sign_refuted"
   ],
   "note": "ParseUint exactly. ParseContentLength accepts all in-range numbers; findings: it saturates on overflow and accepts spaces and signs. strtoll is modelled from the C standard."
  },
  {
   "property": "C21",
   "status": "proved",
   "theorems": [
    "C21_set_cookie_exact",
    "C21_lax_refuted",
    "C21_lax_always_wrong_refuted"
   ],
   "note": "Exact Set-Cookie text unless SameSite is Lax. Finding: Lax falls through and emits Strict too. The HTTP date formatting is a parameter."
  },
  {
   "property": "C22",
   "status": "proved",
   "theorems": [
    "C22_every_window_proportional",
    "C22_never_ahead",
    "C22_zero_weight_never_chosen",
    "C22_update_takes_effect",
    "C22_concurrent_next_refuted",
    "C22_huge_weight_refuted"
   ],
   "note": "For n*W < 2^31 (so that no signed int overflows) and calls that do not overlap. Findings: Next mutates shared weights under a shared lock (concurrent calls lose updates); a weight of 2^31 overflows."
  },
  {
   "property": "C23",
   "status": "partial",
   "theorems": [
    "C23_round_is_a_permutation_partial",
    "C23_exact",
    "C23_kth_selection",
    "C23_selection_from_latest",
    "C23_counter_wrap_refuted",
    "C23_stale_record_refuted"
   ],
   "note": "False as stated at the wrap of the counter (C23_counter_wrap_refuted). C23_exact: a round over different endpoints is a permutation exactly when the counter does not wrap in it or n divides 2^32. Membership holds for host, port, status; weights and meta may be stale (refuted)."
  },
  {
   "property": "C24",
   "status": "proved",
   "theorems": [
    "C24_selects_clockwise_first",
    "C24_selection_from_latest",
    "C24_answers_move_only_when_they_must",
    "C24_key_collision_refuted",
    "C24_node_collision_refuted",
    "C24_stale_record_refuted"
   ],
   "note": "For every hash function separating the virtual nodes of the addresses in the history. Without it the claim is refuted: keys are concatenated without separator (two addresses share a key for every hash function; node 11 of port 80 is node 1 of port 801). Status changes do not reach the ring (refuted)."
  },
  {
   "property": "C25",
   "status": "proved",
   "theorems": [
    "C25_bounded_in_every_interval",
    "C25_idle_refills",
    "C25_young_clock_refuted",
    "C25_zero_burst_refuted",
    "C25_rate_rounding_refuted"
   ],
   "note": "The mutex serialises callers, so histories are sequences of (time) calls. Findings: clock below burst*interval at start-up stops admissions for good; burst 0 admits; rates not dividing 10^9 are exceeded."
  },
  {
   "property": "C26",
   "status": "proved",
   "theorems": [
    "C26_exact_per_second",
    "C26_exact_for_every_interleaving",
    "C26_some_caller_can_move",
    "C26_stalled_caller_refuted",
    "C26_clock_back_refuted"
   ],
   "note": "Sequential histories and every sequentially consistent interleaving of the callers of one bucket. Findings: caller stalled for a whole window; clock going back."
  },
  {
   "property": "C27",
   "status": "proved",
   "theorems": [
    "C27_exact_without_overlap",
    "C27_window_bounded",
    "C27_both_rejected_refuted",
    "C27_tick_overlap_refuted"
   ],
   "note": "Sequential histories exactly; every sequentially consistent interleaving between ticks for the bound. Findings: two overlapping callers both rejected; caller overlapping a tick exceeds the limit."
  },
  {
   "property": "C28",
   "status": "proved",
   "theorems": [
    "C28_budget_range",
    "C28_budget_accounting",
    "C28_failures_keep_hedging_off",
    "C28_successes_restore_hedging",
    "C28_never_above_maximum",
    "C28_late_store_refuted"
   ],
   "note": "Sequential histories; concurrent upper bound for every interleaving of any number of threads. Finding: a delayed store(0) wipes out tokens earned later."
  },
  {
   "property": "C29",
   "status": "proved",
   "theorems": [
    "C29_post_mirrors_pre",
    "C29_reused_context_refuted",
    "C29_duplicate_name_refuted"
   ],
   "note": "Server side modelled, client side is the same code. Filters list each point at most once and both points of a pair (CheckMatchPoints). Findings: reused context; duplicate names."
  },
  {
   "property": "C30",
   "status": "proved",
   "theorems": [
    "C30_is_a_bounded_deque",
    "C30_huge_capacity_refuted",
    "C30_zero_capacity_refuted"
   ],
   "note": "All calls on two queues with swaps, any item type, capacity 1..2^31. Findings: capacity above 2^31; ElimPush with capacity 0."
  },
  {
   "property": "C31",
   "status": "proved",
   "theorems": [
    "C31_correct",
    "C31_quiet",
    "C31_order",
    "C31_full",
    "C31_empty",
    "C31_returns",
    "C31_progress",
    "C31_push_alone",
    "C31_pop_alone",
    "C31_mpsc_false",
    "C31_mpsc_behind_refuted",
    "C31_capacity",
    "C31_capacity_refuted",
    "C31_capacity_one_refuted"
   ],
   "note": "Sequentially consistent interleavings of any number of threads, capacity 2^k with k>=1, positions as unbounded integers (first 2^63 pushes). Findings: Init(0) gives capacity 1, where a second push overwrites the first (C31_capacity_one_refuted); a size above 2^63 makes RoundUpPowerOf2 loop for ever; a pop of the MPSC queue returns false though a completely pushed item waits behind an unfinished one."
  },
  {
   "property": "C32",
   "status": "proved",
   "theorems": [
    "C32_deque",
    "C32_exactly_once",
    "C32_quiescent",
    "C32_pop_null",
    "C32_steal_null",
    "C32_steal_lost",
    "C32_progress",
    "C32_push_alone",
    "C32_pop_alone",
    "C32_steal_alone",
    "C32_bounded_fresh_refuted",
    "C32_bounded_stuck_refuted",
    "C32_bounded_stuck_reached",
    "C32_bounded_twice_refuted"
   ],
   "note": "Unbounded deque: proved for every interleaving (sequentially consistent, positions unbounded). The claim is false for BoundedSPMCQueue; it is proved there as long as no Dequeue starts with bottom_ = 0 and none loses the race for the last item, and refuted without: a Dequeue on a new deque makes every Enqueue fail, a lost race makes the deque refuse items for ever, and a lost race for the first item returns it twice."
  },
  {
   "property": "C33",
   "status": "proved",
   "theorems": [
    "C33_rounds_up",
    "C33_hangs_above_2_63_refuted",
    "C33_one_refuted"
   ],
   "note": "All n up to 2^63. Findings: endless loop above 2^63; 1 becomes 2."
  },
  {
   "property": "C34",
   "status": "proved",
   "theorems": [
    "C34_fires_once_and_on_time",
    "C34_far_future_fires_at_once_refuted",
    "C34_push_from_handler_is_late_refuted"
   ],
   "note": "Whole timeout queue (hash map + five-level wheel) refined to a set of due times for all call sequences with pushes within +-2^31 ms. Findings: >= 2^31 ms ahead fires at once; a push from inside a handler for a past time is delayed 1024 ticks. Handlers other than GetAndPop are modelled only for that finding."
  },
  {
   "property": "C35",
   "status": "proved",
   "theorems": [
    "C35_once",
    "C35_delivered",
    "C35_ends",
    "C35_one_result",
    "C35_broken"
   ],
   "note": "One resolving and one attaching thread, any script of SetValue/SetException calls on the promise, sequentially consistent memory; scheduling of the callback is its hand-over to the executor."
  },
  {
   "property": "C36",
   "status": "proved",
   "theorems": [
    "C36_all",
    "C36_any",
    "C36_success",
    "C36_failure",
    "C36_once",
    "C36_progress",
    "C36_empty"
   ],
   "note": "Up to 2^32-1 inputs (the counters are uint32_t). Finding: with no inputs WhenAny and WhenAnyWithoutException succeed with index 0 and a default value (C36_empty)."
  },
  {
   "property": "C37",
   "status": "proved",
   "theorems": [
    "C37_fifo",
    "C37_leftover",
    "C37_broke",
    "C37_stuck_refuted",
    "C37_broke_nested_refuted",
    "C37_broken_wait_refuted"
   ],
   "note": "Units are conserved as a size_t (mod 2^64). Findings: a unit signalled from a callback while other promises are still to be set is not handed on (C37_stuck_refuted; C37_leftover says exactly when); Broke called from a callback of Broke is undefined behaviour; Wait(0) succeeds on a broken semaphore."
  },
  {
   "property": "C38",
   "status": "proved",
   "theorems": [
    "C38_exclusion",
    "C38_unmatched_refuted"
   ],
   "note": "Histories of the read-write lock with nested callbacks, unlocking only held locks. Finding: one unlock too many wraps the counter to 0 and the lock is dead (C38_unmatched_refuted)."
  },
  {
   "property": "C39",
   "status": "proved",
   "theorems": [
    "C39_exclusion",
    "C39_range",
    "C39_no_crash",
    "C39_quiet",
    "C39_progress",
    "C39_read_call",
    "C39_preference",
    "C39_grant",
    "C39_write_free"
   ],
   "note": "fewer than 2^30-1 fibers; writer_lock_, wakeup_lock_ and the two condition variables are atomic objects; sequentially consistent interleavings"
  },
  {
   "property": "C40",
   "status": "proved",
   "theorems": [
    "C40_exclusion",
    "C40_fifo",
    "C40_free",
    "C40_waiting",
    "C40_quiet",
    "C40_progress",
    "C40_calls",
    "C40_no_crash"
   ],
   "note": "fiber and pthread waiters; fewer than 2^32 threads; sequentially consistent interleavings"
  },
  {
   "property": "C41",
   "status": "proved",
   "theorems": [
    "C41_fifo",
    "C41_bound",
    "C41_no_crash",
    "C41_calls",
    "C41_quiet",
    "C41_progress",
    "C41_poppers",
    "C41_pushers_unit",
    "C41_no_deadlock",
    "C41_stop_calls",
    "C41_stop_wakes",
    "C41_notify_wakes",
    "C41_stop_two_refuted",
    "C41_stop_race_refuted",
    "C41_weighted_refuted",
    "C41_set_capacity_refuted",
    "C41_too_large_refuted",
    "C41_drop_refuted"
   ],
   "note": "Findings: Stop wakes only one waiting pusher and one waiting popper (C41_stop_two_refuted) and, as it takes no lock, can miss even a single one (C41_stop_race_refuted); with items of different sizes a pusher whose item fits can wait for ever (C41_weighted_refuted), likewise after SetCapacity (C41_set_capacity_refuted); an item larger than the capacity blocks for ever (C41_too_large_refuted); after Stop calls report success without moving items (C41_drop_refuted)."
  },
  {
   "property": "C42",
   "status": "proved",
   "theorems": [
    "C42_bound",
    "C42_account",
    "C42_no_deadlock",
    "C42_window_size",
    "C42_unbounded_refuted",
    "C42_error_refuted",
    "C42_closed_refuted",
    "C42_overflow_refuted"
   ],
   "note": "Proved on a step model of the sender's window, the waiting writers and the receiver's feedback. As worded the bound is false: writers woken after waiting send without decreasing the window (C42_unbounded_refuted), so the bound is proved for runs without such writers and exact accounting for all runs. Findings: error and close leave writers waiting for ever; the 32-bit window wraps."
  },
  {
   "property": "C43",
   "status": "proved",
   "theorems": [
    "C43_new",
    "C43_blocks",
    "C43_allocate",
    "C43_free",
    "C43_content",
    "C43_other",
    "C43_past_end_refuted",
    "C43_none_in_use",
    "C43_large_refuted",
    "C43_double_free_refuted",
    "C43_inside_refuted"
   ],
   "note": "FixedMemoryPool with the free list kept inside the free blocks; for every history of a user that frees and writes only what it holds. Findings: memory that begins right after the pool is taken for a block and written to (comparison with > instead of >=); a pool of 4 GiB or more allocates too little; double frees and pointers into a block are accepted."
  },
  {
   "property": "C44",
   "status": "proved",
   "theorems": [
    "C44_distinct",
    "C44_initial_segment",
    "C44_next",
    "C44_double_free_refuted"
   ],
   "note": "Next/Free of IndexAlloc (the lock makes them atomic). Finding: an index freed twice is issued twice."
  },
  {
   "property": "C45",
   "status": "proved",
   "theorems": [
    "C45_split_cuts_at_delimiters",
    "C45_parts_are_determined",
    "C45_join_undoes_split",
    "C45_no_part_contains_the_delimiter",
    "C45_join_inserts_delimiters",
    "C45_long_join_refuted",
    "C45_replace_first_occurrences",
    "C45_replace_all",
    "C45_split_string",
    "C45_split_string_to_map",
    "C45_strip_takes_spaces_off",
    "C45_trimmed_is_determined",
    "C45_trim_inplace",
    "C45_trim_string_view",
    "C45_trim_view",
    "C45_trim_empty_refuted",
    "C45_starts_with",
    "C45_ends_with",
    "C45_trim_prefix",
    "C45_trim_suffix"
   ],
   "note": "Split (both overloads), Join, Replace, SplitString, SplitStringToMap, all Trim functions, StartsWith/EndsWith. Round trip for texts below 2^31 characters; beyond that Join throws (finding). Finding: trpc::Trim of an empty view is undefined."
  },
  {
   "property": "C46",
   "status": "proved",
   "theorems": [
    "C46_to_lower",
    "C46_to_upper",
    "C46_iequals",
    "C46_total_on_bytes_refuted"
   ],
   "note": "Exact characterisation: ASCII text is converted as stated; every other text makes ToLower/ToUpper index a table out of bounds (signed char), so totality on bytes is refuted with a witness. char is taken to be signed, as on x86."
  },
  {
   "property": "C47",
   "status": "proved",
   "theorems": [
    "C47_correct",
    "C47_quiet",
    "C47_order",
    "C47_whole_batch",
    "C47_push_false",
    "C47_batch_false",
    "C47_pop_null",
    "C47_steal_null",
    "C47_returns",
    "C47_progress",
    "C47_push_alone",
    "C47_batch_alone",
    "C47_pop_alone",
    "C47_exact_fit_refuted",
    "C47_batch_busy",
    "C47_batch_small",
    "C47_large_batch_refuted",
    "C47_pop_waits_refuted",
    "C47_size",
    "C47_full_size_refuted",
    "C47_empty",
    "C47_capacity",
    "C47_capacity_one_refuted"
   ],
   "note": "Any number of threads interleaving Push, BatchPush, Pop and Steal at the granularity of atomic accesses (sequentially consistent). Findings: a batch that exactly fits is refused, a batch as large as the queue makes BatchPush spin forever, UnsafeSize of a full queue is 0, Pop on an empty queue waits for an unfinished pop one lap ago, Init(1) overwrites and Init(0) has no node."
  },
  {
   "property": "C48",
   "status": "proved",
   "theorems": [
    "C48_modulo_position"
   ],
   "note": ""
  },
  {
   "property": "C49",
   "status": "proved",
   "theorems": [
    "C49_total",
    "C49_parts",
    "C49_rejected",
    "C49_port",
    "C49_user_password",
    "C49_user_only",
    "C49_request_uri",
    "C49_view_refuted",
    "C49_view_undefined_refuted",
    "C49_nul_refuted",
    "C49_invalid_character_refuted",
    "C49_port_truncated_refuted",
    "C49_odd_hosts_refuted"
   ],
   "note": "For NUL-terminated text. Findings proved as _refuted: non-terminated views are read past their end, a NUL in the host cuts the URL off, no character is ever rejected as invalid, UrlParser::IntegerPort truncates to 16 bits (no port = 65535), userinfo ends at the first @."
  },
  {
   "property": "C50",
   "status": "proved",
   "theorems": [
    "C50_signed_exact",
    "C50_unsigned_modulo",
    "C50_bool_exact",
    "C50_negative_unsigned_refuted",
    "C50_stale_errno_refuted",
    "C50_garbage_after_nul_refuted",
    "C50_bool_options_ignored_refuted"
   ],
   "note": "All integer widths, base 10, C locale; strtoll/strtoull are modelled from the C standard. Signed types: exact. Unsigned types: exact modulo 2^64 for a minus sign (finding). Findings: stale errno, text after a NUL ignored, bool options ignored. Floating point is not modelled."
  },
  {
   "property": "C51",
   "status": "proved",
   "theorems": [
    "C51_fifo",
    "C51_finish",
    "C51_error",
    "C51_async",
    "C51_async_all",
    "C51_error_status_refuted",
    "C51_error_forgotten_refuted",
    "C51_error_ready_refuted"
   ],
   "note": "Timeouts are not modelled. Findings: messages received before a finish with an error status come back with that status (and the typed reader drops them); a finish after an error hides the error."
  },
  {
   "property": "C52",
   "status": "proved",
   "theorems": [
    "C52_exclusion",
    "C52_no_crash",
    "C52_atomic",
    "C52_quiet",
    "C52_starts",
    "C52_notify",
    "C52_wakes_fiber",
    "C52_wakes_value",
    "C52_wakes_pthread",
    "C52_no_spurious",
    "C52_result",
    "C52_pthread_lost_refuted",
    "C52_pthread_uaf_refuted",
    "C52_result_refuted"
   ],
   "note": "Findings: with pthread waiters and notifications sent without the mutex a waiter can sleep for ever and a dead wait block can be written (C52_pthread_lost_refuted, C52_pthread_uaf_refuted); a timed wait can report a notification it did not get (C52_result_refuted). The user mutex is atomic; weak memory is not modelled."
  },
  {
   "property": "C53",
   "status": "proved",
   "theorems": [
    "C53_network_order",
    "C53_encode",
    "C53_encode_mismatch",
    "C53_decode",
    "C53_decode_incomplete",
    "C53_check",
    "C53_check_incomplete",
    "C53_check_sound",
    "C53_stream",
    "C53_loop_forever_refuted",
    "C53_decode_past_end_refuted",
    "C53_decode_wrap",
    "C53_timeout",
    "C53_timeout_loose",
    "C53_timeout_nano",
    "C53_timeout_none",
    "C53_timeout_transfer",
    "C53_timeout_server",
    "C53_timeout_cut_refuted",
    "C53_timeout_negative_refuted",
    "C53_timeout_overflow_refuted",
    "C53_timeout_too_long_refuted",
    "C53_status",
    "C53_status_abort",
    "C53_status_abort_refuted",
    "C53_status_text",
    "C53_types",
    "C53_encodings",
    "C53_names",
    "C53_unary",
    "C53_unary_compress_refuted",
    "C53_unary_type_refuted"
   ],
   "note": "Framing for all payloads below 2^32-5 bytes; above that the 32-bit sum wraps (C53_loop_forever_refuted, C53_decode_past_end_refuted, C53_decode_wrap). Time-outs: exact for every text (timeout_loose, timeout_nano, timeout_none); refuted: large and negative values, overflow. Responses are covered for the status only."
  },
  {
   "property": "C54",
   "status": "proved",
   "theorems": [
    "C54_one_run",
    "C54_recv_order",
    "C54_send_order",
    "C54_live",
    "C54_drains",
    "C54_terminates",
    "C54_done",
    "C54_removed",
    "C54_removed_refuted",
    "C54_push_send",
    "C54_push_recv",
    "C54_stop",
    "C54_progress",
    "C54_deadlock_refuted"
   ],
   "note": "The deadlock between Stop of an idle stream and TrpcStreamHandler::Stop, and the double removal, are proved as refutations."
  },
  {
   "property": "C55",
   "status": "proved",
   "theorems": [
    "C55_to_server",
    "C55_to_client",
    "C55_polite",
    "C55_quiet",
    "C55_terminates",
    "C55_refuse_recv",
    "C55_refuse_send",
    "C55_accept_recv",
    "C55_accept_send",
    "C55_effect",
    "C55_calls",
    "C55_calls_stopped",
    "C55_finish_refuted",
    "C55_write_refuted"
   ],
   "note": "Safety for all users; resets, completion and termination for polite users; two findings as _refuted theorems (early finish of the server turned into an error by a WriteDone in the queue; Write on a stopped stream reports success)."
  },
  {
   "property": "C56",
   "status": "proved",
   "theorems": [
    "C56_order",
    "C56_finished",
    "C56_accepted",
    "C56_one_writer",
    "C56_no_crash",
    "C56_size",
    "C56_no_leak",
    "C56_progress",
    "C56_quiet",
    "C56_alive",
    "C56_calls",
    "C56_writes",
    "C56_wakes",
    "C56_empty_refuted",
    "C56_cap_refuted",
    "C56_wakeup_refuted"
   ],
   "note": "Findings: C56_empty_refuted (an empty message with another Append between MessageWriteDone and the exchange of tail_ makes FlushTo return 0 without emptied, and FlushWritingBuffer reports the peer as gone), C56_cap_refuted (test and fetch_add are not one step), C56_wakeup_refuted (notify_one without the mutex between test and wait). C56_alive excludes the first for messages without empty blocks."
  },
  {
   "property": "C57",
   "status": "proved",
   "theorems": [
    "C57_no_crash",
    "C57_one_writer",
    "C57_one_fiber",
    "C57_counts",
    "C57_disabled",
    "C57_cleanup",
    "C57_not_lost",
    "C57_progress",
    "C57_works",
    "C57_quiet",
    "C57_read_not_lost",
    "C57_read_done",
    "C57_send_error",
    "C57_error_event",
    "C57_handshake_abort_refuted",
    "C57_handshake_writers_refuted",
    "C57_early_send_refuted"
   ],
   "note": "For handlers that never finish the handshake inside OnWritable() and callers that send after StartHandshaking(); without either condition the statement is refuted (C57_handshake_abort_refuted, C57_handshake_writers_refuted, C57_early_send_refuted). Sequential consistency; the queue is its length (see C56)."
  },
  {
   "property": "C58",
   "status": "proved",
   "theorems": [
    "C58_value",
    "C58_once",
    "C58_recorded",
    "C58_read",
    "C58_all_shown",
    "C58_ends",
    "C58_word",
    "C58_word_merge",
    "C58_counter_reset_refuted",
    "C58_initial_refuted",
    "C58_monotone_refuted"
   ],
   "note": "For a Counter the values are shown only without Reset(): its update is a load and a store, and a Reset() between them is undone (C58_counter_reset_refuted). C58_initial_refuted: a non-zero initial value is counted once per thread. C58_monotone_refuted: the values of an exiting thread are missing between its removal from the list and the destruction of its buffer. IntRecorder takes values above 2147483647 as 2147483647."
  },
  {
   "property": "C59",
   "status": "proved",
   "theorems": [
    "C59_index",
    "C59_merge",
    "C59_percentile",
    "C59_run",
    "C59_once",
    "C59_percentile_of_run",
    "C59_once_refuted",
    "C59_percentile_refuted",
    "C59_merge_large",
    "C59_merge_wraps",
    "C59_sorted_refuted"
   ],
   "note": "Statements hold with the listed exceptions, each shown by a _refuted theorem or characterised exactly (C59_index, C59_merge_large, C59_merge_wraps)."
  },
  {
   "property": "C60",
   "status": "proved",
   "theorems": [
    "C60_always",
    "C60_window",
    "C60_totals",
    "C60_samples_refuted",
    "C60_size",
    "C60_series",
    "C60_series_refuted"
   ],
   "note": "GetSamples and GetSeries are shown wrong (C60_samples_refuted, C60_series_refuted); what they compute otherwise is characterised exactly."
  },
  {
   "property": "C61",
   "status": "proved",
   "theorems": [
    "C61_header",
    "C61_unambiguous",
    "C61_total",
    "C61_server",
    "C61_close",
    "C61_client",
    "C61_async",
    "C61_empty_refuted",
    "C61_after_done_refuted",
    "C61_done_first_refuted",
    "C61_header_fail_refuted",
    "C61_headless_refuted",
    "C61_empty_header_refuted",
    "C61_continue_refuted",
    "C61_zero_length_refuted"
   ],
   "note": "The body written by a careful user is exactly what was accepted; eight refuted claims say what goes wrong otherwise (empty pieces, writes after the end, WriteDone before or without the head, refused heads, empty async headers, 100, Content-Length: 0)."
  },
  {
   "property": "C62",
   "status": "proved",
   "theorems": [
    "C62_split",
    "C62_requests",
    "C62_rejected",
    "C62_bounded",
    "C62_response",
    "C62_refused",
    "C62_too_long",
    "C62_client_bounded",
    "C62_library",
    "C62_two_lengths_refuted",
    "C62_coding_refuted",
    "C62_number_refuted",
    "C62_split_refuted",
    "C62_lost_refuted",
    "C62_second_refuted",
    "C62_until_close_refuted",
    "C62_interim_refuted"
   ],
   "note": "the head parser and the chunk decoder (picohttpparser) are parameters with a stated contract; C62_library shows the contract can be met; the refuted claims are findings about framing (two lengths, unknown codings, signs, LF-only heads, lost requests, pipelined, unframed and interim responses)"
  },
  {
   "property": "C63",
   "status": "proved",
   "theorems": [
    "C63_trace",
    "C63_bounded",
    "C63_prefix",
    "C63_calls",
    "C63_told",
    "C63_read_all",
    "C63_answered",
    "C63_finite",
    "C63_stops",
    "C63_reader_returns",
    "C63_writer_returns",
    "C63_abandoned_refuted",
    "C63_at_most",
    "C63_limit_refuted",
    "C63_too_long",
    "C63_too_long_refuted"
   ],
   "note": "Findings: AppendAlways() ignores the stop token (C63_abandoned_refuted); AppendToRequest() cannot detect an unannounced body over the limit (C63_limit_refuted, C63_too_long_refuted). The writing fiber is also the one that closes the body; a third fiber that closes it is not modelled."
  },
  {
   "property": "C64",
   "status": "proved",
   "theorems": [
    "C64_exclusive",
    "C64_snapshot",
    "C64_consistent",
    "C64_current",
    "C64_latest",
    "C64_even",
    "C64_writer_goes",
    "C64_reader_done",
    "C64_uninitialised_refuted",
    "C64_spin_refuted",
    "C64_wrap_refuted"
   ],
   "note": "Findings: the counter is not initialised (C64_uninitialised_refuted, C64_spin_refuted). The bound on writes during a read is exact (C64_wrap_refuted)."
  },
  {
   "property": "C65",
   "status": "proved",
   "theorems": [
    "C65_no_lost_wakeup",
    "C65_quiet_all_awake",
    "C65_notified_early",
    "C65_notify_all_frees",
    "C65_notify_one_frees",
    "C65_returns_only_notified",
    "C65_held_once",
    "C65_no_aba",
    "C65_tickets",
    "C65_undecided",
    "C65_undecided_bound",
    "C65_notifier_goes_on",
    "C65_waiter_goes_on",
    "C65_packed_word",
    "C65_packed_compare"
   ],
   "note": "Sequentially consistent steps; the epoch of the interleaved model does not wrap (C65_packed_compare covers the comparison across the wrap for distances below 2^31)."
  },
  {
   "property": "C66",
   "status": "proved",
   "theorems": [
    "C66_success",
    "C66_failure",
    "C66_frame_safe",
    "C66_after_return",
    "C66_not_stuck",
    "C66_runs_end",
    "C66_test_never_skips",
    "C66_retry_at_once_refuted",
    "C66_zero_delay_refuted",
    "C66_pooled_message_refuted",
    "C66_pooled_frame_refuted",
    "C66_pooled_index_refuted"
   ],
   "note": "Proved for connectors that fail late answers; refuted for the pooled and pipelined TCP connectors (C66_pooled_message_refuted, C66_pooled_frame_refuted, C66_pooled_index_refuted), for a delay of 0 (C66_zero_delay_refuted) and for the test after a failed connection (C66_retry_at_once_refuted)."
  },
  {
   "property": "C67",
   "status": "proved",
   "theorems": [
    "C67_history",
    "C67_exclusion",
    "C67_no_lost_wakeup",
    "C67_woken",
    "C67_transfer_refuted",
    "C67_foreign_unlock_refuted"
   ],
   "note": "The header's promise that unlock transfers the mutex to a waiting fiber is refuted (C67_transfer_refuted), and exclusion depends on the owner unlocking (C67_foreign_unlock_refuted)."
  },
  {
   "property": "C68",
   "status": "proved",
   "theorems": [
    "C68_history",
    "C68_all_woken",
    "C68_passes",
    "C68_stays_open",
    "C68_dies_only_over",
    "C68_rearm_refuted",
    "C68_below_refuted"
   ],
   "note": "A negative update re-arms an opened latch (C68_rearm_refuted); WaitFor and WaitUntil do not check for a count below zero (C68_below_refuted)."
  }
 ]
}