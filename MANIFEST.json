{
 "claims": [
  {
   "property": "C01",
   "status": "proved",
   "theorems": [
    "hex_round_trip"
   ],
   "note": ""
  },
  {
   "property": "C02",
   "status": "proved",
   "theorems": [
    "hex_decode_denotes"
   ],
   "note": ""
  },
  {
   "property": "C03",
   "status": "proved",
   "theorems": [
    "b64_round_trip",
    "b64_sizes"
   ],
   "note": ""
  },
  {
   "property": "C04",
   "status": "partial",
   "theorems": [
    "hex_wrap_round_trip_refuted",
    "hex_wrap_exact_partial",
    "b64_wrap_round_trip_refuted",
    "b64_wrap_exact_partial"
   ],
   "note": "False of the code: an odd number of line breaks makes the hex decoder refuse its own encoder's text, and base64 loses the round trip when a break falls inside \"==\". The _partial theorems give the exact condition."
  },
  {
   "property": "C05",
   "status": "partial",
   "theorems": [
    "b32_round_trip_refuted",
    "b32_round_trip_partial",
    "b32_round_trip_mult5"
   ],
   "note": "False of the code: decoding always yields a multiple of five bytes. The _partial theorem gives the exact result for every input."
  },
  {
   "property": "C06",
   "status": "partial",
   "theorems": [
    "hex_decode_in_bounds",
    "b64_decode_in_bounds_refuted",
    "b64_decode_in_bounds_partial",
    "b32_decode_in_bounds_refuted"
   ],
   "note": "False of the code for all-whitespace base64 input (reads before the buffer) and for base32 (ignores its length argument)."
  },
  {
   "property": "C07",
   "status": "proved",
   "theorems": [
    "bit_is_power_of_two",
    "bit_round_up32",
    "bit_round_up64",
    "bit_round_up_out_of_range",
    "bit_round_down32",
    "bit_round_down64",
    "bit_log2_32",
    "bit_log2_64",
    "bit_sign_extend",
    "bit_sign_extend_undefined",
    "bit_popcount8",
    "bit_popcount64"
   ],
   "note": "Domain: n > 0 and the answer representable; outside it round_up gives 0 (proved) and the two log2 differ on 0 (example)."
  },
  {
   "property": "C08",
   "status": "proved",
   "theorems": [
    "rand_range_in_range",
    "rand_range_no_bias",
    "rand_range_rejections",
    "rand_state_never_zero",
    "rand_state_injective",
    "rand_str_chars"
   ],
   "note": "Seeding and M_rand_jump are not modelled; the range theorems hold for every generator."
  },
  {
   "property": "C09",
   "status": "proved",
   "theorems": [
    "mergesort_stable_sort"
   ],
   "note": ""
  },
  {
   "property": "C10",
   "status": "proved",
   "theorems": [
    "qsort_sorts"
   ],
   "note": ""
  },
  {
   "property": "C11",
   "status": "proved",
   "theorems": [
    "binary_search_exact"
   ],
   "note": ""
  },
  {
   "property": "C12",
   "status": "partial",
   "theorems": [
    "insert_idx_sorted",
    "insert_idx_stable_refuted",
    "insert_idx_stable_partial"
   ],
   "note": "Order is kept (proved). The stable-mode claim is false of the code; the _partial theorem says at most the one element at the index can be equal."
  },
  {
   "property": "C13",
   "status": "partial",
   "theorems": [
    "utf8_from_cp_writes",
    "utf8_round_trip_partial",
    "utf8_round_trip_refuted",
    "utf8_reencode"
   ],
   "note": "Full for every non-NUL code point, both directions; U+0000 is a counterexample (decoding consumes nothing)."
  },
  {
   "property": "C14",
   "status": "partial",
   "theorems": [
    "utf8_well_formed_partial",
    "utf8_well_formed_refuted",
    "utf8_get_cp_in_bounds",
    "utf8_overlong_rejected",
    "utf8_surrogate_rejected"
   ],
   "note": "Exact acceptance condition proved; the code accepts the noncharacters of planes 10-15, so the claim as stated is refuted."
  },
  {
   "property": "C15",
   "status": "partial",
   "theorems": [
    "utf8_cp_at_partial",
    "utf8_cp_at_refuted",
    "utf8_cp_at_null_refuted",
    "utf8_cnt_exact",
    "utf8_is_valid_exact",
    "utf8_text_decomposes",
    "utf8_text_unique"
   ],
   "note": "Exact behaviour for every text and index; refuted at idx = count (reports success) and past an invalid sequence (NULL dereference)."
  },
  {
   "property": "C16",
   "status": "partial",
   "theorems": [
    "uint64_parse_exact",
    "uint64_parse_partial",
    "uint64_overflow_partial",
    "uint64_overflow_refuted",
    "int64_parse_partial",
    "int64_overflow_refuted",
    "int32_parse_partial",
    "uint32_parse_partial",
    "uint32_negative_refuted",
    "uint64_print_parse",
    "hex_prefix_refuted"
   ],
   "note": "Exact for every magnitude below 2^64 in every base; from 2^64 on an overflow can go unnoticed (refuted with a witness, exact condition given for the last digit)."
  },
  {
   "property": "C17",
   "status": "partial",
   "theorems": [
    "explode_splits_partial",
    "explode_pieces_unique",
    "implode_restores",
    "explode_empty_refuted",
    "implode_readable"
   ],
   "note": "Proved for every non-empty string; for the empty string the code returns NULL instead of one empty piece."
  },
  {
   "property": "C18",
   "status": "partial",
   "theorems": [
    "unquote_quote_partial",
    "quote_escapes",
    "unquote_quote_space_refuted",
    "unquote_quote_high_refuted"
   ],
   "note": "Proved for ASCII quote and escape with a quote that is not white space (also when they are equal). Refuted for a white space quote and for a quote >= 128."
  },
  {
   "property": "C19",
   "status": "partial",
   "theorems": [
    "replace_str_partial",
    "replaced_unique",
    "replace_str_refuted"
   ],
   "note": "Exact result proved. The claim is false when the last match reaches the end of the string: the tail since the previous match is appended again."
  },
  {
   "property": "C20",
   "status": "proved",
   "theorems": [
    "trim_correct"
   ],
   "note": "In bounds, keeps the object size, unique."
  },
  {
   "property": "C21",
   "status": "partial",
   "theorems": [
    "glob_match_partial",
    "glob_match_total",
    "glob_escaped_bracket_refuted",
    "glob_escaped_backslash_refuted",
    "glob_case_range_refuted"
   ],
   "note": "Proved for all patterns written from well-formed syntax, both variants; refuted for escaped ] and \\ inside brackets and for ranges without regard to case."
  },
  {
   "property": "C22",
   "status": "proved",
   "theorems": [
    "justify_correct",
    "justify_total"
   ],
   "note": "All modes."
  },
  {
   "property": "C23",
   "status": "partial",
   "theorems": [
    "buf_refines_bytes",
    "buf_finish_bytes",
    "buf_terminated_partial",
    "buf_terminated_refuted",
    "buf_add_just_partial",
    "buf_add_just_refuted"
   ],
   "note": "Proved for every sequence of byte, transformed, fill, direct-write, binary, BCD and hexadecimal adds, truncates and drops: contents, lengths and results are those of a byte string and no access leaves the allocation. Justified adds are correct if nothing was dropped; refuted otherwise (stale offset, write past the allocation). The terminator is lost after a failed hexadecimal add. Textual number, money and encode/decode adds are not modelled."
  },
  {
   "property": "C24",
   "status": "partial",
   "theorems": [
    "buf_merge_partial",
    "buf_merge_refuted",
    "buf_bjoin_partial"
   ],
   "note": "Refuted when bytes of the source were dropped (its allocation start is copied); proved when the source's data starts at its allocation, in particular if nothing was dropped."
  },
  {
   "property": "C25",
   "status": "partial",
   "theorems": [
    "parser_dyn_refines_partial",
    "parser_const_refines_partial",
    "parser_failed_read_partial",
    "parser_failed_read_refuted",
    "parser_truncate_whitespace_partial",
    "parser_truncate_whitespace_refuted",
    "parser_reset_exact"
   ],
   "note": "Refinement of all modelled operations to a byte stream for every operation list. Refuted: a read_bytes_until/charset whose piece exceeds the buffer returns 0 but consumes; truncate_whitespace to newline without unread data reads before it. Excluded: appending with a mark at the current position and nothing unread."
  },
  {
   "property": "C26",
   "status": "partial",
   "theorems": [
    "parser_mark_partial",
    "parser_mark_refuted"
   ],
   "note": "Mark/rewind restores the data for all operation lists except appends while a mark is at the current position of an emptied parser (refuted: marked length wraps to 2^64-3)."
  },
  {
   "property": "C27",
   "status": "partial",
   "theorems": [
    "parser_boundary_sound",
    "parser_boundary_partial",
    "parser_boundary_same_partial",
    "parser_boundary_first_partial",
    "parser_boundary_refuted",
    "parser_boundary_empty_refuted"
   ],
   "note": "Soundness in all cases; exactness when no broken-off match overlaps another start. Refuted: ab in aab (no backtracking); empty data is read."
  },
  {
   "property": "C28",
   "status": "partial",
   "theorems": [
    "mem_mem_first",
    "mem_mem_empty",
    "mem_rmem_last_partial",
    "mem_rmem_last_refuted",
    "parser_consume_until_exact"
   ],
   "note": "Exact for M_mem_mem and M_parser_consume_until; M_mem_rmem exact for non-empty needles, refuted for the empty needle."
  },
  {
   "property": "C29",
   "status": "partial",
   "theorems": [
    "bitbuf_refines_partial",
    "bitbuf_refines_refuted",
    "bitbuf_truncate_refuted"
   ],
   "note": "All operations modelled; the full claim is refuted (bytes added at a byte boundary leave stale pad bits; truncation to more than is there), the partial theorem covers every sequence of operations without these two."
  },
  {
   "property": "C30",
   "status": "partial",
   "theorems": [
    "bitparser_refines_partial",
    "bitparser_const_refines_partial",
    "bitparser_read_uint",
    "bitparser_const_refuted",
    "bitparser_count_refuted",
    "bitparser_read_int_refuted"
   ],
   "note": "bitparser_read_uint is the full statement for a parser that owns its data; over constant data reads at an unaligned offset may read one byte past the end (refuted), which is what the partial theorem excludes. Signed reads report success on failure (refuted)."
  },
  {
   "property": "C31",
   "status": "partial",
   "theorems": [
    "list_refines_partial",
    "unsorted_list_refines_partial",
    "list_conserves",
    "stack_insert_at_refuted",
    "insert_at_beyond_refuted",
    "stack_remove_range_refuted",
    "stack_remove_val_refuted",
    "swap_beyond_refuted",
    "set_replace_at_refuted"
   ],
   "note": "All runs of the 22 modelled operations on unsorted (queue or stack, set or not) lists refine a sequence; excluded uses are refuted by witnesses."
  },
  {
   "property": "C32",
   "status": "partial",
   "theorems": [
    "list_refines_partial",
    "sorted_list_sorted_partial",
    "list_conserves",
    "sorted_remove_ptr_refuted"
   ],
   "note": "Sortedness, permutation and exact search/removal for every total preorder; removal of all matches by pointer is wrong when there are several (refuted) and sorted remove_duplicates by value is excluded."
  },
  {
   "property": "C33",
   "status": "partial",
   "theorems": [
    "remove_duplicates_partial",
    "remove_duplicates_refuted"
   ],
   "note": "Proved for unsorted lists and sorted lists by pointer; by value on a sorted list it drops distinct elements (refuted)."
  },
  {
   "property": "C34",
   "status": "proved",
   "theorems": [
    "llist_refines_sequence",
    "llist_sorted",
    "sorted_insert_stable_refuted",
    "circular_remove_refuted",
    "circular_insert_before_refuted",
    "llist_destroy"
   ],
   "note": "All calls on a non-circular list, sorted (skip list, any levels) or not, except M_llist_duplicate, merge, change_sorting and destroy. Node arguments must be nodes of the list and the comparison callback of a sorted list a total preorder. Documented stability of sorted insertion and circular lists are refuted separately."
  },
  {
   "property": "C35",
   "status": "proved",
   "theorems": [
    "hashtable_refines_map",
    "hashtable_history",
    "hashtable_destroy",
    "hashtable_duplicate",
    "huge_table_refuted",
    "enumerate_past_end_refuted"
   ],
   "note": "All flags, all hash functions and consistent callbacks, all sequences of insert/get/remove/multi_*/num_keys/enumerate, from every creation size up to 2^63 (larger sizes give no buckets and the first insertion is undefined: huge_table_refuted). Destroy and duplicate included. Calling enumerate_next after the end restarts (enumerate_past_end_refuted). M_hashtable_merge not modelled."
  },
  {
   "property": "C36",
   "status": "partial",
   "theorems": [
    "hashtable_count_partial",
    "hashtable_history",
    "hashtable_refines_map",
    "multi_remove_count_refuted"
   ],
   "note": "multi_get/multi_len/multi_remove/get act on each key's sequence (proved in full); the count exceeds the number of values by the number of multi_remove calls that leave the key values (multi_remove_count_refuted), exact amount proved."
  },
  {
   "property": "C37",
   "status": "partial",
   "theorems": [
    "cache_lru_partial",
    "cache_recent",
    "cache_value_duplicate_refuted"
   ],
   "note": "Full LRU refinement, size bound, history characterisation, frees and destroy for every call sequence; with a value_duplicate callback the claim is false (it is applied to the key), so values are only claimed without that callback."
  },
  {
   "property": "C38",
   "status": "proved",
   "theorems": [
    "queue_refines",
    "queue_order"
   ],
   "note": "All call sequences, with and without sort callback, every hash function; results, membership, order, frees; destroy frees each remaining member once."
  },
  {
   "property": "C39",
   "status": "proved",
   "theorems": [
    "decimal_add_exact",
    "decimal_add_complete",
    "decimal_subtract_exact",
    "decimal_subtract_complete",
    "decimal_add_defined_partial",
    "decimal_subtract_defined_partial",
    "decimal_add_defined_refuted"
   ],
   "note": "SUCCESS is always exact and given exactly when a common 64 bit form of the operands has a 64 bit sum; overflow is detected. Undefined behaviour (negating INT64_MIN) is excluded for numbers other than INT64_MIN and exhibited for it."
  },
  {
   "property": "C40",
   "status": "partial",
   "theorems": [
    "decimal_cmp_partial",
    "decimal_cmp_bounded_partial",
    "decimal_cmp_refuted"
   ],
   "note": "Correct whenever the operands have a common 64 bit form; false otherwise (9000000000000000000 compares below 0.1)."
  },
  {
   "property": "C41",
   "status": "partial",
   "theorems": [
    "decimal_to_str_partial",
    "decimal_from_str_partial",
    "decimal_from_str_integer",
    "decimal_text_roundtrip_partial",
    "decimal_to_str_refuted",
    "decimal_from_str_refuted"
   ],
   "note": "Holds up to 19 places (and beyond for numbers below 10^places mod 2^64), except INT64_MIN beyond 18 places; false beyond, by witness."
  },
  {
   "property": "C42",
   "status": "partial",
   "theorems": [
    "decimal_multiply_exact_partial",
    "decimal_multiply_complete",
    "decimal_multiply_refuted",
    "decimal_transform_extend",
    "decimal_transform_truncate_partial",
    "decimal_transform_traditional_partial",
    "decimal_transform_bankers_partial",
    "decimal_transform_bankers_refuted",
    "decimal_transform_defined_refuted",
    "decimal_reduce_exact"
   ],
   "note": "Multiplication exact up to 127 places and false beyond; truncation and traditional rounding correct; banker's rounding correct exactly when the stated condition holds."
  },
  {
   "property": "C43",
   "status": "proved",
   "theorems": [
    "time_togm_correct",
    "time_date_unique",
    "time_togm_next_day",
    "time_roundtrip",
    "time_togm_smallest_refuted"
   ],
   "note": "All 64 bit times except the 60 smallest, which overflow."
  },
  {
   "property": "C44",
   "status": "partial",
   "theorems": [
    "time_normalize_partial",
    "time_fromgm_valid",
    "time_normalize_general_partial",
    "time_normalize_refuted",
    "time_valid_day"
   ],
   "note": "Right below 365 days from the month start or in January and February; otherwise off by exactly the stated leap day difference, by witness."
  },
  {
   "property": "C45",
   "status": "proved",
   "theorems": [
    "rwlock_exclusion",
    "rwlock_count"
   ],
   "note": "Any number of threads, any schedule, spurious wake-ups included; primitives (mutex, condition variable) are assumed to behave as described in Rwlock/Model.v."
  },
  {
   "property": "C46",
   "status": "proved",
   "theorems": [
    "rwlock_no_lost_wakeup",
    "rwlock_terminates",
    "rwlock_completes",
    "rwlock_unlock_unheld_refuted"
   ],
   "note": "No lost wake-up, and without new calls every schedule is finite and ends with all threads served. Unlocking an unheld lock (misuse) blocks the lock for ever."
  },
  {
   "property": "C47",
   "status": "partial",
   "theorems": [
    "threadpool_at_most_once",
    "threadpool_fifo",
    "threadpool_queue_bound",
    "threadpool_thread_bound",
    "threadpool_wait",
    "threadpool_order_partial",
    "threadpool_insert_order",
    "threadpool_order_refuted",
    "threadpool_task_runs_refuted",
    "threadpool_min_threads_refuted"
   ],
   "note": "Tasks leave the queue in order but start in order only with one worker (refuted for two); with idle timeouts a task can stay in the queue for ever (refuted), and the pool can drop below min_threads (refuted). Everything else holds for all schedules."
  },
  {
   "property": "C48",
   "status": "partial",
   "theorems": [
    "pipeline_at_most_once",
    "pipeline_count",
    "pipeline_wait",
    "pipeline_order",
    "pipeline_success",
    "pipeline_serial",
    "pipeline_result_refuted"
   ],
   "note": "All clauses proved for every schedule; the documented meaning of the FAIL and ABORT results is refuted."
  },
  {
   "property": "C49",
   "status": "partial",
   "theorems": [
    "pipeline_destroy_partial",
    "pipeline_destroy_returns",
    "pipeline_destroy_final",
    "pipeline_destroy_refuted"
   ],
   "note": "Refuted for two or more steps; the only stuck configuration is characterised; one-step and empty pipelines proved deadlock-free."
  },
  {
   "property": "C50",
   "status": "partial",
   "theorems": [
    "timer_fires_only_when_due_partial",
    "timer_silent_after_stop",
    "timer_order",
    "timer_due_found",
    "timer_process_end",
    "timer_minimum",
    "timer_queued",
    "timer_failed_start_refuted",
    "timer_far_start_refuted",
    "timer_start_in_callback_refuted",
    "timer_set_start_running_refuted",
    "timer_early_refuted",
    "timer_stop_race_refuted"
   ],
   "note": "All interleavings of calls from callbacks and other threads with the processing loop; false without the usage rules (witnesses)."
  },
  {
   "property": "C51",
   "status": "proved",
   "theorems": [
    "swaps_reverse",
    "byte_order_conversions"
   ],
   "note": "m_endian.c swaps and conversions for both byte orders"
  },
  {
   "property": "C52",
   "status": "proved",
   "theorems": [
    "mem_eq_exact",
    "lrc_exact",
    "crc8_remainder",
    "crc16_remainder",
    "crc32_remainder",
    "mem_count_exact",
    "swap_bytes_exact",
    "mem_cmpsort_order",
    "mem_cmpsort_exact"
   ],
   "note": "CRC-16 and CRC-32 of the empty message are 0 by definition of the code"
  },
  {
   "property": "C53",
   "status": "proved",
   "theorems": [
    "str_eq_max_decides",
    "str_eq_decides"
   ],
   "note": ""
  },
  {
   "property": "C54",
   "status": "proved",
   "theorems": [
    "str_cat_correct",
    "str_cpy_correct",
    "str_cpy_max_correct",
    "str_delete_correct",
    "str_map_correct"
   ],
   "note": ""
  },
  {
   "property": "C55",
   "status": "partial",
   "theorems": [
    "parser_line_exact",
    "parser_const_line_column_exact",
    "parser_column_refuted"
   ],
   "note": "Line exact for all histories; column exact for constant data; refuted for dynamic parsers after a rewind."
  },
  {
   "property": "C56",
   "status": "partial",
   "theorems": [
    "decimal_divide_exact_partial",
    "decimal_divide_defined_partial",
    "decimal_divide_refuted"
   ],
   "note": "Exact for quotients below 922337203685477581; larger ones, quotients between 9.22 and that with a fraction, and rounding modes fail by witness."
  },
  {
   "property": "C57",
   "status": "partial",
   "theorems": [
    "threadpool_no_deadlock_partial",
    "threadpool_wait_available_refuted",
    "threadpool_wait_available_spins"
   ],
   "note": "Absence of deadlock is proved for pools whose workers do not time out; with idle_time_ms = 0 a client of wait_available_thread can be left waiting (refuted), and two of them can wake each other for ever. Termination of every schedule is not proved."
  },
  {
   "property": "C58",
   "status": "partial",
   "theorems": [
    "threadpool_destroy_final",
    "threadpool_freed_unused",
    "threadpool_parent_unused",
    "threadpool_destroy_returns",
    "threadpool_destroy_drops_tasks"
   ],
   "note": "Holds for all schedules; tasks still queued when destroying are dropped without being counted, so that waiting for their parent hangs."
  },
  {
   "property": "C59",
   "status": "partial",
   "theorems": [
    "pipeline_no_deadlock",
    "pipeline_fail_deadlock_refuted"
   ],
   "note": "Deadlock freedom proved while the pipeline is up; refuted after a failing task. Termination of schedules is not stated."
  },
  {
   "property": "C60",
   "status": "partial",
   "theorems": [
    "str_eq_max_correct",
    "str_eq_correct",
    "str_eq_constant_time",
    "str_eq_secret_length_refuted",
    "str_eq_start_correct",
    "str_eq_start_unterminated",
    "str_eq_end_correct",
    "casestr_first_partial",
    "casestr_empty_refuted"
   ],
   "note": "Exact except M_str_casestr of two empty strings; the header's promise that the length of s2 stays hidden is refuted."
  },
  {
   "property": "C61",
   "status": "partial",
   "theorems": [
    "tls_verify_host_partial",
    "tls_verify_host_normal_partial",
    "tls_wild_one_level",
    "tls_host_multilevel_refuted",
    "tls_host_fuzzy_ip_refuted",
    "tls_host_long_name_refuted"
   ],
   "note": "Exact characterisation for DNS names up to 255 bytes; longer names are cut, multilevel wildcards match from the left, fuzzy matching treats IP addresses as domains. Translation of binary IP addresses is a parameter."
  },
  {
   "property": "C62",
   "status": "proved",
   "theorems": [
    "percent_round_trip",
    "percent_encode_safe",
    "percent_decode_exact",
    "percent_decode_tolerant",
    "percent_decode_defined"
   ],
   "note": "Byte-level functions; the UTF-8 precheck of the wrapper is outside the model."
  },
  {
   "property": "C63",
   "status": "partial",
   "theorems": [
    "qp_round_trip_partial",
    "qp_lines_partial",
    "qp_encode_refuted",
    "qp_decode_complete",
    "qp_decode_strict_partial",
    "qp_decode_refuted",
    "qp_decode_defined"
   ],
   "note": "Encoder undefined for bytes above 127 where char is signed; strict decoder takes the Loose texts, e.g. =-1 or =4G."
  },
  {
   "property": "C64",
   "status": "partial",
   "theorems": [
    "puny_encode_rfc",
    "puny_decode_rfc_partial",
    "puny_round_trip_partial",
    "puny_never_another",
    "puny_bad_input",
    "puny_round_trip_refuted",
    "puny_decode_overflow_refuted"
   ],
   "note": "Proved against an independent statement of RFC 3492 on unbounded numbers. Encoder: full. Decoder: gives the RFC's meaning or (only from 3854 characters on) fails; the full claim is refuted for long texts (encoder succeeds, decoder overflows) and for code points over 2^32 (the decoder's n wraps)."
  },
  {
   "property": "C65",
   "status": "partial",
   "theorems": [
    "csv_parse_text_partial",
    "csv_parse_text_refuted",
    "csv_parse_safe",
    "csv_write_read_partial"
   ],
   "note": "A quoted cell of nothing but quotes is read with one quote too many (csv_parse_text_refuted): excluded from the two partial theorems."
  },
  {
   "property": "C66",
   "status": "partial",
   "theorems": [
    "json_read_text_partial",
    "json_write_read_partial",
    "json_read_ends",
    "json_read_result",
    "json_comma_refuted",
    "json_empty_key_refuted",
    "json_write_key_refuted",
    "json_unicode_refuted",
    "json_nul_refuted",
    "json_big_integer_refuted",
    "json_replace_refuted",
    "json_replace_overread_refuted",
    "json_number_overread_refuted",
    "json_exponent_refuted"
   ],
   "note": "Documents without exponents, empty keys or surrogate pairs are read exactly; trees of safe values survive writing and reading; reading ends on every input and results are proper trees. Not proved: that only documents are accepted (false, a missing comma is accepted), numbers with exponents. The refuted theorems give inputs on which the unrestricted claim fails."
  },
  {
   "property": "C67",
   "status": "proved",
   "theorems": [
    "xml_encode_correct",
    "xml_encode_clean",
    "xml_decode_correct",
    "xml_roundtrip",
    "xml_decode_length_refuted",
    "xml_decode_names_refuted",
    "xml_attribute_apos_refuted"
   ],
   "note": "Proved for all strings (round trip below 2^28 characters, since the decoder counts with an int). Refuted: that decoding keeps to the given length when the string goes on behind it, that names are matched as XML does."
  },
  {
   "property": "C68",
   "status": "proved",
   "theorems": [
    "path_norm_meaning",
    "path_norm_complete",
    "path_norm_idempotent",
    "path_norm_noparent",
    "path_norm_absolute",
    "path_norm_home",
    "path_norm_links_sound",
    "path_norm_links_complete",
    "path_norm_ends",
    "path_split_meaning",
    "path_join_meaning",
    "path_norm_backslash_refuted",
    "path_norm_dollar_refuted",
    "path_norm_env_parent_refuted",
    "path_norm_env_canonical_refuted",
    "path_norm_loop_refuted",
    "path_norm_home_link_refuted",
    "path_norm_env_unset",
    "path_norm_env_set"
   ],
   "note": "Unix; Windows is modelled and covered by path_norm_ends only. The _refuted theorems show why backslashes and variable-like names are excluded."
  },
  {
   "property": "C69",
   "status": "proved",
   "theorems": [
    "dict_roundtrip",
    "dict_serialize_inj",
    "dict_empty_value_refuted",
    "dict_trailing_escape_refuted",
    "dict_key_refuted",
    "dict_null_quoted_refuted",
    "dict_hexencode_refuted",
    "dict_crlf_refuted",
    "dict_empty_refuted"
   ],
   "note": "Proved for all values; the side conditions (keys are never quoted, value ending with the escape character, ALWAYS_QUOTE with NULL, HEXENCODE, CRLF without TRIM, empty dictionary, empty value reading val[-1]) are each shown necessary by a refutation."
  },
  {
   "property": "C70",
   "status": "proved",
   "theorems": [
    "explode_quoted_joined",
    "explode_quoted_cuts",
    "explode_quoted_max1_refuted",
    "explode_quoted_delim_escape_refuted"
   ],
   "note": "Proved for delimiter different from quote and escape; a limit of 1 is not a limit and delimiter = escape leaves an uninitialised pointer (refuted)."
  },
  {
   "property": "C71",
   "status": "proved",
   "theorems": [
    "compar_str_order",
    "compar_binwraped_order",
    "compar_total_preorders",
    "fnv1a_published",
    "fnv1a_one_byte",
    "strvp_callbacks_good",
    "u64_callbacks_good",
    "vp_callbacks_good",
    "strvp_refines_map",
    "keys_upper_alone_refuted",
    "compar_binwraped_lex_refuted",
    "compar_num_order",
    "compar_str_desc_order"
   ],
   "note": "Discharges the callback hypotheses of C11, C12, C32 and C35 for the library's own callbacks; KEYS_UPPER without CASECMP makes keys unreachable (refuted)."
  },
  {
   "property": "C72",
   "status": "proved",
   "theorems": [
    "fmt_one_text",
    "fmt_truncation",
    "fmt_write_error_refuted"
   ],
   "note": "A failing write is outside the claim: fmt_write_error_refuted shows that a failed write is not always reported, against the documented -1. Total length not wrapped to ssize_t; write() and fwrite() complete."
  },
  {
   "property": "C73",
   "status": "proved",
   "theorems": [
    "fmt_conversions",
    "fmt_hex_zero_refuted",
    "fmt_int_precision_refuted",
    "fmt_negative_star_refuted",
    "fmt_modifier_I_refuted",
    "fmt_inf_zero_refuted",
    "fmt_width_wraps_refuted"
   ],
   "note": "Digits of floating point numbers are an uninterpreted function of the precision. The _refuted theorems are where the code departs from C99, and for the modifier I from m_fmt.h."
  },
  {
   "property": "C74",
   "status": "proved",
   "theorems": [
    "codepage_tables_standard",
    "codepage_outcome_unique",
    "codepage_round_trip",
    "codepage_round_trip_bytes"
   ],
   "note": "The published tables are in TextCodec/Std.v, taken from CPython's copy of the Unicode consortium mappings, not from /repo."
  },
  {
   "property": "C75",
   "status": "partial",
   "theorems": [
    "codepage_encode_partial",
    "codec_encode_invalid_strict",
    "codepage_encode_invalid_refuted",
    "codepage_decode_partial",
    "codepage_decode_valid_partial",
    "codepage_decode_replace_refuted",
    "codepage_replace_mark_refuted",
    "utf8_codec_strict",
    "utf8_codec_replace_partial",
    "utf8_codec_decode_refuted"
   ],
   "note": "Exact behaviour proved for all inputs; the claim is false of the code: invalid UTF-8 with REPLACE or IGNORE follows a NULL pointer for every single-byte codec; the decoding replacement is the two bytes FF FD, which are not UTF-8; the mark is an ASCII ? in EBCDIC pages; the UTF-8 codec with IGNORE leaves invalid bytes in."
  },
  {
   "property": "C76",
   "status": "partial",
   "theorems": [
    "codec_name_round_trip",
    "codec_name_case",
    "codec_names_partial",
    "codec_names_refuted"
   ],
   "note": "All names but iso8859_16, which the code spells iso8859_17."
  },
  {
   "property": "C77",
   "status": "partial",
   "theorems": [
    "textcodec_round_trip_partial",
    "unknown_codec_refuted",
    "textcodec_empty_refuted"
   ],
   "note": "All codecs; UNKNOWN encodes but does not decode (refuted), Punycode up to 3853 characters, quoted-printable ASCII only where char is signed; empty results are NULL."
  },
  {
   "property": "C78",
   "status": "proved",
   "theorems": [
    "xml_read_correct",
    "xml_read_mismatch_rejected",
    "xml_doctype_refuted",
    "xml_cdata_refuted",
    "xml_outside_root_refuted",
    "xml_attribute_forms_refuted"
   ],
   "note": "For texts of documents without document type declaration (Spec.v); the refuted theorems show where the reader is laxer or stricter than XML outside of them. Flags to ignore comments or not to decode are not covered here."
  },
  {
   "property": "C79",
   "status": "proved",
   "theorems": [
    "xml_write_correct",
    "xml_doc_roundtrip",
    "xml_roundtrip_refuted"
   ],
   "note": "For trees as in GoodDoc; xml_roundtrip_refuted shows that the conditions on texts, comments and processing instructions are needed. Flags for lower case or raw text are not covered."
  },
  {
   "property": "C80",
   "status": "proved",
   "theorems": [
    "xml_read_safe",
    "xml_read_unterminated_refuted"
   ],
   "note": "Length below 2^31 because the decoder counts in an int. Allocation never fails in the model."
  },
  {
   "property": "C81",
   "status": "proved",
   "theorems": [
    "xml_read_wellformed"
   ],
   "note": ""
  },
  {
   "property": "C82",
   "status": "proved",
   "theorems": [
    "perms_table",
    "perms_owner",
    "perms_owner_clear",
    "perms_group_empty_refuted",
    "perms_group"
   ],
   "note": "Refinement to a table over all call sequences. The empty name removes the user but not the group."
  },
  {
   "property": "C83",
   "status": "partial",
   "theorems": [
    "perms_to_mode",
    "perms_stat",
    "perms_apply_exact",
    "perms_apply_partial",
    "perms_apply_keeps",
    "perms_apply_refuted",
    "perms_access"
   ],
   "note": "Full claim false of the code: the three class results are or-ed, each computed from the whole old mode, so nothing is ever removed; set-user-id and sticky bits are dropped. Exact behaviour proved; intended result proved when nothing has to be removed. Creation mode and stat conversion proved in full."
  },
  {
   "property": "C84",
   "status": "partial",
   "theorems": [
    "perms_merge_correct",
    "perms_merge_sequential",
    "perms_merge_modifiers_refuted",
    "perms_merge_owner_partial",
    "perms_merge_owner_refuted",
    "perms_dup_partial",
    "perms_dup_refuted",
    "perms_merge_ids_partial"
   ],
   "note": "Permissions part of merge proved in full; owner and group names are not merged, and dup loses the type of the group part."
  },
  {
   "property": "C85",
   "status": "proved",
   "theorems": [
    "spin_mutual_exclusion",
    "spin_fifo",
    "spin_rogue_ignored",
    "spin_unlock_releases",
    "spin_progress"
   ],
   "note": "Sequentially consistent interleaving of single accesses; thread identifiers distinct and not 0; the lock is not taken recursively."
  },
  {
   "property": "C86",
   "status": "proved",
   "theorems": [
    "once_runs_once",
    "once_done_on_return",
    "once_results"
   ],
   "note": "Same model; init_routine does not call into the same object."
  },
  {
   "property": "C87",
   "status": "proved",
   "theorems": [
    "tz_rule_of_year"
   ],
   "note": "Model of the sorted list insertion and of get_rule with the binary insertion index."
  },
  {
   "property": "C88",
   "status": "partial",
   "theorems": [
    "tz_change_partial",
    "tz_change_last_refuted",
    "tz_change_last_refuted_case"
   ],
   "note": "True for counting from the start of the month; false for counting from the end: M_time_tz_rule_change_to_time tests atime.day instead of start_day and never finds a change (and week 5 is not the last week)."
  },
  {
   "property": "C89",
   "status": "partial",
   "theorems": [
    "tz_tolocal_partial",
    "tz_tolocal_east_partial",
    "tz_tolocal_south_partial",
    "tz_tolocal_east_refuted",
    "tz_tolocal_south_refuted"
   ],
   "note": "True west of Greenwich when summer time lies within the calendar year; exact behaviour and counterexamples for the other zones: an hour too long in the east, the opposite half of the year when it spans the new year."
  },
  {
   "property": "C90",
   "status": "partial",
   "theorems": [
    "tz_round_trip_partial",
    "tz_fixed_round_trip",
    "tz_round_trip_refuted"
   ],
   "note": "True for zones without rules and for all zones west of Greenwich; false in the last hour of summer time in the east."
  },
  {
   "property": "C91",
   "status": "proved",
   "theorems": [
    "sm_transitions",
    "sm_answers",
    "sm_next_call",
    "sm_nested",
    "sm_no_ub",
    "sm_insert"
   ],
   "note": "For function states with cleanup machines (machines of any depth, sm_nested). ERROR_NO_PREV, documented for PREV without a previous state, is never returned: the answer is ERROR_BAD_ID. Sub machines and interleaved states are not modelled."
  },
  {
   "property": "C92",
   "status": "partial",
   "theorems": [
    "sm_cleanup_partial",
    "sm_one_cleanup_refuted",
    "sm_one_cleanup_twice_refuted",
    "sm_stop_cleanup_refuted"
   ],
   "note": "Full law without ONE_CLEANUP. With ONE_CLEANUP it needs every cleanup to answer DONE at once: one that waits is never resumed and one that fails is run again (refuted). STOP_CLEANUP does not stop cleanup, and CONTINUE registers the state for cleanup, both against the documentation."
  },
  {
   "property": "C93",
   "status": "proved",
   "theorems": [
    "sm_terminates"
   ],
   "note": "Function states; cleanup machines that terminate."
  },
  {
   "property": "C94",
   "status": "proved",
   "theorems": [
    "sm_linear"
   ],
   "note": "Without DONE_CLEANUP and EXPLICIT_NEXT."
  },
  {
   "property": "C95",
   "status": "partial",
   "theorems": [
    "table_refines_partial",
    "table_rename_refuted",
    "table_same_name_refuted",
    "table_id_refuted",
    "table_id_redrawn_partial"
   ],
   "note": "Refinement for all covered sequences of calls. False in general: renaming a named column leaves the old name in the index, set_name allows one name twice, and a repeated random id merges two rows (ids of rows without values and of unnamed columns are not checked); these are the three conditions of the theorem."
  },
  {
   "property": "C96",
   "status": "partial",
   "theorems": [
    "table_sort",
    "table_sort_at_refuted"
   ],
   "note": "By name proved; by position false: the range test is inverted, so sort_data_at does nothing for any existing column."
  },
  {
   "property": "C97",
   "status": "proved",
   "theorems": [
    "table_merge",
    "table_merge_columns_refuted"
   ],
   "note": "Exact statement; the refutation records that the columns of a source without rows are not added."
  },
  {
   "property": "C98",
   "status": "partial",
   "theorems": [
    "proxy_writes",
    "proxy_writes_local",
    "proxy_reads_v2",
    "proxy_reads_v1_partial",
    "proxy_reads_local",
    "proxy_both_ends_partial"
   ],
   "note": "Version 2 for every cut. Version 1 for headers in one piece, and for every cut if the source port has at most 4 and the destination port at most 3 characters; otherwise false of the code (proxy_cut_port_refuted). Address texts are converted by parameters standing for inet_pton/inet_ntop."
  },
  {
   "property": "C99",
   "status": "partial",
   "theorems": [
    "proxy_cut_partial",
    "proxy_cut_port_refuted",
    "proxy_cut_unspec_refuted"
   ],
   "note": "False of the code as stated: a cut after 5 digits of a version 1 port makes the layer fail, and a cut inside the data of a version 2 header with unspecified family hands that data to the application. Proved for all other streams; for version 1 up to early failure."
  },
  {
   "property": "C100",
   "status": "proved",
   "theorems": [
    "proxy_total",
    "proxy_needs_header",
    "proxy_v2_only"
   ],
   "note": "All streams, cuts and flags."
  },
  {
   "property": "C101",
   "status": "proved",
   "theorems": [
    "iobuf_reads",
    "iobuf_writes",
    "iobuf_total"
   ],
   "note": "The layer below is any that keeps the read/write contract; limits above 2^62 bytes are excluded."
  },
  {
   "property": "C102",
   "status": "partial",
   "theorems": [
    "iobuf_wakes_reader",
    "iobuf_wakes_writer",
    "iobuf_flushes",
    "iobuf_no_stall_partial",
    "iobuf_stall_refuted"
   ],
   "note": "The last clause is false of the code: a read event processed while the read buffer is full clears the mark that more is to be read (iobuf_stall_refuted). Proved for runs without such an event."
  },
  {
   "property": "C103",
   "status": "partial",
   "theorems": [
    "iobuf_bounded_partial",
    "iobuf_small_limit_refuted"
   ],
   "note": "False for read limits below 16 KB, which count as 16 KB; proved with that limit."
  },
  {
   "property": "C104",
   "status": "proved",
   "theorems": [
    "sql_trans_once",
    "sql_trans_none"
   ],
   "note": "A commit that the driver reports as failed is taken not to have been applied, as the driver's contract says."
  },
  {
   "property": "C105",
   "status": "proved",
   "theorems": [
    "sql_trans_retries",
    "sql_trans_ends"
   ],
   "note": "Termination is stated for commands that do not hide rollback codes (otherwise see C106)."
  },
  {
   "property": "C106",
   "status": "partial",
   "theorems": [
    "sql_trans_protocol_partial",
    "sql_trans_safe_partial",
    "sql_trans_use_after_free_refuted",
    "sql_trans_open_transaction_refuted"
   ],
   "note": "False in general: M_sql_trans_commit reads a connection that was just destroyed when the command hid that it was lost; a rollback failing with a code other than of a lost connection leaves the transaction open on a pooled connection. Proved for all commands and drivers that do neither."
  },
  {
   "property": "C107",
   "status": "proved",
   "theorems": [
    "aw_order"
   ],
   "note": "For all runs without condition."
  },
  {
   "property": "C108",
   "status": "partial",
   "theorems": [
    "aw_accounts_partial",
    "aw_write_partial",
    "aw_lost_refuted",
    "aw_dead_refuted",
    "aw_hang_refuted",
    "aw_twice_refuted"
   ],
   "note": "False in two situations, both refuted by runs: a refused message that comes back to an empty queue is lost while its size stays counted, after which accepted messages are dropped at once or M_async_writer_write never returns; a report is made twice when the message after it is refused. Proved for all runs without these."
  },
  {
   "property": "C109",
   "status": "partial",
   "theorems": [
    "aw_commands_partial",
    "aw_block_returns_partial",
    "aw_command_lost_refuted",
    "aw_block_early_refuted",
    "aw_block_waits"
   ],
   "note": "False: a command taken together with a report that the callback refuses is lost and its caller waits; a caller can be woken by an earlier command. Proved: nothing is lost and the caller is woken if no report is refused (and the command is not 0)."
  },
  {
   "property": "C110",
   "status": "proved",
   "theorems": [
    "tls_value",
    "tls_keys"
   ],
   "note": "For all schedules of lock regions and own-table steps; destructors that call the storage functions themselves are not modelled."
  },
  {
   "property": "C111",
   "status": "partial",
   "theorems": [
    "tls_destroy_partial",
    "tls_null_refuted",
    "tls_same_refuted"
   ],
   "note": "Each store is matched by one destructor call, in order, and none is left when the thread has ended. False: clearing stores NULL, which the destructor gets later; storing the pointer that is stored destroys it and keeps it."
  }
 ]
}