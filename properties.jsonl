{"id": "C01", "title": "Hex encode/decode round trip (unwrapped)", "statement": "For every byte string b, encoding b with M_hex_encode (no line wrap) into a buffer of the documented target size succeeds, writes exactly 2*|b| characters from 0-9A-F, never touches memory outside the two buffers, and M_hex_decode of that text into a buffer of |b| bytes returns |b| and yields exactly b.", "quantifier": "all byte strings of any length", "why_tests_cant": "The input space is unbounded; a test samples finitely many inputs and cannot show the absence of a failing one.", "anchors": ["base/bincodec/m_hex.c:M_hex_encode", "base/bincodec/m_hex.c:M_hex_decode", "base/bincodec/m_hex.c:M_hex_target_size"]}
{"id": "C02", "title": "Hex decoding denotes the text", "statement": "Whenever M_hex_decode succeeds on a text without white space, the text consists of hex digit pairs only and the output is the sequence of the pairs' values; otherwise it returns 0. It never writes more than outLen bytes.", "quantifier": "all texts and all output buffer sizes", "why_tests_cant": "The input space is unbounded; a test samples finitely many inputs and cannot show the absence of a failing one.", "anchors": ["base/bincodec/m_hex.c:M_hex_decode"]}
{"id": "C03", "title": "Base64 encode/decode round trip (unwrapped)", "statement": "For every byte string b, M_base64_encode without wrapping into a buffer of M_base64_encode_size succeeds without leaving the buffers, the text is the RFC 4648 base64 encoding of b, and M_base64_decode of that text with an output buffer of M_base64_decode_size bytes returns |b| and yields exactly b.", "quantifier": "all byte strings of any length", "why_tests_cant": "The input space is unbounded; a test samples finitely many inputs and cannot show the absence of a failing one.", "anchors": ["base/bincodec/m_base64.c:M_base64_encode", "base/bincodec/m_base64.c:M_base64_decode", "base/bincodec/m_base64.c:M_base64_encode_size", "base/bincodec/m_base64.c:M_base64_decode_size"]}
{"id": "C04", "title": "Line-wrapped hex and base64 decode back", "statement": "For every byte string b and every wrap width w > 0, the wrapped hex (base64) encoding of b decodes back to b.", "quantifier": "all byte strings and all wrap widths", "why_tests_cant": "Whether it fails depends on the arithmetic relation between length and wrap width; tests use a few (length, wrap) pairs.", "anchors": ["base/bincodec/m_hex.c:M_hex_encode", "base/bincodec/m_hex.c:M_hex_decode", "base/bincodec/m_base64.c:M_base64_encode", "base/bincodec/m_base64.c:M_base64_decode"]}
{"id": "C05", "title": "Base32 encode/decode round trip", "statement": "For every byte string b, M_base32_decode (M_base32_encode b) = b with the same length.", "quantifier": "all byte strings", "why_tests_cant": "The input space is unbounded; a test samples finitely many inputs and cannot show the absence of a failing one.", "anchors": ["base/bincodec/m_base32.c:M_base32_encode", "base/bincodec/m_base32.c:M_base32_decode"]}
{"id": "C06", "title": "Text decoders stay inside their buffers", "statement": "Whatever text and lengths they are given, the hex and base64 decoders read only the in_len input bytes and write only the out_len output bytes.", "quantifier": "all input texts, all lengths and output sizes", "why_tests_cant": "An out-of-bounds read of one byte normally has no visible effect in a test run and hostile inputs are unbounded in number.", "anchors": ["base/bincodec/m_base64.c:M_base64_decode", "base/bincodec/m_hex.c:M_hex_decode"]}
{"id": "C07", "title": "Bit-manipulation helpers compute their mathematical meaning", "statement": "M_uint*_is_power_of_two, M_uint*_round_up_to_power_of_two, M_uint*_log2 compute, for every argument in their documented domain, exactly the mathematical function: x is 2^k for some k; the least power of two >= x; the k with x = 2^k.", "quantifier": "all 8/16/32/64-bit arguments", "why_tests_cant": "2^64 arguments; the 64-bit versions use multiplications and tables whose failures are at isolated values.", "anchors": ["base/math/m_bithacks.c:M_uint64_is_power_of_two", "base/math/m_bithacks.c:M_uint64_round_up_to_power_of_two", "base/math/m_bithacks.c:M_uint64_log2", "base/math/m_bithacks.c:M_uint32_log2", "base/math/m_bithacks.c:M_sign_extend"]}
{"id": "C08", "title": "Random range stays in range", "statement": "For min < max, M_rand_range(min,max) always returns a value v with min <= v < max, whatever the generator's state, and every value of the range can occur (no value is excluded); M_rand_max likewise.", "quantifier": "all generator outputs, all min and max", "why_tests_cant": "The generator has 2^64 states and boundary outputs are hit with probability ~2^-64.", "anchors": ["base/math/m_rand.c:M_rand_range", "base/math/m_rand.c:M_rand_max", "base/math/m_rand.c:M_rand"]}
{"id": "C09", "title": "Mergesort is a stable sort", "statement": "For every array and every comparison that is a total preorder, M_sort_mergesort leaves a permutation of the array that is sorted and keeps equal elements in their original relative order.", "quantifier": "all arrays, all total preorders", "why_tests_cant": "The input space is unbounded; a test samples finitely many inputs and cannot show the absence of a failing one.", "anchors": ["base/sort/m_sort_mergesort.c:M_sort_mergesort"]}
{"id": "C10", "title": "Quicksort sorts", "statement": "For every array and every comparison that is a total preorder, M_sort_qsort terminates, never leaves the array, and leaves a sorted permutation of it.", "quantifier": "all arrays, all total preorders", "why_tests_cant": "Pivot choice, swap counting and the insertion sort shortcut interact; adversarial arrays are not enumerable.", "anchors": ["base/sort/m_sort_qsort.c:M_sort_qsort"]}
{"id": "C11", "title": "Binary search is exact", "statement": "On an array sorted under the comparison, M_sort_binary_search reports success iff some element equals the key, the reported index then holds an equal element, and with the stable flag it is the first such index.", "quantifier": "all sorted arrays, all keys, both modes", "why_tests_cant": "The input space is unbounded; a test samples finitely many inputs and cannot show the absence of a failing one.", "anchors": ["base/sort/m_sort_binary.c:M_sort_binary_search"]}
{"id": "C12", "title": "Sorted insertion index keeps order and stability", "statement": "On a sorted array M_sort_binary_insert_idx returns an index i <= nmemb such that inserting the key at i leaves the array sorted; with the stable flag the key goes after all elements equal to it.", "quantifier": "all sorted arrays, all keys, both modes", "why_tests_cant": "The input space is unbounded; a test samples finitely many inputs and cannot show the absence of a failing one.", "anchors": ["base/sort/m_sort_binary.c:M_sort_binary_insert_idx"]}
{"id": "C13", "title": "UTF-8 encode/decode round trip", "statement": "For every code point accepted by M_utf8_is_valid_cp, M_utf8_from_cp produces a sequence that M_utf8_get_cp decodes to the same code point, consuming exactly that sequence, whatever follows it; and re-encoding any code point decoded from a text reproduces the bytes consumed.", "quantifier": "all code points, all texts", "why_tests_cant": "1.1 million code points times arbitrary continuations; tests use samples.", "anchors": ["base/utf8/m_utf8.c:M_utf8_from_cp", "base/utf8/m_utf8.c:M_utf8_get_cp"]}
{"id": "C14", "title": "UTF-8 decoder accepts exactly well-formed sequences", "statement": "M_utf8_get_cp succeeds on a text iff it starts with a well-formed (shortest form, non-surrogate, in range, non-noncharacter) UTF-8 sequence, and never reads past the terminating NUL; in particular overlong encodings and surrogates are always rejected.", "quantifier": "all NUL-terminated byte strings", "why_tests_cant": "2^32 four-byte prefixes and security-relevant rare encodings.", "anchors": ["base/utf8/m_utf8.c:M_utf8_get_cp", "base/utf8/m_utf8.c:M_utf8_is_valid_cp"]}
{"id": "C15", "title": "UTF-8 indexing agrees with counting", "statement": "M_utf8_cp_at(str,idx) returns success iff str is valid up to that point and idx < M_utf8_cnt(str), and then yields the idx-th code point.", "quantifier": "all texts and indices", "why_tests_cant": "The input space is unbounded; a test samples finitely many inputs and cannot show the absence of a failing one.", "anchors": ["base/utf8/m_utf8.c:M_utf8_cp_at", "base/utf8/m_utf8.c:M_utf8_cnt"]}
{"id": "C16", "title": "Integer parsing is exact or reports overflow", "statement": "M_str_to_uint64_ex / M_str_to_int64_ex on an optionally signed digit string in base b either return the success code with exactly the mathematical value denoted by the maximal digit prefix, or report over/underflow when that value is not representable.", "quantifier": "all strings, all bases", "why_tests_cant": "The wrap-around test can only be fooled by particular digit strings, which tests did not include.", "anchors": ["base/data/m_str_num.c:M_str_to_uint64_ex", "base/data/m_str_num.c:M_str_to_int64_ex", "base/data/m_str_num.c:M_str_to_uint32_ex", "base/data/m_str_num.c:M_str_to_int32_ex"]}
{"id": "C17", "title": "explode/implode are inverse", "statement": "For every delimiter and string, M_str_explode splits exactly at the delimiters (no piece contains it, number of pieces = delimiters+1) and M_str_implode of the pieces restores the string.", "quantifier": "all strings, all delimiters, all piece limits", "why_tests_cant": "The input space is unbounded; a test samples finitely many inputs and cannot show the absence of a failing one.", "anchors": ["base/data/m_str.c:M_str_explode", "base/data/m_str.c:M_str_implode"]}
{"id": "C18", "title": "quote/unquote round trip", "statement": "For every string s and distinct quote and escape characters, M_str_unquote of the M_strdup_quote of s is s.", "quantifier": "all strings, all quote/escape characters", "why_tests_cant": "Runs of escape characters next to quotes at any position.", "anchors": ["base/data/m_str.c:M_str_quote_max", "base/data/m_str.c:M_str_unquote_max"]}
{"id": "C19", "title": "Substring replacement replaces every occurrence and nothing else", "statement": "M_strdup_replace_str(s,b,a) is s with each non-overlapping occurrence of b, scanning left to right, replaced by a.", "quantifier": "all strings s, b (non-empty), a", "why_tests_cant": "The defect depends on where the last match ends.", "anchors": ["base/data/m_str.c:M_strdup_replace_str"]}
{"id": "C20", "title": "Trim removes exactly surrounding white space", "statement": "M_str_trim(s) is the unique t without leading/trailing white space such that s = w1 t w2 with w1,w2 all white space.", "quantifier": "all strings", "why_tests_cant": "The input space is unbounded; a test samples finitely many inputs and cannot show the absence of a failing one.", "anchors": ["base/data/m_str.c:M_str_trim", "base/data/m_str.c:M_str_trim_max"]}
{"id": "C21", "title": "Glob matching equals its specification", "statement": "M_str_pattern_match(pattern,s) is true iff s is in the language denoted by the pattern (* any sequence, ? any character, [..] sets and ranges, \\ quoting).", "quantifier": "all patterns and strings", "why_tests_cant": "Backtracking over * creates unboundedly many paths.", "anchors": ["base/data/m_str_patmatch.c:pattern_matches"]}
{"id": "C22", "title": "Justification has the requested length", "statement": "M_str_justify_max output, when it succeeds, is NUL terminated inside dest, has the promised length, and consists of the (possibly truncated) source and the padding character on the requested side.", "quantifier": "all strings, lengths, justification kinds", "why_tests_cant": "The input space is unbounded; a test samples finitely many inputs and cannot show the absence of a failing one.", "anchors": ["base/data/m_str.c:M_str_justify_max"]}
{"id": "C23", "title": "Byte buffer refines a byte string", "statement": "After any sequence of M_buf add/truncate/drop/set operations, the buffer's length and contents equal those of the byte string obtained by applying the corresponding string operations, and no operation accesses memory outside the allocation.", "quantifier": "all finite operation sequences and arguments", "why_tests_cant": "Reallocation and consumed-prefix handling depend on the history of the buffer.", "anchors": ["base/data/m_buf.c:M_buf_add_bytes", "base/data/m_buf.c:M_buf_drop", "base/data/m_buf.c:M_buf_truncate", "base/data/m_buf.c:ensure_space", "base/data/m_buf.c:M_buf_trim"]}
{"id": "C24", "title": "Merging buffers concatenates them", "statement": "M_buf_merge(dest,src) appends the current contents of src to dest, whatever was done to either buffer before.", "quantifier": "all histories of both buffers", "why_tests_cant": "Wrong only for sources whose head was consumed before while something else held.", "anchors": ["base/data/m_buf.c:M_buf_merge"]}
{"id": "C25", "title": "Parser refines a byte stream", "statement": "After any sequence of M_parser append/consume/read/truncate operations the unread data is exactly appended data minus consumed prefix minus truncated suffix; reads return the next bytes in order, failing reads consume nothing.", "quantifier": "all finite operation sequences", "why_tests_cant": "Depends on history (dynamic buffer compaction at append).", "anchors": ["base/data/m_parser.c:M_parser_append", "base/data/m_parser.c:M_parser_consume", "base/data/m_parser.c:M_parser_read_bytes", "base/data/m_parser.c:M_parser_truncate", "base/data/m_parser.c:M_parser_ensure_space"]}
{"id": "C26", "title": "Parser mark and rewind", "statement": "M_parser_mark then any operations that keep the mark, then M_parser_mark_rewind restores the unread data to what it was at the mark plus everything appended since; M_parser_mark_len is the number of bytes consumed since the mark.", "quantifier": "all finite operation sequences between mark and rewind", "why_tests_cant": "Depends on buffer compaction in append at particular offsets.", "anchors": ["base/data/m_parser.c:M_parser_mark", "base/data/m_parser.c:M_parser_mark_rewind", "base/data/m_parser.c:M_parser_mark_len", "base/data/m_parser.c:M_parser_ensure_space"]}
{"id": "C27", "title": "Boundary search finds the pattern", "statement": "M_parser_consume_boundary consumes exactly the bytes before the first occurrence of the pattern if there is one, otherwise everything except the longest suffix that is a prefix of the pattern.", "quantifier": "all streams and patterns", "why_tests_cant": "Needs self-overlapping patterns at particular offsets.", "anchors": ["base/data/m_parser.c:M_parser_consume_boundary"]}
{"id": "C28", "title": "consume_until/search find the first occurrence", "statement": "M_mem_mem returns the first occurrence of the needle and NULL iff there is none; M_mem_rmem the last one; M_parser_consume_until consumes exactly up to (or through) the first occurrence.", "quantifier": "all haystacks and needles", "why_tests_cant": "The input space is unbounded; a test samples finitely many inputs and cannot show the absence of a failing one.", "anchors": ["base/mem/m_mem.c:M_mem_mem", "base/mem/m_mem.c:M_mem_rmem", "base/data/m_parser.c:M_parser_consume_until"]}
{"id": "C29", "title": "Bit buffer refines a bit string", "statement": "After any sequence of M_bit_buf operations the contents equal the bit string obtained by concatenating the bits added.", "quantifier": "all finite operation sequences", "why_tests_cant": "Alignment dependent paths combine with the history.", "anchors": ["base/data/m_bit_buf.c:M_bit_buf_add_bit", "base/data/m_bit_buf.c:M_bit_buf_add", "base/data/m_bit_buf.c:M_bit_buf_add_bytes", "base/data/m_bit_buf.c:M_bit_buf_fill", "base/data/m_bit_buf.c:M_bit_buf_update_bit", "base/data/m_bit_buf.c:M_bit_buf_truncate"]}
{"id": "C30", "title": "Bit parser reads the bits in order", "statement": "Reading n bits as an unsigned integer returns the big-endian value of the next n bits, advances by n, and fails without consuming when fewer are left.", "quantifier": "all bit strings, all n <= 64, all offsets", "why_tests_cant": "The input space is unbounded; a test samples finitely many inputs and cannot show the absence of a failing one.", "anchors": ["base/data/m_bit_parser.c:M_bit_parser_read_uint", "base/data/m_bit_parser.c:M_bit_parser_read_bit", "base/data/m_bit_parser.c:M_bit_parser_consume"]}
{"id": "C31", "title": "List refines a sequence", "statement": "After any sequence of insert/remove/take/replace/at operations, an unsorted M_list behaves as the mathematical sequence with the corresponding operations; indices are never accessed outside the allocation.", "quantifier": "all finite operation sequences", "why_tests_cant": "Start offset, growth and shrinking depend on the history.", "anchors": ["base/list/m_list.c:M_list_insert", "base/list/m_list.c:M_list_insert_at", "base/list/m_list.c:M_list_remove_at", "base/list/m_list.c:M_list_take_at", "base/list/m_list.c:M_list_at"]}
{"id": "C32", "title": "Sorted list stays sorted", "statement": "After any sequence of operations a list created with the sorted flag is sorted under its comparison and is a permutation of what was inserted minus removed, and M_list_index_of finds a value iff present.", "quantifier": "all finite operation sequences, all total preorders", "why_tests_cant": "Depends on history.", "anchors": ["base/list/m_list.c:M_list_insert", "base/list/m_list.c:M_list_insert_begin", "base/list/m_list.c:M_list_insert_end", "base/list/m_list.c:M_list_index_of"]}
{"id": "C33", "title": "Duplicate removal keeps one of each", "statement": "M_list_remove_duplicates leaves exactly one element of every equivalence class present and removes nothing else.", "quantifier": "all lists", "why_tests_cant": "The input space is unbounded; a test samples finitely many inputs and cannot show the absence of a failing one.", "anchors": ["base/list/m_list.c:M_list_remove_duplicates"]}
{"id": "C34", "title": "Linked list refines a sequence", "statement": "After any sequence of operations a non-circular M_llist traversed forwards yields the mathematical sequence, backwards its reverse, and removed nodes are no longer reachable.", "quantifier": "all finite operation sequences", "why_tests_cant": "Pointer updates depend on neighbouring nodes and on the history.", "anchors": ["base/list/m_llist.c:M_llist_insert", "base/list/m_llist.c:M_llist_remove_node", "base/list/m_llist.c:M_llist_insert_before", "base/list/m_llist.c:M_llist_insert_after"]}
{"id": "C35", "title": "Hashtable refines a finite map", "statement": "After any sequence of insert/remove/get operations M_hashtable_get returns the value of the last insert of an equal key not followed by its removal, the key count is the number of such keys, and enumeration lists each exactly once — whatever the hash function, across all rehashes.", "quantifier": "all operation sequences, all hash functions, all key equalities that are equivalences respected by the hash", "why_tests_cant": "Collisions and rehash timing depend on the whole history and on the per-table random seed.", "anchors": ["base/hash/m_hashtable.c:M_hashtable_insert", "base/hash/m_hashtable.c:M_hashtable_get", "base/hash/m_hashtable.c:M_hashtable_remove", "base/hash/m_hashtable.c:M_hashtable_rehash", "base/hash/m_hashtable.c:M_hashtable_enumerate"]}
{"id": "C36", "title": "Multi-value hashtable counts its values", "statement": "In a multi-value table the count M_hashtable_enumerate returns is always the total number of values stored over all keys, and multi_get/multi_len/multi_remove act on each key's value sequence.", "quantifier": "all operation sequences", "why_tests_cant": "Depends on history.", "anchors": ["base/hash/m_hashtable.c:M_hashtable_multi_remove", "base/hash/m_hashtable.c:M_hashtable_multi_get", "base/hash/m_hashtable.c:M_hashtable_enumerate"]}
{"id": "C37", "title": "Cache is LRU with bounded size", "statement": "After any sequence of insert/get/remove/set_max_size, M_cache_get returns the latest value inserted for the key iff the key is among the max_size most recently used ones; the size never exceeds the maximum.", "quantifier": "all operation sequences, all sizes, all callbacks", "why_tests_cant": "Depends on history.", "anchors": ["base/cache/m_cache.c:M_cache_insert", "base/cache/m_cache.c:M_cache_get", "base/cache/m_cache.c:M_cache_remove", "base/cache/m_cache.c:M_cache_set_max_size"]}
{"id": "C38", "title": "Queue is FIFO without duplicates", "statement": "M_queue delivers members in insertion order (or sorted order), an inserted pointer is a member exactly until taken or removed, inserting a member again fails.", "quantifier": "all operation sequences", "why_tests_cant": "Depends on history.", "anchors": ["base/data/m_queue.c:M_queue_insert", "base/data/m_queue.c:M_queue_take", "base/data/m_queue.c:M_queue_remove", "base/data/m_queue.c:M_queue_first"]}
{"id": "C39", "title": "Decimal addition and subtraction are exact or report", "statement": "When M_decimal_add/M_decimal_subtract return SUCCESS the result is exactly the rational sum/difference; no intermediate overflow is undetected.", "quantifier": "all pairs of decimals", "why_tests_cant": "2^144 operand pairs; failures are at overflow boundaries.", "anchors": ["base/math/m_decimal.c:M_decimal_add", "base/math/m_decimal.c:M_decimal_subtract", "base/math/m_decimal.c:M_decimal_transform"]}
{"id": "C40", "title": "Decimal comparison is numeric order", "statement": "M_decimal_cmp(a,b) is the sign of a-b as rational numbers.", "quantifier": "all pairs of decimals", "why_tests_cant": "Needs operands whose alignment overflows 64 bits.", "anchors": ["base/math/m_decimal.c:M_decimal_cmp"]}
{"id": "C41", "title": "Decimal text round trip", "statement": "M_decimal_from_str of the M_decimal_to_str of d yields a decimal equal in value to d.", "quantifier": "all decimals", "why_tests_cant": "2^72 decimals.", "anchors": ["base/math/m_decimal.c:M_decimal_to_str", "base/math/m_decimal.c:M_decimal_from_str"]}
{"id": "C42", "title": "Decimal multiplication and rounding", "statement": "M_decimal_multiply with SUCCESS is the exact rational product; with rounding modes the result of M_decimal_transform is the correctly rounded value.", "quantifier": "all decimals, all rounding modes", "why_tests_cant": "Ties and multi-digit remainders over 2^64 numerators.", "anchors": ["base/math/m_decimal.c:M_decimal_multiply", "base/math/m_decimal.c:M_decimal_transform"]}
{"id": "C43", "title": "Calendar conversion is correct and invertible", "statement": "For every time t, M_time_togm gives the proleptic Gregorian date and time of t seconds from 1970-01-01 (with valid month, day, weekday and year day) and M_time_fromgm of it gives back t.", "quantifier": "all 64-bit times (within overflow-free range)", "why_tests_cant": "2^64 times; leap-year rules interact at century boundaries.", "anchors": ["base/time/m_time_gm.c:M_time_togm", "base/time/m_time_gm.c:M_time_fromgm", "base/time/m_time_gm.c:M_time_normalize_tm"]}
{"id": "C44", "title": "Calendar normalisation", "statement": "M_time_fromgm of a broken-down time with out-of-range day counts denotes the day counted from the given month start.", "quantifier": "all broken-down times", "why_tests_cant": "Wrong only for out-of-range days combined with particular months and leap years.", "anchors": ["base/time/m_time_gm.c:M_time_normalize_tm", "base/time/m_time_gm.c:M_time_fromgm"]}
{"id": "C45", "title": "Read/write lock mutual exclusion", "statement": "With any number of threads and any schedule of the emulated rwlock, while a thread holds the write lock no other thread holds any lock on it.", "quantifier": "all numbers of threads, all interleavings, including spurious wake-ups", "why_tests_cant": "The number of interleavings is unbounded.", "anchors": ["thread/m_thread_rwlock_emu.c:M_thread_rwlock_emu_lock", "thread/m_thread_rwlock_emu.c:M_thread_rwlock_emu_unlock"]}
{"id": "C46", "title": "Read/write lock loses no wake-up", "statement": "In no reachable state of the emulated rwlock are threads blocked for the lock while the lock is free and no thread has a pending wake-up or is about to send one.", "quantifier": "all interleavings and histories", "why_tests_cant": "A lost wake-up needs a particular interleaving.", "anchors": ["thread/m_thread_rwlock_emu.c:M_thread_rwlock_emu_lock", "thread/m_thread_rwlock_emu.c:M_thread_rwlock_emu_unlock"]}
{"id": "C47", "title": "Thread pool runs each dispatched task exactly once", "statement": "Under every schedule each task handed to M_threadpool_dispatch is started at most once, tasks are started in queue order, the queue never exceeds its maximum, the number of workers never exceeds max_threads, and M_threadpool_parent_wait returns only when every task dispatched through that parent before has completed.", "quantifier": "all schedules, all numbers of dispatchers, workers and tasks", "why_tests_cant": "Interleavings are unbounded.", "anchors": ["thread/m_threadpool.c:M_threadpool_dispatch_notify", "thread/m_threadpool.c:M_threadpool_queue_fetch", "thread/m_threadpool.c:M_threadpool_thread", "thread/m_threadpool.c:M_threadpool_parent_wait"]}
{"id": "C48", "title": "Pipeline finishes every task at most once and in order", "statement": "Under every schedule M_thread_pipeline invokes the finish callback at most once per inserted task, a task reported successful has run through all steps in order, and the task count equals inserted minus finished tasks.", "quantifier": "all schedules, steps and tasks", "why_tests_cant": "Interleavings are unbounded.", "anchors": ["thread/m_thread_pipeline.c:M_thread_pipeline_task_insert", "thread/m_thread_pipeline.c:pipeline_finish_step", "thread/m_thread_pipeline.c:pipeline_thread_cb"]}
{"id": "C49", "title": "Pipeline destruction terminates", "statement": "M_thread_pipeline_destroy always returns provided the step callbacks return.", "quantifier": "all schedules", "why_tests_cant": "Needs a particular interleaving of a shutdown with a full pipeline.", "anchors": ["thread/m_thread_pipeline.c:M_thread_pipeline_destroy", "thread/m_thread_pipeline.c:pipeline_finish_step", "thread/m_thread_pipeline.c:pipeline_thread_cb"]}
{"id": "C50", "title": "Timers fire neither early nor too often", "statement": "An event timer never fires before its scheduled time, fires at most its fire count between start calls, is queued in time order, and never fires after being stopped.", "quantifier": "all histories of timer operations and clock readings", "why_tests_cant": "Depends on history and clock.", "anchors": ["io/m_event_timer.c:M_event_timer_process", "io/m_event_timer.c:M_event_timer_schedule", "io/m_event_timer.c:M_event_timer_start", "io/m_event_timer.c:M_event_timer_stop"]}
{"id": "C51", "title": "Byte-order conversions are involutions with the right layout", "statement": "The 16/32/64-bit swaps reverse the bytes; hton/ntoh pairs are mutually inverse and the bytes of the network form are the big-endian digits of the value.", "quantifier": "all 16/32/64-bit values", "why_tests_cant": "2^64 values.", "anchors": ["base/mem/m_endian.c:M_swap64", "base/mem/m_endian.c:M_swap32", "base/mem/m_endian.c:M_swap16"]}
{"id": "C52", "title": "Memory comparison and checksums", "statement": "M_mem_eq is true iff the regions are equal; M_mem_calc_lrc of a message followed by its LRC is 0; M_mem_calc_crc8 of data is the remainder computed bit by bit.", "quantifier": "all byte strings", "why_tests_cant": "The input space is unbounded; a test samples finitely many inputs and cannot show the absence of a failing one.", "anchors": ["base/mem/m_mem.c:M_mem_eq", "base/mem/m_mem.c:M_mem_calc_lrc"]}
{"id": "C53", "title": "String equality is equality of the first characters", "statement": "M_str_eq_max / M_str_caseeq_max return true iff the first max characters of the two strings (after ASCII lower-casing for the case-insensitive variant) are the same, never reading past either terminator; M_str_eq is equality of strings.", "quantifier": "all strings, all limits", "why_tests_cant": "Infinitely many inputs; the accumulate-xor loop must not lose a difference and must treat a shorter string as different.", "anchors": ["base/data/m_str.c:M_str_eq_max_int", "base/data/m_str.c:M_ct_tolower"]}
{"id": "C54", "title": "Small string edits stay in bounds and do exactly the edit", "statement": "M_str_cat appends all of src or changes nothing and always keeps the terminator inside dest_len; M_str_cpy and M_str_cpy_max copy a truncated prefix and always terminate; M_str_delete_spaces/newlines remove exactly those characters; M_str_lower/upper_max and M_str_replace_chr change exactly the characters asked for.", "quantifier": "all C strings, buffer sizes and lengths", "why_tests_cant": "Off-by-one writes at the end of dest depend on the exact relation of two lengths and a size, a three-dimensional family that tests sample at a few points.", "anchors": ["base/data/m_str.c:M_str_cat", "base/data/m_str.c:M_str_cpy_max", "base/data/m_str.c:M_str_delete_spaces", "base/data/m_str.c:M_str_replace_chr"]}
{"id": "C55", "title": "Parser line and column tracking", "statement": "With M_PARSER_FLAG_TRACKLINES M_parser_current_line is one more than the number of newlines in the data consumed so far (rewound data not counted) and M_parser_current_column one more than the number of bytes consumed since the last newline.", "quantifier": "all finite operation sequences, including marks and rewinds", "why_tests_cant": "Depends on the whole history of consumption and rewinds.", "anchors": ["base/data/m_parser.c:M_parser_current_line", "base/data/m_parser.c:M_parser_current_column", "base/data/m_parser.c:M_parser_consume", "base/data/m_parser.c:M_parser_rewind_int"]}
{"id": "C56", "title": "Decimal division is exact or reports", "statement": "When M_decimal_divide without rounding returns SUCCESS, result times divisor is the dividend; no input makes it overflow silently.", "quantifier": "all pairs of decimals", "why_tests_cant": "2^144 operand pairs; failures depend on the magnitude of the quotient.", "anchors": ["base/math/m_decimal.c:M_decimal_divide"]}
{"id": "C57", "title": "Thread pool does not deadlock", "statement": "When workers do not time out (idle_time_ms is M_UINT64_MAX or max_threads <= min_threads) and at least one worker exists, a pool that is not being destroyed can only come to rest with every call returned, the queue empty and every dispatched task completed exactly once; M_threadpool_wait_available_thread never waits while a thread is available.", "quantifier": "all configurations, all numbers of clients and parents, all schedules", "why_tests_cant": "Lost wake-ups show up only in particular interleavings; the number of schedules is unbounded.", "anchors": ["thread/m_threadpool.c:M_threadpool_queue_insert", "thread/m_threadpool.c:M_threadpool_queue_fetch", "thread/m_threadpool.c:M_threadpool_wait_available_thread"]}
{"id": "C58", "title": "Destroying a thread pool is safe and returns", "statement": "M_threadpool_destroy returns only after every worker has stopped using the pool, it does not hang, after it no task is started or completed, and a destroyed parent is referred to by no worker, queued task or call.", "quantifier": "all configurations, all schedules in which clients follow the documented rules", "why_tests_cant": "Use after free in the shutdown path depends on the interleaving.", "anchors": ["thread/m_threadpool.c:M_threadpool_destroy", "thread/m_threadpool.c:M_threadpool_queue_finish", "thread/m_threadpool.c:M_threadpool_parent_destroy", "thread/m_threadpool.c:M_threadpool_thread"]}
{"id": "C59", "title": "A running pipeline does not deadlock", "statement": "While M_thread_pipeline has not been destroyed and no step failed (or NOABORT is set), it never reaches a state in which nothing can move although a task is unfinished or a client is blocked in M_thread_pipeline_wait.", "quantifier": "all schedules, numbers of steps and clients", "why_tests_cant": "A lost wake-up needs a particular interleaving.", "anchors": ["thread/m_thread_pipeline.c:pipeline_finish_step", "thread/m_thread_pipeline.c:pipeline_fetch_task", "thread/m_thread_pipeline.c:M_thread_pipeline_wait"]}
{"id": "C60", "title": "String comparison is exact, and its time does not depend on the contents", "statement": "M_str_eq, M_str_caseeq and their _max, _start and _end forms return true exactly if the strings (or the parts asked about) are equal, byte for byte or up to ASCII case, with NULL counting as the empty string where documented; they never read past a terminator or past the length asked for; the number of characters compared depends on the lengths only; M_str_casestr returns the first occurrence.", "quantifier": "all strings, bounds and memory after the terminators", "why_tests_cant": "Equality holds for infinitely many pairs; over-reads and timing are not visible in results.", "anchors": ["base/data/m_str.c:M_str_eq_max_int", "base/data/m_str.c:M_str_eq_end_int", "base/data/m_str.c:M_str_caseeq", "base/data/m_str.c:M_str_casestr"]}
{"id": "C61", "title": "A certificate is accepted only for hosts its names admit", "statement": "M_tls_verify_host accepts a certificate exactly if one of the names selected by the flags is the host up to case, or is a wildcard '*.rest' where the host is one label, a dot and rest; names with an embedded NUL never match; the out-of-spec flags admit deeper hosts of the wildcard's domain (multilevel) or hosts of the same base domain (fuzzy), and nothing else.", "quantifier": "all certificates (lists of SAN and CN entries), hosts and flags", "why_tests_cant": "A hostile name that is wrongly accepted is one string among all strings.", "anchors": ["tls/m_tls_hostvalidate.c:M_tls_verify_host", "tls/m_tls_hostvalidate.c:M_tls_verify_host_match_wildcard", "tls/m_tls_hostvalidate.c:M_tls_verify_host_extract_base_domain"]}
{"id": "C62", "title": "Percent encoding round trip and strict decoding", "statement": "For every byte string, every percent codec (URL, form, and their minimal variants) and every error handler M_textcodec_encode succeeds, its output contains only visible ASCII characters (forms keep CR and LF) and, for the strict variants, no RFC 3986 reserved character other than '+', and decoding that output with the same codec returns the original bytes. The strict decoder succeeds exactly on the ASCII texts in which every '%' is followed by two hexadecimal digits, and returns the bytes the text stands for; the tolerant decoders agree with it on those texts and never run out of bounds on others.", "quantifier": "all byte strings, all texts, all codecs and error handlers", "why_tests_cant": "The inputs are unbounded strings over 256 byte values; a test samples some of them and cannot show that no text is mis-decoded or that no unsafe character ever leaves the encoder.", "anchors": ["text/textcodec/m_textcodec_percent.c:M_textcodec_encode_percent", "text/textcodec/m_textcodec_percent.c:M_textcodec_decode_percent"]}
{"id": "C63", "title": "Quoted-printable round trip, line length and decoding", "statement": "For every byte string the quoted-printable encoder produces a text that stands for that string under RFC 2045, whose lines never exceed 76 characters, and that decodes back to the string with every error handler. The decoder accepts every well-formed text and, in strict mode, nothing else; on any text it terminates without leaving its input.", "quantifier": "all byte strings, all texts, all error handlers, signed and unsigned char", "why_tests_cant": "Line breaking depends on the running count over an unbounded input, and malformed escapes combine with arbitrary following bytes; tests sample a few strings and run on one signedness of char.", "anchors": ["text/textcodec/m_textcodec_quoted_printable.c:M_textcodec_encode_quoted_printable", "text/textcodec/m_textcodec_quoted_printable.c:M_textcodec_decode_quoted_printable", "base/data/m_parser.c:M_parser_read_int_ascii"]}
{"id": "C64", "title": "Punycode is that of RFC 3492 and round-trips", "statement": "What M_textcodec_encode gives for a valid UTF-8 text with M_TEXTCODEC_PUNYCODE is the text's RFC 3492 encoding, in ASCII, and M_textcodec_decode gives the text back; M_textcodec_decode gives every text its RFC 3492 meaning, reports overflow as failure, and never a different text; input that is not UTF-8 (encoding) or not ASCII (decoding) is reported as bad input.", "quantifier": "for all texts of valid code points and all ASCII texts", "why_tests_cant": "Deltas, bias adaptation and insertion positions depend on the whole text; the 32 bit overflow checks only matter for inputs no test vector has.", "anchors": ["text/textcodec/m_textcodec_punycode.c:M_textcodec_encode_punycode", "text/textcodec/m_textcodec_punycode.c:M_textcodec_decode_punycode", "text/textcodec/m_textcodec_punycode.c:adapt"]}
{"id": "C65", "title": "CSV texts are read as the table they denote and written tables read back the same", "statement": "For usable control characters, M_csv_parse returns for every well-formed CSV text (any delimiter and quote, LF or CRLF line ends, last line end optional, quoted cells holding delimiters, doubled quotes and line ends) a table with one row per line and one column per cell of the first line; M_csv_raw_cell then gives each cell's value, NULL for an empty unquoted cell and for cells a short row lacks. For every input at all, no access leaves the buffer. Writing a table with M_csv_output_headers_buf and M_csv_output_rows_buf and parsing the result gives the kept rows back cell by cell, an empty string coming back as NULL.", "quantifier": "all texts, all byte strings, all delimiters and quotes, all row filters, all cells", "why_tests_cant": "The parser counts rows and cells in one pass and edits its buffer in place in a second one; the two passes must agree on every mixture of quotes, delimiters and line ends, which examples cannot settle.", "anchors": ["formats/csv/m_csv.c:M_csv_parse_inplace", "formats/csv/m_csv.c:M_csv_raw_cell", "formats/csv/m_csv.c:M_csv_output_rows_buf", "formats/csv/m_csv.c:M_csv_output_headers_buf"]}
{"id": "C66", "title": "JSON texts are read as the tree they denote and written trees read back the same", "statement": "M_json_read accepts every JSON document (objects and arrays nested at will, strings with escapes, numbers that fit, white space, and comments unless disallowed), consumes it completely and returns exactly the tree it stands for, the last of equal keys counting. For every input it comes to an end, and a tree it returns has an object or array at the root, C strings and objects with distinct keys. A tree written with M_json_write, whatever the formatting flags, is such a document and is read back as the same tree.", "quantifier": "all documents, all byte strings, all trees of safe values, all flags", "why_tests_cant": "Nesting, escapes, white space and comments can be combined without limit; agreement of reader and writer on all trees is a statement over infinitely many texts.", "anchors": ["formats/json/m_json_reader.c:M_json_read", "formats/json/m_json_reader.c:M_json_read_object", "formats/json/m_json_reader.c:M_json_read_array", "formats/json/m_json_reader.c:M_json_read_string", "formats/json/m_json_writer.c:M_json_write"]}
{"id": "C67", "title": "XML entity encoding is lossless and leaves no markup", "statement": "M_xml_entities_encode and M_xml_attribute_encode replace exactly the special characters of text and of attribute values by their references, for any bytes; the result holds no angle bracket or quote and every ampersand starts a reference. M_xml_entities_decode and M_xml_attribute_decode give what a text with references stands for, without leaving the string or their buffer, and undo the encoders.", "quantifier": "all strings", "why_tests_cant": "Escapes can follow and overlap each other in any way (an escaped ampersand before the name of another entity); that decoding undoes encoding for all of them is a law, not a list of examples.", "anchors": ["formats/xml/m_xml_entities.c:M_xml_entities_encode", "formats/xml/m_xml_entities.c:M_xml_entities_decode", "formats/xml/m_xml_entities.c:M_xml_attribute_encode", "formats/xml/m_xml_entities.c:M_xml_attribute_decode"]}
{"id": "C68", "title": "Normalising, splitting and joining file paths keeps what they mean", "statement": "On Unix, M_fs_path_norm without flags returns a canonical path that leads to the same directory as the input from every working directory; two paths get the same result exactly when they mean the same from everywhere, the result is never longer, and normalising again changes nothing. With ABSOLUTE and HOME the result is the absolute path of the place meant. With FOLLOWSYMLINKS the result is where the path leads in the file system, free of links, and a path over at most 24 links is found unless a rewritten path is too long. The call ends for every file system. The directory and base names of a path compose to the path, and M_fs_path_join gives the second path seen from the first.", "quantifier": "all paths without backslash and without $X or %X% components shorter than PATH_MAX, all working and home directories, all file systems with links", "why_tests_cant": "Paths and link structures are unbounded; tests fix a few strings and cannot show that two spellings with one meaning always meet.", "anchors": ["base/fs/m_fs_path_norm.c:M_fs_path_norm", "base/fs/m_fs_path.c:M_fs_path_join_parts", "base/fs/m_fs_path.c:M_fs_path_componentize_path", "base/fs/m_fs_path.c:M_fs_path_dirname", "base/fs/m_fs_path.c:M_fs_path_basename", "base/fs/m_fs_path.c:M_fs_path_join"]}
{"id": "C69", "title": "A serialised dictionary reads back", "statement": "M_hash_dict_deserialize applied to the output of M_hash_dict_serialize with the same delimiters, quote and escape characters gives back the same entries in the same order, NULL and empty values included, whatever bytes the values contain.", "quantifier": "For all nonempty lists of entries, all ASCII delimiter/quote/escape characters that are told apart (quote and escape may coincide), all serialisation flags but HEXENCODE, reading with and without TRIM_WHITESPACE.", "why_tests_cant": "Escaping is two interacting layers (splitting into pairs, splitting pairs) over arbitrary byte strings; a test covers a few values with one choice of special characters and misses, for instance, values ending with the escape character.", "anchors": ["base/hash/m_hash_dict.c:M_hash_dict_serialize", "base/hash/m_hash_dict.c:M_hash_dict_deserialize", "base/data/m_str.c:M_str_explode_quoted"]}
{"id": "C70", "title": "Splitting a string respects quotes", "statement": "M_str_explode_quoted cuts the text at exactly the delimiters outside quotes: the sections joined by the delimiter give the text back, no section contains a delimiter outside quotes, every section but the last ends outside quotes, and with a limit of at least two there are at most that many sections.", "quantifier": "For all NUL-free texts, all ASCII delimiter, quote and escape characters with delimiter different from the other two, all limits.", "why_tests_cant": "Quotes, escapes and doubled quotes may occur in any arrangement; the function runs the scanning loop twice and writes into an array sized by the first run, so a disagreement only shows on special inputs.", "anchors": ["base/data/m_str.c:M_str_explode_quoted"]}
{"id": "C71", "title": "Typed containers compare and hash consistently", "statement": "The comparison callbacks for strings (with and without case, ascending and descending), numbers, pointers and wrapped binary values are total preorders that order by contents, keys that compare equal have equal hashes under every seed, and so the string-, number- and pointer-keyed hash tables are finite maps on key contents; the hash is FNV-1a and keys differing in one byte never collide.", "quantifier": "For all heap contents, pointers, seeds, flag combinations (KEYS_UPPER/LOWER only together with CASECMP) and sequences of table operations.", "why_tests_cant": "Consistency of equality, order and hash is a statement about all pairs and triples of keys and all seeds; the seed is random at run time, so an inconsistency shows up only for some keys in some runs.", "anchors": ["base/hash/m_hash_func.c:M_hash_func_hash_FNV1a", "base/hash/m_hash_func.c:M_hash_func_hash_str_casecmp", "base/sort/m_sort_compar.c:M_sort_compar_str", "base/sort/m_sort_compar.c:M_sort_compar_binwraped", "base/hash/m_hash_strvp.c:M_hash_strvp_create"]}
{"id": "C72", "title": "Formatted output: one text for every endpoint", "statement": "For every format and argument list, M_vasprintf, M_vbprintf, M_vdprintf, M_vfprintf and M_vsnprintf end and produce the same text. All return the length of the whole text. M_vsnprintf stores its first size-1 bytes and a terminating NUL inside the buffer, leaves the other bytes as they were, writes nothing for NULL or size 0, and the string is complete exactly when the result is less than size.", "quantifier": "all formats (valid or not), all arguments, all buffer sizes and contents", "why_tests_cant": "the set of formats, argument values and sizes is unbounded; tests try a few hundred", "anchors": ["base/data/m_str_fmt.c:M_vsnprintf", "base/data/m_str_fmt.c:M_vasprintf", "base/data/m_str_fmt.c:M_vbprintf", "base/data/m_str_fmt.c:M_vdprintf", "base/data/m_str_fmt.c:M_vfprintf", "base/data/m_str_fmt.c:M_str_fmt_add_bytes"]}
{"id": "C73", "title": "Formatted output: meaning of conversions", "statement": "A format made of literal text, %% and conversions d i u o O x X p P c s e E f F g G with any flags, width, precision and size modifier prints what the tables of m_fmt.h say: the numeral of the argument without leading zeros, its sign, its prefix, filled to the width with zeros after sign and prefix, or with blanks on the right or left; strings cut to the precision and never read beyond it.", "quantifier": "all lists of items, all argument values in the range of their type, all flag sequences and widths below 2^64", "why_tests_cant": "flags, widths, sizes and values combine without bound", "anchors": ["base/data/m_str_fmt.c:M_str_fmt_handle_control", "base/data/m_str_fmt.c:M_str_fmt_integer_to_str", "base/data/m_str_fmt.c:M_str_fmt_add_sign", "base/data/m_str_fmt.c:M_str_fmt_add_prefix", "include/mstdlib/base/m_fmt.h:M_vsnprintf"]}
{"id": "C74", "title": "Code pages: published tables and round trip", "statement": "For each of the 28 single-byte codecs M_textcodec_decode maps every byte to the character the published table of the code page gives it, M_textcodec_encode maps every character to its byte; text whose characters the code page has comes back unchanged after encode and decode, and bytes that have characters come back unchanged after decode and encode.", "quantifier": "all 28 tables and all 256 bytes, all texts, all error handlers", "why_tests_cant": "texts are unbounded and 7000 table entries are not checked one by one by the tests", "anchors": ["text/textcodec/m_textcodec_cp_map.c:M_textcodec_encode_cp_map", "text/textcodec/m_textcodec_cp_map.c:M_textcodec_decode_cp_map", "text/textcodec/m_textcodec_cp037.c:cp_map", "text/textcodec/m_textcodec_iso8859_1.c:iso8859_1_map", "text/textcodec/m_textcodec.c:M_textcodec_encode", "text/textcodec/m_textcodec.c:M_textcodec_decode"]}
{"id": "C75", "title": "Text codecs: error handlers", "statement": "On any input, valid or not, the handler FAIL makes M_textcodec_encode and M_textcodec_decode fail if something cannot be converted; REPLACE puts ? (encode) or U+FFFD (decode) in its place, IGNORE leaves it out, and both return SUCCESS_EHANDLER exactly then; decoded text is always valid UTF-8 and no call reads outside its input.", "quantifier": "all single-byte codecs and UTF-8, all inputs (also invalid UTF-8), all handlers", "why_tests_cant": "the inputs that are not convertible are unbounded; a NULL pointer is only followed on invalid UTF-8 with two of the handlers", "anchors": ["text/textcodec/m_textcodec_cp_map.c:M_textcodec_encode_cp_map", "text/textcodec/m_textcodec_cp_map.c:M_textcodec_decode_cp_map", "text/textcodec/m_textcodec_utf8.c:M_textcodec_utf8_to_utf8", "text/textcodec/m_textcodec_int.h:M_UTF8_REPLACE", "include/mstdlib/text/m_textcodec.h:M_TEXTCODEC_EHANDLER_REPLACE"]}
{"id": "C76", "title": "Text codecs: names", "statement": "M_textcodec_codec_from_str recognises the name M_textcodec_codec_to_str gives for each codec and the usual names of ISO 8859 parts, Latin alphabets and Windows code pages, without regard to case.", "quantifier": "all codecs, all names in any mixture of cases", "why_tests_cant": "upper and lower case combine exponentially; the list of names is long", "anchors": ["text/textcodec/m_textcodec.c:M_textcodec_codec_from_str", "text/textcodec/m_textcodec.c:M_textcodec_codec_to_str"]}
{"id": "C77", "title": "Text codecs: encode then decode through the interface", "statement": "For every codec, M_textcodec_decode with any error handler turns the string that M_textcodec_encode gave for a text of the codec back into the text.", "quantifier": "all codecs, all non-empty UTF-8 texts the codec can represent, all pairs of handlers", "why_tests_cant": "texts are unbounded", "anchors": ["text/textcodec/m_textcodec.c:M_textcodec_encode", "text/textcodec/m_textcodec.c:M_textcodec_decode", "text/textcodec/m_textcodec.c:M_textcodec_encode_int", "text/textcodec/m_textcodec.c:M_textcodec_decode_int"]}
{"id": "C78", "title": "XML reader: the tree of the text", "statement": "M_xml_read on a text that is the text of a document (XML 1.0 elements, attributes in either quotes, references, texts, CDATA without ampersand, comments and processing instructions, with any white space where XML allows it) returns exactly that tree and consumes exactly that text: what follows is left alone if processed_len is asked for and is otherwise an error; an element closed by another name is refused.", "quantifier": "all trees, all texts of them, all data behind", "why_tests_cant": "trees and their texts are unbounded, and white space, quotes and spelling of references combine freely", "anchors": ["formats/xml/m_xml_reader.c:M_xml_read", "formats/xml/m_xml_reader.c:M_xml_read_tag_info", "formats/xml/m_xml_reader.c:M_xml_read_tag_process", "formats/xml/m_xml_reader.c:M_xml_read_text"]}
{"id": "C79", "title": "XML: writing then reading gives the same tree", "statement": "M_xml_write of a document, with or without pretty printing, is a text of exactly that document, and M_xml_read of it returns the same tree.", "quantifier": "all documents whose names are names, whose texts are not blank at the ends nor side by side and whose comments do not contain their end mark; all indentation flags", "why_tests_cant": "trees are unbounded; pretty printing depends on every combination of neighbouring nodes", "anchors": ["formats/xml/m_xml_writer.c:M_xml_write", "formats/xml/m_xml_writer.c:M_xml_write_node", "formats/xml/m_xml_reader.c:M_xml_read"]}
{"id": "C80", "title": "XML reader: safe on any data", "statement": "M_xml_read of data without NUL that is followed by a NUL has no undefined behaviour and ends, with a tree or an error, for every combination of flags.", "quantifier": "all byte strings shorter than 2^31, all flags", "why_tests_cant": "malformed data is unbounded in number; a fuzzer samples it", "anchors": ["formats/xml/m_xml_reader.c:M_xml_read", "formats/xml/m_xml_reader.c:M_xml_read_tag_end", "formats/xml/m_xml_reader.c:M_xml_read_attribute_explode", "formats/xml/m_xml_reader.c:M_xml_read_strip_surrounding_quotes"]}
{"id": "C81", "title": "XML reader: what is accepted is a well formed tree", "statement": "Whatever M_xml_read accepts has exactly one element at the top, as the last node; names are not empty and have no white space, no element has an attribute twice (also in different case), comments are trimmed; no more than the data is consumed, and all of it unless processed_len was asked for.", "quantifier": "all data, all flags", "why_tests_cant": "the accepted strings are an infinite set", "anchors": ["formats/xml/m_xml_reader.c:M_xml_read", "formats/xml/m_xml_reader.c:M_xml_doc_has_element", "formats/xml/m_xml.c:M_xml_node_insert_attribute"]}
{"id": "C82", "title": "Permission objects hold what was set", "statement": "M_fs_perms_get_mode/_type/_isset and their directory counterparts report exactly what the last set or unset call for that class said; unsetting a class unsets its directory override, unset classes read as no permissions; M_fs_perms_set_user/_group accept exactly the names the system knows and the identifiers found are what chown is given.", "quantifier": "all sequences of set/unset calls, all classes, modes and types, all user databases", "why_tests_cant": "Tests exercise single calls; interference between classes and overrides depends on call sequences.", "anchors": ["base/fs/m_fs_perms.c:M_fs_perms_set_mode", "base/fs/m_fs_perms.c:M_fs_perms_unset_mode", "base/fs/m_fs_perms_unx.c:M_fs_perms_set_user", "base/fs/m_fs_perms_unx.c:M_fs_perms_set_group"]}
{"id": "C83", "title": "Applying permissions gives the permissions asked for", "statement": "M_fs_perms_set_perms(_file) leaves each permission as the object says: exact replaces, add adds, remove removes, an unset class is unchanged, directories use their override; mode bits not covered are unchanged. Files are created with exactly the permissions granted; M_fs_info reports the permissions of the file.", "quantifier": "all objects, all file modes, files and directories", "why_tests_cant": "512 file modes times hundreds of thousands of objects, and a chmod that never removes anything passes tests that only check additions.", "anchors": ["base/fs/m_fs_perms_unx.c:M_fs_perms_update_mode_from_perms", "base/fs/m_fs_perms_unx.c:M_fs_perms_to_mode", "base/fs/m_fs_info_unx.c:M_fs_info_mode_to_perms"]}
{"id": "C84", "title": "Merging and duplicating permission objects", "statement": "M_fs_perms_merge combines each class as documented (exact with add or remove is modified, otherwise the source replaces), which for an exact destination is the same as applying both one after the other, and takes over owner and group; M_fs_perms_dup gives an object with the same information.", "quantifier": "all pairs of objects", "why_tests_cant": "A single forgotten field shows only for one class and type; tests compare a few fields.", "anchors": ["base/fs/m_fs_perms.c:M_fs_perms_merge", "base/fs/m_fs_perms.c:M_fs_perms_merge_part", "base/fs/m_fs_perms.c:M_fs_perms_dup"]}
{"id": "C85", "title": "Spin lock: mutual exclusion in order of arrival", "statement": "Between M_thread_spinlock_lock and M_thread_spinlock_unlock there is at most one thread; threads get the lock in the order in which they drew a ticket; an unlock by a thread that does not hold the lock is ignored and one by the holder never is; there is no deadlock; all this also after the 32 bit ticket counters have wrapped.", "quantifier": "all numbers of threads up to 2^32, all interleavings, any misuse of unlock", "why_tests_cant": "Interleavings and counter wrap-around are out of reach of tests.", "anchors": ["thread/m_thread.c:M_thread_spinlock_lock_int", "thread/m_thread.c:M_thread_spinlock_unlock_int"]}
{"id": "C86", "title": "M_thread_once runs the routine once", "statement": "M_thread_once runs the init routine at most once, and once more per M_thread_once_reset; runs never overlap; whenever a call returns the routine has been completed; exactly one call returns M_TRUE for each run.", "quantifier": "all interleavings of once, reset and spin lock calls of up to 2^32 threads", "why_tests_cant": "Depends on interleavings of the unlocked test, the locked test and the reset.", "anchors": ["thread/m_thread.c:M_thread_once_int", "thread/m_thread.c:M_thread_once_reset_int"]}
{"id": "C87", "title": "Time zone rule of a year", "statement": "In a rule based time zone the daylight saving rule used for a year is the one with the latest start year not after it, or the earliest rule when all start later, no matter in which order the rules were added; a zone without rules has none.", "quantifier": "all lists of rules in all orders of insertion, all years", "why_tests_cant": "The number of lists and orders is unbounded; tests use a handful of zones with rules added in order.", "anchors": ["base/time/m_time_tz_dst_rules.c:M_time_tz_dst_rules_get_rule", "base/time/m_time_tz_dst_rules.c:M_time_tz_dst_rules_insert"]}
{"id": "C88", "title": "Instant of a daylight saving change", "statement": "A daylight saving change given as the n-th weekday of a month, counted from the start or (negative) from the end of the month, takes place in every year on exactly that day at the given time; a year without an n-th such day has no change.", "quantifier": "all changes with fields in range, all years", "why_tests_cant": "There are unboundedly many years, and weekday arithmetic goes wrong only for some combinations of year, month and weekday.", "anchors": ["base/time/m_time_tz_rule.c:M_time_tz_rule_change_to_time"]}
{"id": "C89", "title": "Local time follows the daylight saving rule", "statement": "M_time_tolocal with a rule based zone applies the summer offset exactly from the instant at which a clock on standard time reaches the start reading until the instant at which a clock on summer time reaches the end reading, in either hemisphere and on either side of Greenwich; it reports isdst accordingly and the broken-down time is that of UTC plus the offset.", "quantifier": "all zones with valid rules and one standard offset, all instants up to 2^61 seconds from the epoch", "why_tests_cant": "Every second of every year of every zone is an input; tests look at a few instants of American zones.", "anchors": ["base/time/m_time_tz_rule.c:M_time_tz_rule_isdst", "base/time/m_time_tz_rule.c:M_time_tz_rule_adjust_tolocal", "base/time/m_time_local.c:M_time_tolocal"]}
{"id": "C90", "title": "Local time round trip", "statement": "M_time_fromlocal applied to the result of M_time_tolocal, isdst included, gives back the instant and leaves the broken-down time as it was, also in the hour that happens twice.", "quantifier": "all zones with valid rules and one standard offset, all instants up to 2^61 seconds from the epoch", "why_tests_cant": "Failures hide in single hours of single days of the year.", "anchors": ["base/time/m_time_local.c:M_time_fromlocal", "base/time/m_time_local.c:M_time_tolocal", "base/time/m_time_tz_rule.c:M_time_tz_rule_adjust_fromlocal"]}
{"id": "C91", "title": "A state machine calls the state that was asked for", "statement": "While a machine is used (run, run again after WAIT or PAUSE, reset in between), every state function called is the one that the previous answer leads to: the next id it left (if it is not 0, registered, among the allowed next ids and, without SELF_CALL, not the same state), the same state after WAIT, the last state left with NEXT or PAUSE after PREV; it is given the state inserted after it as default next id (0 with EXPLICIT_NEXT); no state is called once cleanup has begun; run answers only WAIT or PAUSE (still running) or DONE or an error (not running), namely the one the history determines, and never has undefined behaviour.", "quantifier": "all flags, states, next lists, state functions, data, interleavings of run and reset, nesting depths of cleanup machines", "why_tests_cant": "The order of calls depends on the answers of arbitrary functions over unboundedly many runs; unit tests fix a few scripts.", "anchors": ["base/data/m_state_machine.c:M_state_machine_run_states", "base/data/m_state_machine.c:M_state_machine_run", "base/data/m_state_machine.c:M_state_machine_reset", "base/data/m_state_machine.c:M_state_machine_insert_state"]}
{"id": "C92", "title": "Cleanup machines run once per completed call, newest first", "statement": "When a machine ends with an error, a reset or (with DONE_CLEANUP) DONE, the cleanup machines of the states that completed a call have been run to their end in reverse order of the calls before the final status is returned, whatever they answered and however often they waited; the final status is not changed by them; without DONE_CLEANUP a machine that is done runs none. With ONE_CLEANUP each state's cleanup runs at most once.", "quantifier": "all histories of runs, waits, pauses and resets; all cleanup machines", "why_tests_cant": "Waiting cleanups interleave with user calls in unboundedly many ways.", "anchors": ["base/data/m_state_machine.c:M_state_machine_run_cleanup", "base/data/m_state_machine.c:M_state_machine_run_states", "base/data/m_state_machine.c:M_state_machine_reset"]}
{"id": "C93", "title": "Continuations cannot loop forever", "statement": "Without CONTINUE_LOOP, a machine whose states never answer NEXT gives an answer after at most (states to go back to + number of states + 2) passes, whatever ids the states CONTINUE to and however they go back with PREV.", "quantifier": "all machines, state functions, data", "why_tests_cant": "Non-termination cannot be observed by a test.", "anchors": ["base/data/m_state_machine.c:M_state_machine_run_states"]}
{"id": "C94", "title": "A linear machine calls every state once in order", "statement": "A machine with LINEAR_END whose states all answer NEXT and keep the default next id calls each state exactly once in the order of insertion and answers DONE.", "quantifier": "all numbers of states, ids, data and next lists that allow the order", "why_tests_cant": "Unbounded number of states.", "anchors": ["base/data/m_state_machine.c:M_state_machine_run_states", "base/data/m_state_machine.c:M_state_machine_insert_state"]}
{"id": "C95", "title": "A table is its columns and rows", "statement": "After any sequence of M_table calls that insert, name, remove and order columns, insert (also from a dictionary, with the column flags) and remove rows, remove empty rows and columns, set and clear cells by name, position or dictionary, and sort, every call returned what and every query (column and row count, column name, column index, cell by name and by position) answers what a plain list of optionally named columns and rows of optional values says; names are unique, compared with or without case as asked for at creation.", "quantifier": "for all sequences of calls, all names, values and dictionaries, both name comparisons, all total-preorder comparators, all random ids", "why_tests_cant": "The table keeps ids, two name maps, an order list and a map of rows in step; a stale entry only shows after particular orders of inserting, renaming and removing, and the ids are random.", "anchors": ["formats/table/m_table.c:M_table_column_insert_at_int", "formats/table/m_table.c:M_table_column_set_name", "formats/table/m_table.c:M_table_column_remove_int", "formats/table/m_table.c:M_table_column_remove_empty_columns", "formats/table/m_table.c:M_table_row_insert_dict_at", "formats/table/m_table.c:M_table_row_remove_empty_rows", "formats/table/m_table.c:M_table_cell_set", "formats/table/m_table.c:M_table_cell_set_dict", "formats/table/m_table.c:generate_id", "formats/table/m_table.c:M_table_column_order"]}
{"id": "C96", "title": "Sorting a table reorders its rows", "statement": "M_table_column_sort_data leaves a permutation of the rows of the table that is sorted by the column, rows equal there by the secondary column; columns, names and the values of each row stay. M_table_column_sort_data_at does the same for a column position.", "quantifier": "for all tables a sequence of calls can lead to, all columns, all total-preorder comparators", "why_tests_cant": "Sortedness for every table and comparator is a statement about all of them; a test compares a few tables.", "anchors": ["formats/table/m_table.c:M_table_column_sort_data", "formats/table/m_table.c:M_table_column_sort_data_at", "formats/table/m_table.c:M_table_column_sort_data_int", "formats/table/m_table.c:table_coldata_compar"]}
{"id": "C97", "title": "Merging tables keeps every row of both", "statement": "M_table_merge succeeds exactly if every column of both tables is named. Then the rows of the destination keep their values, the rows of the source follow in order with their values under the same names, and the columns are those of the destination followed by the missing ones of the source (if the source has rows). If it fails the destination is unchanged.", "quantifier": "for all pairs of tables sequences of calls can lead to", "why_tests_cant": "The result depends on the overlap of two column sets and on which columns the first copied row already added; tests try single overlaps.", "anchors": ["formats/table/m_table.c:M_table_merge", "formats/table/m_table.c:M_table_cell_set"]}
{"id": "C98", "title": "PROXY protocol endpoints reach the other side", "statement": "The endpoints accepted by M_io_proxy_protocol_set_source_endpoints are written as a PROXY protocol header of the selected version, and a receiving layer that gets this header, however the transport cuts it, reports these addresses, ports, the address family and relayed/local, and delivers to the application exactly the bytes after the header; extensions in a version 2 header are skipped.", "quantifier": "for all addresses, ports, extension data, following application data and cuts of the stream into reads", "why_tests_cant": "Headers, ports and read boundaries combine without bound; tests send whole headers over a loopback socket.", "anchors": ["io/m_io_proxy_protocol.c:M_io_proxy_protocol_set_source_endpoints", "io/m_io_proxy_protocol.c:M_io_proxy_protocol_build_proxy_message", "io/m_io_proxy_protocol.c:M_io_proxy_protocol_process_inbound", "io/m_io_proxy_protocol.c:M_io_proxy_protocol_read_cb"]}
{"id": "C99", "title": "PROXY protocol parsing does not depend on read boundaries", "statement": "Whether a connection comes up, what M_io_proxy_protocol_source_ipaddr and the other getters report, and what the application reads depend only on the bytes received, not on how they were split over read events.", "quantifier": "for all byte streams and all ways to cut them into reads", "why_tests_cant": "The number of cuts of one header is exponential and a test socket nearly always delivers it in one piece.", "anchors": ["io/m_io_proxy_protocol.c:M_io_proxy_protocol_process_inbound", "io/m_io_proxy_protocol.c:state_v1_source_port", "io/m_io_proxy_protocol.c:state_v1_dest_port", "io/m_io_proxy_protocol.c:state_v2_header", "io/m_io_proxy_protocol.c:state_v2_tlv"]}
{"id": "C100", "title": "PROXY protocol layer is total and lossless", "statement": "Whatever bytes arrive, the inbound layer either waits, fails or connects without undefined behaviour; it connects only if the stream starts with the identification of a version its flags allow, and the application then reads exactly a tail of the stream, with no byte lost, repeated or reordered.", "quantifier": "for all byte streams, cuts into reads and flags", "why_tests_cant": "Arbitrary peers send arbitrary bytes; fuzzing finds crashes but does not establish that no byte is lost.", "anchors": ["io/m_io_proxy_protocol.c:state_determine_version", "io/m_io_proxy_protocol.c:M_io_proxy_protocol_process_inbound", "io/m_io_proxy_protocol.c:M_io_proxy_protocol_read_cb"]}
{"id": "C101", "title": "Buffer layer keeps the byte streams", "statement": "For a buffer layer, new or just reset, and any sequence of events, reads and writes with any answers of the layer below, the bytes handed to the reader followed by those still buffered are exactly the bytes read below, in order, and a read gives the front of what is buffered; the bytes the layer below took followed by those still buffered are exactly the bytes the writer was told are written, the next write event offers all of them, and a write is told exactly how many bytes there was room for. Every run has an outcome.", "quantifier": "all limits up to 2^62 (read) and 2^63 (write), all sequences of operations, all answers of the layer below", "why_tests_cant": "The interleavings of partial reads, partial writes, would-block answers and buffer growth are unbounded; tests use a loopback with a few sizes.", "anchors": ["io/m_io_buffer.c:M_io_buffer_process_read_cb", "io/m_io_buffer.c:M_io_buffer_process_write_cb", "io/m_io_buffer.c:M_io_buffer_read_cb", "io/m_io_buffer.c:M_io_buffer_write_cb", "base/data/m_buf.c:ensure_space"]}
{"id": "C102", "title": "Buffer layer wakes whoever waits", "statement": "A reader that was told to wait (would block, or fewer bytes than asked for) gets a read event when the next bytes arrive; a writer that was told to wait gets a write event as soon as the layer below takes a byte; bytes accepted from the writer are sent, or a soft event for them is queued, or the layer below owes one; and bytes that may be left in the layer below because the buffer was full are fetched by a queued event or by one the next read queues.", "quantifier": "all runs of a new or reset layer", "why_tests_cant": "A lost wakeup shows only in particular orders of events, arrivals and reads.", "anchors": ["io/m_io_buffer.c:M_io_buffer_process_read_cb", "io/m_io_buffer.c:M_io_buffer_read_cb", "io/m_io_buffer.c:M_io_buffer_write_cb", "io/m_io.c:M_io_read_meta"]}
{"id": "C103", "title": "Buffer layer respects its limits", "statement": "No more bytes wait in the layer than max_read_buffer for the reader and max_write_buffer for the layer below, each rounded up to a power of two.", "quantifier": "all runs of a new or reset layer", "why_tests_cant": "The bound has to hold at every moment of every run.", "anchors": ["io/m_io_buffer.c:M_io_add_buffer", "io/m_io_buffer.c:M_io_buffer_process_read_cb", "io/m_io_buffer.c:M_io_buffer_write_cb"]}
{"id": "C104", "title": "A transaction that is reported done was applied exactly once", "statement": "When M_sql_trans_process() returns a non-error code, the statements that succeeded in exactly one call of the user's command, the one that returned this code, are committed, in one transaction, and nothing of any other attempt is; when it returns an error, nothing is.", "quantifier": "all commands (any program deciding by the results of its statements, different at each call), all answers of driver and pool at every step, with and without automatic retry", "why_tests_cant": "Deadlocks, lost connections and failing commits can happen at any step of any attempt, and a test against one server sees a few of these orders.", "anchors": ["sql/m_sql_trans.c:M_sql_trans_process", "sql/m_sql_trans.c:M_sql_trans_begin", "sql/m_sql_trans.c:M_sql_trans_commit", "sql/m_sql_trans.c:M_sql_trans_rollback", "sql/m_sql_error.c:M_sql_error_is_rollback"]}
{"id": "C105", "title": "Retries are the library's business, and they end", "statement": "M_sql_trans_process() never returns a code that asks for a retry or tells of a lost connection; once the driver and the pool stop failing, it returns, after no more rounds than there were failing answers.", "quantifier": "all commands that do not ask for a retry themselves and do not hide one, all finite sequences of trouble", "why_tests_cant": "It is about every sequence of failures, however long.", "anchors": ["sql/m_sql_trans.c:M_sql_trans_process", "sql/m_sql_trans.c:M_sql_trans_begin", "sql/m_sql_error.c:M_sql_error_is_fatal"]}
{"id": "C106", "title": "Pooled connections are handed back clean", "statement": "Every connection that M_sql_trans_process() takes is begun, used and ended in this order and given back once; after a statement was told that the transaction is gone nothing but the rollback is sent; it is given back without an open transaction or destroyed, lost connections are destroyed; a destroyed connection is not used.", "quantifier": "all commands and all answers of the driver", "why_tests_cant": "A connection with an open transaction in the pool hurts another user of the pool later; use after free is not observed as a result.", "anchors": ["sql/m_sql_trans.c:M_sql_trans_release", "sql/m_sql_trans.c:M_sql_trans_commit", "sql/m_sql_connpool.c:M_sql_connpool_release_conn", "sql/m_sql_connpool.c:M_sql_conn_set_state_from_error"]}
{"id": "C107", "title": "The log writer keeps the order", "statement": "The messages that the callback of an M_async_writer_t takes are accepted messages, each at most once, in the order in which they were accepted, also when it refuses some and they come back; the messages that wait are the latest that were accepted, so what is dropped for room is always older.", "quantifier": "all sequences of calls from any thread interleaved with the steps of the worker, all answers of the callback, all limits and changes of the limit, stopping and starting again", "why_tests_cant": "The worker gives up the lock while it writes; order depends on what is written and dropped meanwhile.", "anchors": ["log/m_async_writer.c:M_async_writer_write", "log/m_async_writer.c:pop_one", "log/m_async_writer.c:replace_one", "log/m_async_writer.c:write_thread"]}
{"id": "C108", "title": "No log message disappears silently", "statement": "Each message given to M_async_writer_write() is taken by the callback, or reported as dropped once, or counted to be reported, or waits; a message that fits is accepted and is the last to wait, the total size is within the limit then, and the call returns.", "quantifier": "all sequences of calls, worker steps and answers of the callback", "why_tests_cant": "It is a balance over whole runs; messages lost under refusal and load are not noticed one by one.", "anchors": ["log/m_async_writer.c:M_async_writer_write", "log/m_async_writer.c:replace_one", "log/m_async_writer.c:pop_one"]}
{"id": "C109", "title": "Commands to the log writer arrive", "statement": "The flags given to M_async_writer_set_command() and M_async_writer_set_command_block() that were accepted are exactly those the callback got or will get; the blocking call returns when its command was carried out and not before.", "quantifier": "all sequences of calls, worker steps and answers of the callback", "why_tests_cant": "It depends on when the command comes relative to the steps of the worker.", "anchors": ["log/m_async_writer.c:M_async_writer_set_command", "log/m_async_writer.c:M_async_writer_set_command_block", "log/m_async_writer.c:write_thread"]}
{"id": "C110", "title": "Thread local storage keeps what the same thread stored", "statement": "Whatever the threads do and however their steps interleave, M_thread_tls_getspecific gives the value the calling thread last stored at that key with M_thread_tls_setspecific since it began (NULL if none, also when its id was used by an earlier thread); M_thread_tls_setspecific succeeds for exactly the keys M_thread_tls_key_create has handed out; keys are never 0 and never handed out twice; no thread's table is used after it was destroyed.", "quantifier": "All numbers of threads, all sequences of calls, all interleavings of the locked and unlocked parts, reuse of thread ids.", "why_tests_cant": "Isolation is a statement about all interleavings, including key creation racing with storing and thread ids that come back; a test sees a few schedules.", "anchors": ["thread/m_thread_tls.c:M_thread_tls_getspecific", "thread/m_thread_tls.c:M_thread_tls_setspecific", "thread/m_thread_tls.c:M_thread_tls_key_create", "thread/m_thread_tls.c:M_thread_tls_purge_thread"]}
{"id": "C111", "title": "Values in thread local storage are destroyed exactly once", "statement": "At a key made with a destructor, every stored value is given to the destructor exactly once: when it is replaced, cleared or when its thread ends, never while it can still be read; nothing is destroyed for keys without a destructor, and the destructor never gets NULL or a pointer that is still stored.", "quantifier": "All numbers of threads, all sequences of calls, all interleavings.", "why_tests_cant": "Exactly-once destruction over a thread's life and over any history of stores is a counting statement over all runs.", "anchors": ["thread/m_thread_tls.c:M_thread_tls_setspecific", "thread/m_thread_tls.c:M_thread_tls_purge_thread", "thread/m_thread_tls.c:M_thread_tls_destroy_thread_key"]}
