# Formal model of Monetra/mstdlib: design

The code under study is the C source in `/repo` (pinned commit).  It is not
built or run here; every definition of the model cites the file and lines it
models, and where it simplifies, the comment says so.

## Conventions

* One directory per module under `rocq/theories/<Mod>/`:
  `Model.v` (executable Gallina model, no proofs), `Spec.v` (small independent
  specification), `Proofs.v` (lemmas), `Props.v` (only property theorems, each
  `exact lemma`, a concrete example of its hypotheses beside it, and
  `Print Assumptions`).  Tiny modules merge Spec into Model's neighbour.
* `size_t`, `M_uint64` are `N`/`Z` reduced `mod 2^64` wherever wrap-around can
  matter; lengths and indices that provably stay small are `nat`.
* Undefined behaviour (out-of-bounds access, use after free, signed overflow,
  division by zero) is a distinct outcome (`None`/`UB`), never assumed away.
  Fuel exhaustion is a distinct outcome which theorems exclude.
* malloc never fails (mstdlib aborts the process on allocation failure unless
  an error callback is installed, `base/mem/m_mem.c`), recorded as simplification.
* Where the code violates the property, the theorem `…_refuted` exhibits a
  concrete witness and `…_partial` (or a theorem with the exact condition)
  states the strongest true version.  Findings are collected below.

## Plan per property

| id | modelled | how proved |
|----|----------|------------|
| C01, C02, C04, C06 | `Hex`: m_hex.c encode/decode over bounds-checked buffers | round trip by induction on the input; decode characterised; wrapped case refuted + exact condition |
| C03, C04, C06 | `Base64`: m_base64.c | induction over 3-byte groups, finite sweep for the alphabet |
| C05 | `Base32`: m_base32.c | refuted, plus exact result (zero padded to multiple of 5) |
| C07 | `Bithacks`: m_bithacks.c on N mod 2^w | bit-level lemmas, table sweeps |
| C08 | `Rand`: m_rand.c range reduction over arbitrary generator output | arithmetic |
| C09–C12 | `Sort`: mergesort, qsort, binary search on arrays | induction on length, loop invariants |
| C13–C15 | `Utf8`: m_utf8.c on NUL-terminated byte memory | range case analysis with bit lemmas |
| C16 | `StrNum`: m_str_num.c parser | refuted by witness; exactness under explicit no-wrap bound |
| C17–C22 | `Str*`: explode/implode, quote/unquote, replace, trim, glob, justify | structural induction |
| C23, C24 | `Buf`: m_buf.c memory layout (allocation, consumed prefix, NUL) | refinement to `list byte`, induction over op lists |
| C25–C28 | `Parser`, `Mem`: m_parser.c layout, m_mem.c search | refinement; refuted corner cases |
| C29, C30 | `Bits`: m_bit_buf.c, m_bit_parser.c | refinement to `list bool` |
| C31–C33 | `List`: m_list.c array with start offset and capacity | refinement to sequences |
| C34 | `Llist`: heap of nodes with prev/next | doubly-linked-list invariant |
| C35, C36 | `Hashtable`: buckets, rehash | refinement to association lists up to key equivalence |
| C37, C38 | `Cache`, `Queue` on top of list and map specs | refinement |
| C39–C42 | `Decimal`: m_decimal.c with int64 overflow explicit | arithmetic over Q-free cross-multiplied statements |
| C43, C44 | `Time`: m_time_gm.c | calendar arithmetic against an independent day-count specification |
| C45, C46 | `Rwlock`: labelled transition system of m_thread_rwlock_emu.c, any number of threads, Mesa condition variables with spurious wake-ups | inductive invariants over reachable states |
| C47 | `Threadpool`: transition system | inductive invariants |
| C48, C49 | `Pipeline`: transition system | invariants; deadlock refuted by an explicit schedule |
| C50 | `Timer`: m_event_timer.c queue and processing | invariants over op lists with arbitrary clock readings |
| C51, C52, C53, C54 | `MemFn`, `StrNum`, `Sort`: endian, compare, LRC, CRC8 | arithmetic / sweeps |

| C55 | `Parser`: line and column counters | invariant over operation lists |
| C56 | `Decimal`: division | arithmetic |
| C57, C58 | `Threadpool`: deadlock freedom, waiting and destruction | inductive invariants |
| C59 | `Pipeline`: deadlock freedom while up | inductive invariants |
| C60 | `StrEq`: M_str_eq_max_int and callers, M_str_casestr, with the loop count | refinement to equality of contents |
| C61 | `TlsHost`: tls/m_tls_hostvalidate.c on abstract certificates | refinement to a relation on labels |
| C62 | `Percent`: m_textcodec_percent.c on byte lists | round trip; decoder refined to a relation text/bytes |
| C63 | `Qp`: m_textcodec_quoted_printable.c, signedness of char a parameter | round trip; line counter invariant; decoder refined to a relation text/bytes |
| C64 | `Punycode`: m_textcodec_punycode.c | encoder and decoder each against a relational statement of RFC 3492 on unbounded numbers (variable-length integers, bias adaptation, insertion run); invariant relating encoder delta and decoder position |
| C65 | `Csv`: m_csv.c | grammar of CSV texts with their values as an inductive relation; both passes proved against it by induction on the text, with the buffer split at the current position; writer proved to produce a text of that grammar; separate invariant for arbitrary bytes |
| C66 | `Json`: m_json_reader.c, m_json_writer.c | grammar of documents with the trees they denote as mutual inductive relations (comments and equal keys as parameters); reader proved against it by mutual induction; writer proved to produce a text of the grammar, the round trip follows; termination and shape of results for arbitrary bytes by induction on fuel |
| C67 | `XmlEnt`: m_xml_entities.c | encoding and decoding against two inductive relations; that they compose to the identity is proved on the relations |
| C68 | `FsPath`: m_fs_path.c, m_fs_path_norm.c | a path is a function from directories to directories; the list of finished parts keeps one of two shapes and the meaning; canonical forms are separated by a fresh working directory; links by a counted walk relation, induction on the redirects left |
| C71 | hash functions, comparison callbacks, flag handling of M_hash_strvp_create | order facts by induction on the texts; FNV multiplication inverted modulo 2^32; good_cb discharged and fed into the hash table refinement |
| C74-C77 | `TextCodec`: the 28 tables transcribed by script, m_textcodec_cp_map.c, m_textcodec_utf8.c, dispatch and names of m_textcodec.c; the percent, Punycode and quoted-printable models are called by the dispatch | tables checked against published tables by computation over all entries; loops refined by induction to relations over characters; round trips as corollaries; names by lemma on caseless comparison |
| C78-C81 | `XmlDoc`: m_xml_reader.c and m_xml_writer.c on trees. Spec.v says which texts are texts of which tree (mutual inductive `Markup`/`Content`, `Document`). C78: mutual induction over the derivation, each turn of the reader's loop being one step of a relation. C79: induction over the tree gives a derivation for the written text, then C78. C80: every string handed on is a part of the data or no longer than it, so the decoder's theorem applies; the rest gets shorter in every turn. C81: invariant of the reader's stack. |
| C82-C84 | `FsPerms`: m_fs_perms.c, the mode arithmetic of m_fs_perms_unx.c and m_fs_info_unx.c. Spec.v: a table (file/override, class) -> change, and what a change does to one permission bit. C82: refinement over call lists. C83: bitwise characterisation of the mode given to chmod; the claimed one is refuted. C84: merge is the documented merge of changes, and sequential application for exact destinations; dup and owner merging refuted. |
| C85, C86 | `Spin`: M_thread_spinlock_t and M_thread_once_t used by any number of threads, one shared access per step. Invariant with a ghost queue of the threads holding tickets (tickets are consecutive modulo 2^32 from `current` on, the owner is its head, threadid is the owner); FIFO from the trace; counting invariants relate runs, resets and results. |
| C87–C90 | `TzRule`: rule based time zones on top of `Time` (broken-down times) and `Sort` (insertion index). The rule of a year from the insertion index lemma; the day of a change by weekday arithmetic against the calendar of `Time/Spec.v`; the local time by comparing the code's decision with the two clocks' readings, the year being determined by the reading; round trip by cases on the decision. |
| C91–C94 | `StateMachine`: machines of function states with cleanup machines, state functions arbitrary. A specification automaton over the history of calls (where the machine stands, the PREV stack, the continuations, the cleanups owed); an invariant between history and machine kept by every pass, run and reset (C91, C92); a measure of previous ids plus fresh continuations (C93); induction over the ids (C94). |
| C95–C97 | `Table`: ids, name maps, row map, random draws as a list. Abstraction to a matrix with optional column names; an invariant (distinct ids, name index exactly the names, values only under existing ids) kept by every call, each call refines a step of the matrix (C95); sorting through the theorem about M_sort_qsort (C96); the two loops of merge by induction over values by name (C97). |
| C98–C100 | `Proxy`: every state function on the list of unconsumed bytes, the machine as a run over the states, reads as list of pieces, outbound header builders. A state is stable if its verdict on a beginning of the bytes, unless it waits, is its verdict on all of them; streams whose run meets only stable states give the same outcome for every cut, by induction over the pieces (C99, C98). Suffix invariant of every state (C100). |
| C101–C103 | `IoBuf`: the handle with contents and sizes of its buffers, each callback as a function that also lists what it does (calls below, soft events, events passed on, answers); the layer below is part of the operations. The properties are read off the record of a run (`Spec.v`). Invariants over all runs: sizes are powers of two between 16 KB and the limit; record and buffers agree (C101); who waits finds the buffer empty, or full and marked (C102). |
| C104–C106 | `SqlTrans`: begin, execute, rollback, commit, release and the retry loop over a connection state; driver and pool are an arbitrary sequence of answers, the user's command an arbitrary decision tree of statements. The record of what is sent to the driver is judged by a two-line database (what is durable) and an automaton of how a connection may be used (`Spec.v`). Induction over rounds: each failed round commits nothing and ends in the idle phase. Termination by counting answers. |
| C107–C109 | `AsyncWriter`: the queue with its counters and the worker as a machine of lock regions (pop, callback, put back), interleaved with calls in any order; the callback's answers are part of the operations. Read off the record of calls and callbacks: order as subsequence (C107), a balance of counts (C108), a balance of flags (C109); invariants over all runs, refuting runs for what is false. |
| C110–C111 | `ThreadTls`: any number of threads, each function split into its part under the global lock and its part on the thread's own table (a heap object, use after destruction is `UB`), interleaved in any order. Read off the events: the value last stored (C110), and an automaton for the life of the values at a key together with counts of stores and destructor calls (C111). Invariant over keys, tables and trace. |
| C72, C73 | Fmt | simulation between output sinks, for every format and argument list; per item refinement of the control loop to an independent printf specification with uniqueness of the text |
| C69, C70 | dictionary (de)serialisation over M_str_explode_quoted, both scanning loops with the copy and the array | the loops refine a recursive splitter; induction over the entries; cut points characterised by parity of unescaped quotes |

## Trusted base

* Coq's kernel, version 8.16.1 (`vcheck` also runs `coqchk`).
* That the cited C lines do what the definition beside the citation says.  No
  extraction and no parsing of C takes place: the correspondence is by reading.
* Axioms: every theorem named in MANIFEST.json prints "Closed under the global
  context"; the list is in the last section.  (The checker lists seven axioms of
  Coq.ssr.ssrunder: they are the opaque module of the standard library's
  `under` tactic, loaded with it and used by no theorem here.)
* For the concurrent modules: a mutex admits one thread at a time and orders
  memory accesses; `M_thread_cond_wait` releases and takes the mutex atomically
  with the wake-up, may wake up spuriously, and a signal wakes at least one
  waiter if there is one.  Each Model.v says at its head which sections are one
  step.

## What is modelled and what is not

NULL arguments (answered by an early return almost everywhere), malloc failure
(aborts the process) and objects larger than the address space are never
modelled.  The head of each Model.v lists the functions of the file that are
left out.  In short:

| module | file in /repo | left out |
|--------|---------------|----------|
| Hex, Base64, Base32 | base/bincodec/m_hex.c, m_base64.c, m_base32.c | m_bincodec.c dispatch |
| Bithacks | base/math/m_bithacks.c | nothing |
| Rand | base/math/m_rand.c | seeding, jump |
| StrNum | base/data/m_str_num.c | M_atofi_prec |
| Str | base/data/m_str.c: explode/implode, quote, replace, trim, justify | the remaining helpers, keep_quoted |
| Glob | base/data/m_str_patmatch.c | nothing |
| Buf | base/data/m_buf.c | files, streams, numbers formatting |
| Sort | base/sort/m_sort.c, m_sort_binary.c | nothing |
| Utf8 | base/text/m_utf8.c | case mapping and classification tables |
| MemFn | base/mem/m_mem.c, m_endian.c | allocation |
| Parser | base/data/m_parser.c | split functions, binary/ASCII integers, compare |
| Bits | base/data/m_bit_buf.c, m_bit_parser.c | reserve, finish |
| List, Llist | base/list/m_list.c, m_llist.c | change_sorting, duplicate, merge |
| Hash | base/hash/m_hashtable.c | merge, getters |
| Queue, Cache | base/data/m_queue.c, base/cache/m_cache.c | nothing |
| Decimal | base/math/m_decimal.c | nothing |
| Time | base/time/m_time_gm.c | local time, time zones, parsing |
| Rwlock | thread/m_thread_rwlock_emu.c | creation, destruction |
| Threadpool | thread/m_threadpool.c | thread creation failure |
| Pipeline | thread/m_thread_pipeline.c | failing creation |
| Timer | io/m_event_timer.c | M_event_timer_oneshot (a composition of the others), event pools |
| StrEq | base/data/m_str.c 62-146, 686-716, 736-777 | the cmpsort functions (calls of strcmp, strcasecmp) |
| TlsHost | tls/m_tls_hostvalidate.c | OpenSSL (a certificate is a list of names), the text of binary IP addresses (parameter), memory management |
| Percent | text/textcodec/m_textcodec_percent.c | dispatch and UTF-8 check are in TextCodec; the buffer is the list of added bytes |
| Qp | text/textcodec/m_textcodec_quoted_printable.c, M_parser_read_int_ascii for two characters | as Percent; right shift of a negative char taken as arithmetic |
| Punycode | text/textcodec/m_textcodec_punycode.c (all functions), the sorted set of code points as insertion into an ascending list | input gone through once instead of once per code point; SIZE_MAX bounds on `k` left out; M_list_str as a list of strings |
| Csv | formats/csv/m_csv.c: counting and parsing in place, quote removal, raw cell, output of header and rows with filter | lookup by column name, reordered or added headers and the writer callback left out |
| Json | formats/json/m_json_reader.c and m_json_writer.c, without files, line and column of errors | objects are lists of members in the order of the hashtable's enumeration (C35); the parser is the data left; stack use is not modelled |
| XmlEnt | formats/xml/m_xml_entities.c | the block returned is its content; the int counter of the decoder is modelled with its overflow |
| FsPath | base/fs/m_fs_path.c 43-301 and 324-349, m_fs_path_norm.c 52-551 | PATH_MAX, environment, home, working directory and readlink are parameters; M_list_str_split is splitting without empty parts; hash table of seen paths is a list; not modelled: join_resolved, user config directories, Windows readlink |
| Dict | base/data/m_str.c 976-1070; base/hash/m_hash_dict.c 284-500 | a dictionary is the list of entries in enumeration order; M_buf is the list of bytes; the byte in front of an empty value is a parameter (None = UB) |
| HashCb | base/hash/m_hash_func.c; base/sort/m_sort_compar.c; base/data/m_str.c 719-747; base/hash/m_hash_strvp.c 46-77 | strcmp, strcasecmp (C locale) by their standard meaning; heap contents constant; comparing pointers compares addresses |
| Fmt | base/data/m_str_fmt.c 95-426, 522-526, 533-599, 640-982, 988-1183 | floating point digits (lines 428-520) are an uninterpreted function; M_parser as a list; LP64; lengths not wrapped to ssize_t; M_fs_file endpoint not modelled |
| TextCodec | text/textcodec/m_textcodec.c (all but validate_params), m_textcodec_cp_map.c, m_textcodec_utf8.c, the tables of m_textcodec_{ascii,cp*,iso8859_*}.c | hash tables are lists searched from the front; the buffer is the list of added bytes; NULL or out-of-range arguments are not passed; descriptions of table entries left out |
| XmlDoc | formats/xml/m_xml_reader.c, m_xml_writer.c, the parts of m_xml.c they use | parents are not stored: an element joins its parent when closed; error line and column are not modelled; attribute dictionary is a list in order of insertion, compared without case; allocation does not fail; leaks are not visible |
| FsPerms | base/fs/m_fs_perms.c; base/fs/m_fs_perms_unx.c (all but the system calls); base/fs/m_fs_info_unx.c 38-76 | user and group databases are functions; chmod/chown/access appear as the arguments they are given; Windows code left out |
| Spin | thread/m_thread.c 398-467, 663-711 | sequential consistency; back-off left out; no recursive use |
| TzRule | base/time/m_time_tz_rule.c 31-278, m_time_tz_dst_rules.c 34-121, m_time_local.c 137-189 | abbreviations, loading of zones (POSIX strings, INI, Windows, Olson) and the system zone left out; isdst is a boolean; all rules of a zone have one standard offset in C89, C90 |
| StateMachine | base/data/m_state_machine.c 263-397, 434-839 (function states), 852-874, 922-936, 1020-1036, 1078-1139 | sub machine and interleaved states, tracing, descriptions, removal and duplication of machines left out; lists and hash tables are lists; a state function cannot change its own machine |
| Table | formats/table/m_table.c 49-812 (all but create flags, destroy, duplicate). Hash tables as association lists, lists of ids as lists; M_rand a list of draws (Fuel if exhausted); comparators functions of the two strings; dictionary values not NULL. Not modelled: the readers and writers (csv, json, markdown). |
| Proxy | io/m_io_proxy_protocol.c: inbound states, machine, process_inbound and read_cb (as byte streams), set_source_endpoints, header builders | timeouts, error texts, soft events, layer plumbing, errors from the layer below; inet_pton/inet_ntop are parameters; M_parser_t and M_state_machine_t by their meaning (modules Parser and StateMachine) |
| IoBuf | io/m_io_buffer.c whole, with the sizes of base/data/m_buf.c 115-162, 240-309 and the waiting rule of io/m_io.c 483, 670 | critical errors clearing soft events, meta data, user-level soft events, memory of M_buf (see Buf) |
| SqlTrans | sql/m_sql_trans.c whole, sql/m_sql_error.c 88-126, sql/m_sql_connpool.c 986-1033, 1182-1196 | error texts, trace callbacks, sleeping, waiting for a free connection, other threads taking a released connection, fetching rows, drivers |
| AsyncWriter | log/m_async_writer.c: pop_one, replace_one, write_thread, _create, _write, _set_command, _set_command_block, _set_max_bytes, _start, _stop, _destroy | condition variables, is_alive, destroy_blocking, counters near 2^64, starting or destroying a writer while another thread is still in _stop, texts of reports |
| ThreadTls | thread/m_thread_tls.c: key_create, setspecific, getspecific, purge_thread, destroy_thread_key, destroy_store | deinit, destructors that call the storage functions (the last removal of purge_thread holds the global lock), 2^64 keys, allocation failure |

## Findings

Each item is a behaviour of the code that contradicts its documentation or is
undefined; those with a theorem are proved by a concrete execution of the model
(`…_refuted`), the others were noticed while reading.

* **hex**: wrapped text with an odd number of line breaks is refused by the
  decoder; an odd trailing nibble before white space is dropped silently.
* **base64**: a line break inside `==` breaks the round trip; white space only
  reads before the buffer; `AA=B` is accepted.
* **base32**: decodes to a multiple of five bytes always; ignores its length
  argument and reads to the NUL.
* **sort**: the stable insertion index is not behind all equal elements.
* **utf8**: U+0000 is encoded but decoding consumes nothing; noncharacters of
  planes 10–15 accepted; cp_at(count) succeeds; an invalid sequence before the
  index dereferences NULL.
* **string to integer**: overflow missed (`30000000000000000000`), negative
  32 bit unsigned accepted, `0x` prefix refused.
* **strings**: explode of the empty string gives NULL; unquote/quote fail for
  white-space quotes and bytes from 128 on; replace duplicates the tail after a
  match at the end.
* **glob**: `\]` and `\` inside brackets; ranges without regard to case.
* **buf**: merge copies from the start of the allocation (wrong after a drop);
  direct writes after a drop write past the allocation; a refused hexadecimal
  add returns TRUE and loses the terminator.
* **mem**: rmem with an empty needle returns the start.
* **parser**: failing read_bytes_until/charset consume data and leave a mark;
  boundaries are matched without backtracking; truncate reads data[-1]; the
  column is wrong after a rewind.
* **bit buffer and parser**: stale pad bits, truncation to more bits than there
  are, one byte read past the end, TRUE on a failed read.
* **list**: stack insert_at off by one and remove_val/remove_range wrong, queue
  insert_at past the end inserts before the last, sorted remove by pointer/ALL
  leaves elements, sorted remove_duplicates by value drops distinct elements.
* **linked list**: removing the last node of a circular list leaves dangling
  pointers; MATCH_ALL on circular lists may not end; sorted insertion not stable.
* **hash table**: multi_remove does not update the number of values.
* **cache**: the value is duplicated from the key.
* **decimal**: comparison and division wrong on overflow, to_str beyond 19
  places, from_str on several inputs, banker's rounding of 2.51.
* **time**: the 60 smallest 64 bit times overflow; normalisation off by leap
  days when more than a year is added from March on.
* **rwlock**: unlocking an unheld lock blocks it for ever.
* **thread pool**: a task queued while the last worker times out stays for ever;
  fewer than min_threads; start order; lost wake-up with idle time 0; destroying
  drops queued tasks so that waiting for their parent hangs.
* **pipeline**: destroy deadlocks with two or more steps; a failing task can
  wedge it; FAIL and ABORT results confused.
* **timers**: a failed start leaves the timer running with time zero; absolute
  starts from the callback or on a running timer; up to 1 ms early; stop by
  another thread reads freed memory.
* **string comparison**: the header says the length of the secret second argument of M_str_eq
  cannot be found out; the loop stops at the shorter string
  (`str_eq_secret_length_refuted`).  M_str_casestr("", "") is NULL
  (`casestr_empty_refuted`).
* **TLS host names**: MULTILEVEL_WILDCARD compares labels counted from the left, so
  "*.example.com" is accepted for "foo.example.com.attacker.org" and refused for
  "foo.bar.example.com" (`tls_host_multilevel_refuted`); SAN names are cut to 255
  bytes before the comparison (`tls_host_long_name_refuted`); fuzzy matching
  accepts a certificate for 192.168.0.1 at 10.9.0.1
  (`tls_host_fuzzy_ip_refuted`).
* **quoted-printable**: where `char` is signed, any byte above 127 makes the encoder
  index its digit table with a negative number (`qp_encode_refuted`).  The strict decoder
  reads the escape with M_str_to_int64_ex and so takes "=-1", "= 4" and "=4G"
  (`qp_decode_refuted`; exactly what it takes: `qp_decode_strict_partial`).
* **punycode**: encoder and decoder do not overflow on the same texts: 3998 times "a"
  followed by U+0080 and U+1062CD is encoded, but the result is refused by the decoder
  (`puny_round_trip_refuted`).  The decoder adds `i / len` to the code point without an
  overflow check, so a text that stands for the code point 2^32 + 65 decodes to "A"
  (`puny_decode_overflow_refuted`).

- `M_csv_parse` reads a quoted cell that holds nothing but quotes with one quote too many: `""""`, which is one quote, comes back as two (`csv_parse_text_refuted`).  A lone CR outside quotes ends the value of its cell; the rest of the cell is lost.  `M_csv_output_rows_buf` writes an empty string as NULL.
- `formats/json/m_json_reader.c` lines 208 and 289 join two tests with `&&` that need `||`: `[1 2]` and
  `{"a":1 "b":2}` are accepted (`json_comma_refuted`).
- The JSON reader drops members with an empty key, cuts strings at `\u0000`, refuses surrogate pairs, and with
  REPLACE_BAD_CHARS keeps the control character after the `?` and can read past the data; a number that ends the
  data makes it read one byte past it; `[1e-9223372036854775808]` overflows a signed integer
  (`json_empty_key_refuted`, `json_nul_refuted`, `json_unicode_refuted`, `json_replace_refuted`,
  `json_replace_overread_refuted`, `json_number_overread_refuted`, `json_exponent_refuted`).
- The JSON writer does not escape keys, writes code points beyond U+FFFF as `\u1F600`, and with NUMBER_NOCOMPAT
  writes a closing quote without an opening one after large integers (`json_write_key_refuted`,
  `json_unicode_refuted`, `json_big_integer_refuted`).
- `M_xml_entities_decode` takes a length but compares entity names beyond it, so that part of a reference can be decoded
  as a whole and an unterminated buffer is over-read; it accepts names in any case and of the numeric references only
  `&#xA;` and `&#xD;`; the attribute decoder does not know `&apos;` and `&gt;` (`xml_decode_length_refuted`,
  `xml_decode_names_refuted`, `xml_attribute_apos_refuted`).
- `M_fs_path_norm` treats a backslash as a separator on Unix (`path_norm_backslash_refuted`), drops components `$` and `%%` and expands `$X`/`%X%` with no flag asking for it (`path_norm_dollar_refuted`), and takes a variable's value for a single component, so `$X/..` is `.` (`path_norm_env_parent_refuted`) and the result may contain `..` (`path_norm_env_canonical_refuted`).
- 25 links in a row are reported as a loop (`path_norm_loop_refuted`), and with HOME a relative link to a file called `~` is taken for the home directory (`path_norm_home_link_refuted`).
- `M_hash_dict_serialize` reads val[-1] for an empty value (m_hash_dict.c:297).
- A value ending in the escape character swallows the closing quote on reading when quote and escape differ.
- Keys are never quoted by `M_hash_dict_serialize`; ALWAYS_QUOTE turns NULL into an empty string; HEXENCODE is not decoded and prints bytes above 127 as [FFFFFFxx]; LF_TO_CRLF needs TRIM_WHITESPACE on reading.
- `M_str_explode_quoted` with max = 1 does not limit; with delimiter = escape it returns uninitialised pointers.
- KEYS_UPPER or KEYS_LOWER without CASECMP stores keys that are then found under neither spelling (table of 64 buckets).
- `M_sort_compar_binwraped` compares the length first: it is a total order but not the dictionary order.
- C72: a failed write is masked: add_sign and add_prefix return -1 and it is added to the length (m_str_fmt.c:418-424, 893). Two failures make -2, which is taken for the end of the format and prints the text of a broken format (line 900).
- C73: `%Id` is to be the same as `%zd` (m_fmt.h) but reads an int whenever two more bytes of the format follow (line 783-794).
- C73: against C99, `%#x` of 0 has a prefix, integer precision is ignored, a negative `*` is ignored, `%05f` of an infinity is filled with zeros, widths wrap at 2^64.
- C75: M_textcodec_encode_cp_map (m_textcodec_cp_map.c:62-68) passes `&next` to M_utf8_get_cp, which stores NULL there on invalid UTF-8; M_utf8_next_chr(NULL) is NULL, and the loop condition follows it. Every single-byte codec crashes on every invalid text with REPLACE or IGNORE (`codepage_encode_invalid_refuted`).
- C75: M_UTF8_REPLACE (m_textcodec_int.h:54) is "\xFF\xFD", not the UTF-8 of U+FFFD; decoding with REPLACE gives invalid UTF-8 (`codepage_decode_replace_refuted`, `utf8_codec_decode_refuted`). M_CP_REPLACE is added as the byte 3F also in EBCDIC pages, where it is U+001A.
- C76: m_textcodec.c:625 has iso8859_17 for iso8859_16.
- C77: M_TEXTCODEC_UNKNOWN encodes by copying and refuses to decode; an empty result is a NULL string with success.
* XML reader: the data of a document type declaration is the rest of the whole document (`xml_doctype_refuted`, m_xml_reader.c:533: the length is ignored), and data not ended by a NUL is read past its end (`xml_read_unterminated_refuted`).
* XML reader: references in CDATA are decoded; with M_XML_READER_DONT_DECODE_TEXT the text of CDATA is the rest of the document (`xml_cdata_refuted`, m_xml_reader.c:573-575).
* XML reader: a comment after the root element is an error, text before it is accepted (`xml_outside_root_refuted`).
* XML reader: attributes without value or quotes are accepted; with M_XML_READER_DONT_DECODE_ATTRS an attribute without value is reported as a duplicate (`xml_attribute_forms_refuted`).
* XML writer and reader: text is trimmed, texts side by side are merged, data of a processing instruction comes back as attributes, a comment may end early (`xml_roundtrip_refuted`).
- C83: M_fs_perms_update_mode_from_perms (m_fs_perms_unx.c:135-155) or-s three results that are each computed from the complete old mode, so EXACT and REMOVE never take a permission away: setting exactly 0600 on a 0644 file leaves it 0644 (`perms_apply_keeps`, `perms_apply_refuted`).
- C83: M_fs_perms_set_perms (227) rebuilds the old mode from the nine permission bits only, so any call drops set-user-id, set-group-id and sticky (`perms_apply_exact`).
- C84: M_fs_perms_dup (m_fs_perms.c:103-104) assigns group_mode twice and never group_type: a duplicated REMOVE for the group becomes EXACT and grants what was to be removed (`perms_dup_refuted`).
- C84: M_fs_perms_merge (133-146) copies uid and gid but not the names, which are what M_fs_perms_set_perms looks at: a merged owner is ignored (`perms_merge_owner_refuted`). It also does not free src although the documentation says so.
- C82: M_fs_perms_set_group does not treat the empty name like NULL, M_fs_perms_set_user does (`perms_group_empty_refuted`).
- C88: `M_time_tz_rule_change_to_time` (m_time_tz_rule.c:65-68) tests `atime.day == 0` where `start_day` is meant. The field was cleared before, so every change counted from the end of the month fails and the zone never has summer time. (Line 86 has the wrong sign besides.)
- C89: `M_time_tz_rule_isdst` (m_time_tz_rule.c:149) computes the shift as |offset| - |offset_dst|, which is negative east of Greenwich. Summer time then ends an hour late there. `M_time_tz_rule_isdst_ends` (118-126) is inverted: zones whose summer time spans the new year get summer time in winter and standard time in summer.
- C90: as a consequence of the first point M_time_fromlocal does not undo M_time_tolocal in that hour.
* C91: with no previous state PREV sets ERROR_NO_PREV (m_state_machine.c:806-809) and current_id 0, but the top of the loop (481-485) replaces it by ERROR_BAD_ID; ERROR_NO_PREV is never returned.
* C92: with ONE_CLEANUP a cleanup machine that answers WAIT or PAUSE is put back (369) although its id is already in cleanup_seen_ids (344), so the next run skips it (341) and the machine ends with that cleanup unfinished; and after an error the id is removed (390), so the cleanup can run twice. STOP_CLEANUP is turned into ERROR_STATE by 711-724 and does not stop anything. CONTINUE registers the state for cleanup (736-738), the documentation says it does not.
* m_state_machine.c: M_state_machine_state_create does not clear its memory and create_interleaved does not set d.interleaved.running (read at 499): not modelled.
- Table: `M_table_column_set_name` (m_table.c:354-360) does not remove the old name from `col_name_id`, and does not check that the new one is free: the old name goes on resolving (and cannot be given to a new column), two columns can have one name (`table_rename_refuted`, `table_same_name_refuted`).
- Table: `M_table_column_sort_data_at` (m_table.c:403) returns for `idx <= len`: it never sorts (`table_sort_at_refuted`).
- Table: `generate_id` (m_table.c:121-130) does not see the ids of unnamed columns and of rows without values, and accepts 0 even if used (`table_id_refuted`).
- Table: `M_table_merge` drops the columns of a source without rows (`table_merge_columns_refuted`); `M_table_cell_set_dict` returns M_TRUE for a row that does not exist (part of the specification of C95).
- Proxy: in version 1 a source port whose 5 digits arrive without the following space, or 5 buffered bytes of a destination port before CR LF is complete (`8080` CR), is reported as an error (m_io_proxy_protocol.c:306, 343): whether a valid header is accepted depends on how TCP delivers it (`proxy_cut_port_refuted`).
- Proxy: a version 2 header with unspecified family and data (LOCAL with extensions) does not wait for the data: M_parser_consume at line 442 consumes nothing if it has not arrived yet, and the application reads it as its own (`proxy_cut_unspec_refuted`).
- Proxy: a version 1 `UNKNOWN` line with anything between UNKNOWN and CR LF, which the protocol allows, is refused (line 186); reset does not restore `local` (930-957); M_io_proxy_protocol_set_source_endpoints (1184-1256) acquires the layer, which locks the io object, and releases it on no path; TCP4 with IPv6 addresses is accepted.
* io/m_io_buffer.c:64-83: a read event that is processed while the read buffer is full at its limit clears `hit_max_read` and returns; when the application then empties the buffer no read soft event is queued, and data left in the layer below stays there until the peer sends more (`iobuf_stall_refuted`).
* io/m_io_buffer.c:74-76: a read limit below 16 KB is ignored, 16 KB are buffered (`iobuf_small_limit_refuted`).
* io/m_io_buffer.c:62-69: with a limit of 2^63 the rounded size wraps to 0 and the request size underflows once the buffer has grown to 2^63 (out of reach in practice; the theorems stop at 2^62).
- **SqlTrans: use after free in M_sql_trans_commit** (m_sql_trans.c:169-176): if the connection is in state FAILED or ROLLBACK the transaction is rolled back, which releases the connection; the state of the connection is read after that. A FAILED connection has been destroyed by then; one that is too old as well. Reached when a command ignores a lost connection and returns success (`sql_trans_use_after_free_refuted`).
- SqlTrans: a rollback that fails with an error that is not a lost connection puts the connection back with its transaction open (`sql_trans_open_transaction_refuted`); the driver interface (m_sql_driver.h:256-269) only says that a driver should probably report a lost connection.
- SqlTrans: a commit that fails with a lost connection is retried; if the server had applied it, the work is done twice. The model takes the driver's word that a failed commit is not applied.
- **AsyncWriter: a refused message is lost** (m_async_writer.c:196, base/list/m_llist.c:619): replace_one inserts after the last node, which does nothing if the queue is empty, and still adds the size to stored_bytes (`aw_lost_refuted`). The phantom bytes stay for ever: messages are then accepted and dropped at once (`aw_dead_refuted`), and after M_async_writer_set_max_bytes below them the loop at 666 never ends, with the lock held (`aw_hang_refuted`).
- AsyncWriter: a report of dropped messages that was accepted is made again if the message after it is refused (`aw_twice_refuted`).
- AsyncWriter: a command is lost, and a blocking caller waits, if it was taken together with a report that the callback refuses (`aw_command_lost_refuted`); a blocking caller can return before the command was carried out (`aw_block_early_refuted`).
- AsyncWriter, from reading: M_async_writer_start (457) returns with the lock held when the thread cannot be created.
- ThreadTls: M_thread_tls_setspecific(key, NULL) removes the value and then goes on to store NULL (181-189), so the destructor is called with NULL when the thread ends or the next value is stored (`tls_null_refuted`).
- ThreadTls: storing the pointer that is already stored destroys it, keeps it readable, and destroys it again later (`tls_same_refuted`).

## Theorems and assumptions

Every theorem below: "Closed under the global context".

<!-- theorems -->
* C01 (proved): `hex_round_trip`
* C02 (proved): `hex_decode_denotes`
* C03 (proved): `b64_round_trip`, `b64_sizes`
* C04 (partial): `hex_wrap_round_trip_refuted`, `hex_wrap_exact_partial`, `b64_wrap_round_trip_refuted`, `b64_wrap_exact_partial`
* C05 (partial): `b32_round_trip_refuted`, `b32_round_trip_partial`, `b32_round_trip_mult5`
* C06 (partial): `hex_decode_in_bounds`, `b64_decode_in_bounds_refuted`, `b64_decode_in_bounds_partial`, `b32_decode_in_bounds_refuted`
* C07 (proved): `bit_is_power_of_two`, `bit_round_up32`, `bit_round_up64`, `bit_round_up_out_of_range`, `bit_round_down32`, `bit_round_down64`, `bit_log2_32`, `bit_log2_64`, `bit_sign_extend`, `bit_sign_extend_undefined`, `bit_popcount8`, `bit_popcount64`
* C08 (proved): `rand_range_in_range`, `rand_range_no_bias`, `rand_range_rejections`, `rand_state_never_zero`, `rand_state_injective`, `rand_str_chars`
* C09 (proved): `mergesort_stable_sort`
* C10 (proved): `qsort_sorts`
* C11 (proved): `binary_search_exact`
* C12 (partial): `insert_idx_sorted`, `insert_idx_stable_refuted`, `insert_idx_stable_partial`
* C13 (partial): `utf8_from_cp_writes`, `utf8_round_trip_partial`, `utf8_round_trip_refuted`, `utf8_reencode`
* C14 (partial): `utf8_well_formed_partial`, `utf8_well_formed_refuted`, `utf8_get_cp_in_bounds`, `utf8_overlong_rejected`, `utf8_surrogate_rejected`
* C15 (partial): `utf8_cp_at_partial`, `utf8_cp_at_refuted`, `utf8_cp_at_null_refuted`, `utf8_cnt_exact`, `utf8_is_valid_exact`, `utf8_text_decomposes`, `utf8_text_unique`
* C16 (partial): `uint64_parse_exact`, `uint64_parse_partial`, `uint64_overflow_partial`, `uint64_overflow_refuted`, `int64_parse_partial`, `int64_overflow_refuted`, `int32_parse_partial`, `uint32_parse_partial`, `uint32_negative_refuted`, `uint64_print_parse`, `hex_prefix_refuted`
* C17 (partial): `explode_splits_partial`, `explode_pieces_unique`, `implode_restores`, `explode_empty_refuted`, `implode_readable`
* C18 (partial): `unquote_quote_partial`, `quote_escapes`, `unquote_quote_space_refuted`, `unquote_quote_high_refuted`
* C19 (partial): `replace_str_partial`, `replaced_unique`, `replace_str_refuted`
* C20 (proved): `trim_correct`
* C21 (partial): `glob_match_partial`, `glob_match_total`, `glob_escaped_bracket_refuted`, `glob_escaped_backslash_refuted`, `glob_case_range_refuted`
* C22 (proved): `justify_correct`, `justify_total`
* C23 (partial): `buf_refines_bytes`, `buf_finish_bytes`, `buf_terminated_partial`, `buf_terminated_refuted`, `buf_add_just_partial`, `buf_add_just_refuted`
* C24 (partial): `buf_merge_partial`, `buf_merge_refuted`, `buf_bjoin_partial`
* C25 (partial): `parser_dyn_refines_partial`, `parser_const_refines_partial`, `parser_failed_read_partial`, `parser_failed_read_refuted`, `parser_truncate_whitespace_partial`, `parser_truncate_whitespace_refuted`, `parser_reset_exact`
* C26 (partial): `parser_mark_partial`, `parser_mark_refuted`
* C27 (partial): `parser_boundary_sound`, `parser_boundary_partial`, `parser_boundary_same_partial`, `parser_boundary_first_partial`, `parser_boundary_refuted`, `parser_boundary_empty_refuted`
* C28 (partial): `mem_mem_first`, `mem_mem_empty`, `mem_rmem_last_partial`, `mem_rmem_last_refuted`, `parser_consume_until_exact`
* C29 (partial): `bitbuf_refines_partial`, `bitbuf_refines_refuted`, `bitbuf_truncate_refuted`
* C30 (partial): `bitparser_refines_partial`, `bitparser_const_refines_partial`, `bitparser_read_uint`, `bitparser_const_refuted`, `bitparser_count_refuted`, `bitparser_read_int_refuted`
* C31 (partial): `list_refines_partial`, `unsorted_list_refines_partial`, `list_conserves`, `stack_insert_at_refuted`, `insert_at_beyond_refuted`, `stack_remove_range_refuted`, `stack_remove_val_refuted`, `swap_beyond_refuted`, `set_replace_at_refuted`
* C32 (partial): `list_refines_partial`, `sorted_list_sorted_partial`, `list_conserves`, `sorted_remove_ptr_refuted`
* C33 (partial): `remove_duplicates_partial`, `remove_duplicates_refuted`
* C34 (proved): `llist_refines_sequence`, `llist_sorted`, `sorted_insert_stable_refuted`, `circular_remove_refuted`, `circular_insert_before_refuted`, `llist_destroy`
* C35 (proved): `hashtable_refines_map`, `hashtable_history`, `hashtable_destroy`, `hashtable_duplicate`, `huge_table_refuted`, `enumerate_past_end_refuted`
* C36 (partial): `hashtable_count_partial`, `hashtable_history`, `hashtable_refines_map`, `multi_remove_count_refuted`
* C37 (partial): `cache_lru_partial`, `cache_recent`, `cache_value_duplicate_refuted`
* C38 (proved): `queue_refines`, `queue_order`
* C39 (proved): `decimal_add_exact`, `decimal_add_complete`, `decimal_subtract_exact`, `decimal_subtract_complete`, `decimal_add_defined_partial`, `decimal_subtract_defined_partial`, `decimal_add_defined_refuted`
* C40 (partial): `decimal_cmp_partial`, `decimal_cmp_bounded_partial`, `decimal_cmp_refuted`
* C41 (partial): `decimal_to_str_partial`, `decimal_from_str_partial`, `decimal_from_str_integer`, `decimal_text_roundtrip_partial`, `decimal_to_str_refuted`, `decimal_from_str_refuted`
* C42 (partial): `decimal_multiply_exact_partial`, `decimal_multiply_complete`, `decimal_multiply_refuted`, `decimal_transform_extend`, `decimal_transform_truncate_partial`, `decimal_transform_traditional_partial`, `decimal_transform_bankers_partial`, `decimal_transform_bankers_refuted`, `decimal_transform_defined_refuted`, `decimal_reduce_exact`
* C43 (proved): `time_togm_correct`, `time_date_unique`, `time_togm_next_day`, `time_roundtrip`, `time_togm_smallest_refuted`
* C44 (partial): `time_normalize_partial`, `time_fromgm_valid`, `time_normalize_general_partial`, `time_normalize_refuted`, `time_valid_day`
* C45 (proved): `rwlock_exclusion`, `rwlock_count`
* C46 (proved): `rwlock_no_lost_wakeup`, `rwlock_terminates`, `rwlock_completes`, `rwlock_unlock_unheld_refuted`
* C47 (partial): `threadpool_at_most_once`, `threadpool_fifo`, `threadpool_queue_bound`, `threadpool_thread_bound`, `threadpool_wait`, `threadpool_order_partial`, `threadpool_insert_order`, `threadpool_order_refuted`, `threadpool_task_runs_refuted`, `threadpool_min_threads_refuted`
* C48 (partial): `pipeline_at_most_once`, `pipeline_count`, `pipeline_wait`, `pipeline_order`, `pipeline_success`, `pipeline_serial`, `pipeline_result_refuted`
* C49 (partial): `pipeline_destroy_partial`, `pipeline_destroy_returns`, `pipeline_destroy_final`, `pipeline_destroy_refuted`
* C50 (partial): `timer_fires_only_when_due_partial`, `timer_silent_after_stop`, `timer_order`, `timer_due_found`, `timer_process_end`, `timer_minimum`, `timer_queued`, `timer_failed_start_refuted`, `timer_far_start_refuted`, `timer_start_in_callback_refuted`, `timer_set_start_running_refuted`, `timer_early_refuted`, `timer_stop_race_refuted`
* C51 (proved): `swaps_reverse`, `byte_order_conversions`
* C52 (proved): `mem_eq_exact`, `lrc_exact`, `crc8_remainder`, `crc16_remainder`, `crc32_remainder`, `mem_count_exact`, `swap_bytes_exact`, `mem_cmpsort_order`, `mem_cmpsort_exact`
* C53 (proved): `str_eq_max_decides`, `str_eq_decides`
* C54 (proved): `str_cat_correct`, `str_cpy_correct`, `str_cpy_max_correct`, `str_delete_correct`, `str_map_correct`
* C55 (partial): `parser_line_exact`, `parser_const_line_column_exact`, `parser_column_refuted`
* C56 (partial): `decimal_divide_exact_partial`, `decimal_divide_defined_partial`, `decimal_divide_refuted`
* C57 (partial): `threadpool_no_deadlock_partial`, `threadpool_wait_available_refuted`, `threadpool_wait_available_spins`
* C58 (partial): `threadpool_destroy_final`, `threadpool_freed_unused`, `threadpool_parent_unused`, `threadpool_destroy_returns`, `threadpool_destroy_drops_tasks`
* C59 (partial): `pipeline_no_deadlock`, `pipeline_fail_deadlock_refuted`
* C60 (partial): `str_eq_max_correct`, `str_eq_correct`, `str_eq_constant_time`, `str_eq_secret_length_refuted`, `str_eq_start_correct`, `str_eq_start_unterminated`, `str_eq_end_correct`, `casestr_first_partial`, `casestr_empty_refuted`
* C61 (partial): `tls_verify_host_partial`, `tls_verify_host_normal_partial`, `tls_wild_one_level`, `tls_host_multilevel_refuted`, `tls_host_fuzzy_ip_refuted`, `tls_host_long_name_refuted`
* C62 (proved): `percent_round_trip`, `percent_encode_safe`, `percent_decode_exact`, `percent_decode_tolerant`, `percent_decode_defined`
* C63 (partial): `qp_round_trip_partial`, `qp_lines_partial`, `qp_encode_refuted`, `qp_decode_complete`, `qp_decode_strict_partial`, `qp_decode_refuted`, `qp_decode_defined`
* C64 (partial): `puny_encode_rfc`, `puny_decode_rfc_partial`, `puny_round_trip_partial`, `puny_never_another`, `puny_bad_input`, `puny_round_trip_refuted`, `puny_decode_overflow_refuted`
* C65 (partial): `csv_parse_text_partial`, `csv_parse_text_refuted`, `csv_parse_safe`, `csv_write_read_partial`
* C66 (partial): `json_read_text_partial`, `json_write_read_partial`, `json_read_ends`, `json_read_result`, `json_comma_refuted`, `json_empty_key_refuted`, `json_write_key_refuted`, `json_unicode_refuted`, `json_nul_refuted`, `json_big_integer_refuted`, `json_replace_refuted`, `json_replace_overread_refuted`, `json_number_overread_refuted`, `json_exponent_refuted`
* C67 (proved): `xml_encode_correct`, `xml_encode_clean`, `xml_decode_correct`, `xml_roundtrip`, `xml_decode_length_refuted`, `xml_decode_names_refuted`, `xml_attribute_apos_refuted`
* C68 (proved): `path_norm_meaning`, `path_norm_complete`, `path_norm_idempotent`, `path_norm_noparent`, `path_norm_absolute`, `path_norm_home`, `path_norm_links_sound`, `path_norm_links_complete`, `path_norm_ends`, `path_split_meaning`, `path_join_meaning`, `path_norm_backslash_refuted`, `path_norm_dollar_refuted`, `path_norm_env_parent_refuted`, `path_norm_env_canonical_refuted`, `path_norm_loop_refuted`, `path_norm_home_link_refuted`, `path_norm_env_unset`, `path_norm_env_set`
* C69 (proved): `dict_roundtrip`, `dict_serialize_inj`, `dict_empty_value_refuted`, `dict_trailing_escape_refuted`, `dict_key_refuted`, `dict_null_quoted_refuted`, `dict_hexencode_refuted`, `dict_crlf_refuted`, `dict_empty_refuted`
* C70 (proved): `explode_quoted_joined`, `explode_quoted_cuts`, `explode_quoted_max1_refuted`, `explode_quoted_delim_escape_refuted`
* C71 (proved): `compar_str_order`, `compar_binwraped_order`, `compar_total_preorders`, `fnv1a_published`, `fnv1a_one_byte`, `strvp_callbacks_good`, `u64_callbacks_good`, `vp_callbacks_good`, `strvp_refines_map`, `keys_upper_alone_refuted`, `compar_binwraped_lex_refuted`, `compar_num_order`, `compar_str_desc_order`
* C72 (proved): `fmt_one_text`, `fmt_truncation`, `fmt_write_error_refuted`
* C73 (proved): `fmt_conversions`, `fmt_hex_zero_refuted`, `fmt_int_precision_refuted`, `fmt_negative_star_refuted`, `fmt_modifier_I_refuted`, `fmt_inf_zero_refuted`, `fmt_width_wraps_refuted`
* C74 (proved): `codepage_tables_standard`, `codepage_outcome_unique`, `codepage_round_trip`, `codepage_round_trip_bytes`
* C75 (partial): `codepage_encode_partial`, `codec_encode_invalid_strict`, `codepage_encode_invalid_refuted`, `codepage_decode_partial`, `codepage_decode_valid_partial`, `codepage_decode_replace_refuted`, `codepage_replace_mark_refuted`, `utf8_codec_strict`, `utf8_codec_replace_partial`, `utf8_codec_decode_refuted`
* C76 (partial): `codec_name_round_trip`, `codec_name_case`, `codec_names_partial`, `codec_names_refuted`
* C77 (partial): `textcodec_round_trip_partial`, `unknown_codec_refuted`, `textcodec_empty_refuted`
* C78 (proved): `xml_read_correct`, `xml_read_mismatch_rejected`, `xml_doctype_refuted`, `xml_cdata_refuted`, `xml_outside_root_refuted`, `xml_attribute_forms_refuted`
* C79 (proved): `xml_write_correct`, `xml_doc_roundtrip`, `xml_roundtrip_refuted`
* C80 (proved): `xml_read_safe`, `xml_read_unterminated_refuted`
* C81 (proved): `xml_read_wellformed`
* C82 (proved): `perms_table`, `perms_owner`, `perms_owner_clear`, `perms_group_empty_refuted`, `perms_group`
* C83 (partial): `perms_to_mode`, `perms_stat`, `perms_apply_exact`, `perms_apply_partial`, `perms_apply_keeps`, `perms_apply_refuted`, `perms_access`
* C84 (partial): `perms_merge_correct`, `perms_merge_sequential`, `perms_merge_modifiers_refuted`, `perms_merge_owner_partial`, `perms_merge_owner_refuted`, `perms_dup_partial`, `perms_dup_refuted`, `perms_merge_ids_partial`
* C85 (proved): `spin_mutual_exclusion`, `spin_fifo`, `spin_rogue_ignored`, `spin_unlock_releases`, `spin_progress`
* C86 (proved): `once_runs_once`, `once_done_on_return`, `once_results`
* C87 (proved): `tz_rule_of_year`
* C88 (partial): `tz_change_partial`, `tz_change_last_refuted`, `tz_change_last_refuted_case`
* C89 (partial): `tz_tolocal_partial`, `tz_tolocal_east_partial`, `tz_tolocal_south_partial`, `tz_tolocal_east_refuted`, `tz_tolocal_south_refuted`
* C90 (partial): `tz_round_trip_partial`, `tz_fixed_round_trip`, `tz_round_trip_refuted`
* C91 (proved): `sm_transitions`, `sm_answers`, `sm_next_call`, `sm_nested`, `sm_no_ub`, `sm_insert`
* C92 (partial): `sm_cleanup_partial`, `sm_one_cleanup_refuted`, `sm_one_cleanup_twice_refuted`, `sm_stop_cleanup_refuted`
* C93 (proved): `sm_terminates`
* C94 (proved): `sm_linear`
* C95 (partial): `table_refines_partial`, `table_rename_refuted`, `table_same_name_refuted`, `table_id_refuted`, `table_id_redrawn_partial`
* C96 (partial): `table_sort`, `table_sort_at_refuted`
* C97 (proved): `table_merge`, `table_merge_columns_refuted`
* C98 (partial): `proxy_writes`, `proxy_writes_local`, `proxy_reads_v2`, `proxy_reads_v1_partial`, `proxy_reads_local`, `proxy_both_ends_partial`
* C99 (partial): `proxy_cut_partial`, `proxy_cut_port_refuted`, `proxy_cut_unspec_refuted`
* C100 (proved): `proxy_total`, `proxy_needs_header`, `proxy_v2_only`
* C101 (proved): `iobuf_reads`, `iobuf_writes`, `iobuf_total`
* C102 (partial): `iobuf_wakes_reader`, `iobuf_wakes_writer`, `iobuf_flushes`, `iobuf_no_stall_partial`, `iobuf_stall_refuted`
* C103 (partial): `iobuf_bounded_partial`, `iobuf_small_limit_refuted`
* C104 (proved): `sql_trans_once`, `sql_trans_none`
* C105 (proved): `sql_trans_retries`, `sql_trans_ends`
* C106 (partial): `sql_trans_protocol_partial`, `sql_trans_safe_partial`, `sql_trans_use_after_free_refuted`, `sql_trans_open_transaction_refuted`
* C107 (proved): `aw_order`
* C108 (partial): `aw_accounts_partial`, `aw_write_partial`, `aw_lost_refuted`, `aw_dead_refuted`, `aw_hang_refuted`, `aw_twice_refuted`
* C109 (partial): `aw_commands_partial`, `aw_block_returns_partial`, `aw_command_lost_refuted`, `aw_block_early_refuted`, `aw_block_waits`
* C110 (proved): `tls_value`, `tls_keys`
* C111 (partial): `tls_destroy_partial`, `tls_null_refuted`, `tls_same_refuted`
