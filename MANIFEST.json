{
 "claims": [
  {
   "property": "C01",
   "status": "proved",
   "theorems": [
    "C01_history",
    "C01_history_general"
   ],
   "note": "C01_history has a condition on the history alone (at most 253 different keys per shard); C01_history_general replaces it by the exact probe-distance condition"
  },
  {
   "property": "C02",
   "status": "proved",
   "theorems": [
    "C02_store_load"
   ],
   "note": ""
  },
  {
   "property": "C03",
   "status": "proved",
   "theorems": [
    "C03_frame",
    "C03_frame_lowmem"
   ],
   "note": ""
  },
  {
   "property": "C04",
   "status": "proved",
   "theorems": [
    "C04_never_expired",
    "C04_store_absent"
   ],
   "note": ""
  },
  {
   "property": "C05",
   "status": "proved",
   "theorems": [
    "C05_retention",
    "C05_crowded_refuted"
   ],
   "note": "for caches whose probe distances stay below 255 (part of sensible)"
  },
  {
   "property": "C06",
   "status": "proved",
   "theorems": [
    "C06_nx_live",
    "C06_nx_absent"
   ],
   "note": ""
  },
  {
   "property": "C07",
   "status": "proved",
   "theorems": [
    "C07_xx_cas_absent"
   ],
   "note": ""
  },
  {
   "property": "C08",
   "status": "proved",
   "theorems": [
    "C08_cas_exact",
    "C08_tokens_grow"
   ],
   "note": "token growth for histories of fewer than 2^64-3 calls"
  },
  {
   "property": "C09",
   "status": "proved",
   "theorems": [
    "C09_canceled",
    "C09_store_asked",
    "C09_delete_asked"
   ],
   "note": ""
  },
  {
   "property": "C10",
   "status": "proved",
   "theorems": [
    "C10_keepttl"
   ],
   "note": ""
  },
  {
   "property": "C11",
   "status": "proved",
   "theorems": [
    "C11_lowmem_choice",
    "C11_lowmem_makes_room",
    "C11_overwrite",
    "C11_noevict",
    "C11_lone_item_refuted"
   ],
   "note": "Every low-memory store, in any reachable cache whose buckets fit the hash table assumptions: either nothing else is lost or exactly one neighbour; C11_lone_item_refuted shows a room-making promise the code does not keep."
  },
  {
   "property": "C12",
   "status": "proved",
   "theorems": [
    "C12_room",
    "C12_returns"
   ],
   "note": "Every API call on every reachable state returns (no fuel exhaustion, no undefined behaviour) and leaves a free bucket."
  },
  {
   "property": "C13",
   "status": "proved",
   "theorems": [
    "C13_sweep",
    "C13_kept_refuted"
   ],
   "note": "C13_sweep for every reachable cache; C13_kept_refuted shows that the 'kept' count can exceed the number of live items."
  },
  {
   "property": "C14",
   "status": "proved",
   "theorems": [
    "C14_iterate",
    "C14_once_with_deletion_refuted",
    "C14_once_with_expired_refuted"
   ],
   "note": "C14_iterate for every reachable cache; the once-only promise fails with deletions or expired items in a wrapped cluster (refuted theorems)."
  },
  {
   "property": "C15",
   "status": "proved",
   "theorems": [
    "C15_scan",
    "C15_any_cursor",
    "C15_cursor_refuted",
    "C15_once_with_expired_refuted"
   ],
   "note": "A full cursor walk returns exactly the live items, each once when no expired item is met; any other cursor value is safe. Two refutations: a cursor naming the shard just past the last one reads out of bounds, and repetition after expired items are removed on the way."
  },
  {
   "property": "C16",
   "status": "proved",
   "theorems": [
    "C16_count"
   ],
   "note": "Every reachable cache."
  },
  {
   "property": "C17",
   "status": "proved",
   "theorems": [
    "C17_size",
    "C17_drift_refuted"
   ],
   "note": "For histories whose loads and scans remove or replace nothing; C17_drift_refuted shows the size is wrong after each of the others."
  },
  {
   "property": "C18",
   "status": "proved",
   "theorems": [
    "C18_mirror"
   ],
   "note": "Mirror by replaying notifications, every history."
  },
  {
   "property": "C19",
   "status": "proved",
   "theorems": [
    "C19_lifetime",
    "C19_store_nomem_refuted",
    "C19_new_nomem_refuted"
   ],
   "note": "Every history; the allocation-failure cases are refuted separately."
  },
  {
   "property": "C20",
   "status": "proved",
   "theorems": [
    "C20_clear",
    "C20_clear_nomem_refuted"
   ],
   "note": "Every history; clear under allocation failure is refuted separately."
  },
  {
   "property": "C21",
   "status": "proved",
   "theorems": [
    "C21_entry_roundtrip",
    "C21_accessors"
   ],
   "note": "key+value size below 2^62; negative expirations read back as none"
  },
  {
   "property": "C22",
   "status": "proved",
   "theorems": [
    "C22_lossless",
    "C22_packed_iff",
    "C22_size",
    "C22_injective",
    "C22_order"
   ],
   "note": "alphabet stated explicitly in PropCodec.v"
  },
  {
   "property": "C23",
   "status": "proved",
   "theorems": [
    "C23_unsigned",
    "C23_signed",
    "C23_prefix_waits",
    "C23_in_bounds"
   ],
   "note": ""
  },
  {
   "property": "C24",
   "status": "proved",
   "theorems": [
    "C24_linearizable",
    "C24_real_time",
    "C24_progress",
    "C24_opposite_refuted",
    "C24_cache",
    "C24_count_refuted"
   ],
   "note": "Linearizability of the lock protocol for any schedule, any programs; instantiated to the cache's one-shard calls (C24_cache), deadlock freedom for increasing batches (C24_progress). Calls on all shards are not atomic (C24_count_refuted). Memory model: interleavings of atomic steps."
  },
  {
   "property": "C25",
   "status": "proved",
   "theorems": [
    "C25_alone",
    "C25_atomic",
    "C25_no_lost_update",
    "C25_plain_refuted",
    "C25_scan_refuted",
    "C25_nested_refuted"
   ],
   "note": "Strict two-phase locking of batches: exclusive shards until the end, serializable in the order of ends, no lost increments. Refuted: opposite orders deadlock, scans inside a batch self-deadlock, nested begin leaks locks, no batch loses updates."
  },
  {
   "property": "C26",
   "status": "proved",
   "theorems": [
    "C26_safe",
    "C26_last",
    "C26_overflow_refuted"
   ],
   "note": "Any number of threads, shards, entries and references, every interleaving of the atomic increments and decrements. Hypothesis: callers release only what they hold and an entry never has 2^31 references (C26_overflow_refuted shows that bound is needed)."
  },
  {
   "property": "C27",
   "status": "proved",
   "theorems": [
    "C27_pointer",
    "C27_hash",
    "C27_wide_pointer_refuted"
   ],
   "note": "pointers above 48 bits are refuted"
  },
  {
   "property": "C28",
   "status": "proved",
   "theorems": [
    "C28_set",
    "C28_reject",
    "C28_setex",
    "C28_setex_reject",
    "C28_exat_refuted",
    "C28_nx_get_refuted",
    "C28_not_found_refuted"
   ],
   "note": "SET/SETEX with every option list: reply, stored item, refusal, rejection; three documented behaviours refuted"
  },
  {
   "property": "C29",
   "status": "proved",
   "theorems": [
    "C29_by",
    "C29_by_reject",
    "C29_one",
    "C29_memcache_decr_refuted"
   ],
   "note": "INCR/DECR/INCRBY/DECRBY and unsigned forms for every counter text; memcache decr below zero refuted"
  },
  {
   "property": "C30",
   "status": "proved",
   "theorems": [
    "C30_append",
    "C30_reject"
   ],
   "note": "APPEND/PREPEND for every old value; rejection of malformed calls"
  },
  {
   "property": "C31",
   "status": "proved",
   "theorems": [
    "C31_ttl",
    "C31_expire",
    "C31_expire_reject",
    "C31_expire_then_ttl",
    "C31_expire_negative_refuted"
   ],
   "note": "TTL/PTTL and EXPIRE for every expiry and every seconds text; EXPIRE with negative seconds refuted"
  },
  {
   "property": "C32",
   "status": "proved",
   "theorems": [
    "C32_exists",
    "C32_touch",
    "C32_get",
    "C32_mget",
    "C32_del",
    "C32_reject"
   ],
   "note": "GET, MGET/MGETS, DEL, EXISTS, TOUCH for every list of keys, with repetitions"
  },
  {
   "property": "C33",
   "status": "proved",
   "theorems": [
    "C33_lookup",
    "C33_names"
   ],
   "note": "All byte strings: the probe never leaves the bucket array, and finds a command exactly when the lower-cased string is its name."
  },
  {
   "property": "C34",
   "status": "proved",
   "theorems": [
    "C34_stream",
    "C34_http"
   ],
   "note": "For every byte stream in every protocol, from a new connection: until a request carries exactly the configured password, every command is refused, the cache is untouched and the answers do not depend on the cache. An HTTP request runs only if it carries the password."
  },
  {
   "property": "C35",
   "status": "proved",
   "theorems": [
    "C35_ranges",
    "C35_flush",
    "C35_sweep"
   ],
   "note": "Ranges cover every shard once for all procs and nshards; in any interleaving of the workers' calls a parallel flush empties the cache and a parallel sweep removes exactly what has expired."
  },
  {
   "property": "C36",
   "status": "proved",
   "theorems": [
    "C36_glob",
    "C36_escaped_any_refuted",
    "C36_many_stars_refuted"
   ],
   "note": "All patterns with at most 127 groups of stars and no escaped question mark; both restrictions shown necessary by refutations."
  },
  {
   "property": "C37",
   "status": "proved",
   "theorems": [
    "C37_trouble",
    "C37_request",
    "C37_prefix",
    "C37_encode",
    "C37_accepted",
    "C37_stable",
    "C37_empty_count_refuted",
    "C37_terminator_refuted",
    "C37_long_number_refuted"
   ],
   "note": "Every well-formed RESP request is parsed to exactly its arguments whatever follows it, every proper prefix waits for more, acceptance implies a (loose) request; refutations record a negative or zero count, unchecked terminators and over-long numbers."
  },
  {
   "property": "C38",
   "status": "proved",
   "theorems": [
    "C38_resp",
    "C38_resp_unique",
    "C38_resp_stream",
    "C38_http",
    "C38_http_unique",
    "C38_memcache",
    "C38_memcache_unique",
    "C38_postgres",
    "C38_postgres_unique",
    "C38_injection_refuted",
    "C38_last_byte_refuted"
   ],
   "note": "RESP, HTTP, memcache lookups and Postgres messages: the bytes written follow the protocol's grammar for every value and every fill level of the output buffer, and the grammar is unambiguous in any stream. That errors carry no line break is refuted (C38_injection_refuted, C38_last_byte_refuted)."
  },
  {
   "property": "C39",
   "status": "proved",
   "theorems": [
    "C39_request",
    "C39_prefix",
    "C39_stable",
    "C39_accepted",
    "C39_bad_chunk",
    "C39_bad_key",
    "C39_short_line_refuted",
    "C39_trailing_space_refuted",
    "C39_gat_refuted",
    "C39_rejected_block_refuted",
    "C39_verbosity_refuted",
    "C39_trouble",
    "C39_noreply_refuted"
   ],
   "note": "Every documented storage, cas, retrieval, delete, counter, touch, flush_all, stats, version and quit request, with any data block and any continuation; prefixes wait; answers are stable; acceptance implies one line plus one CRLF-ended block and valid keys. Refutations record the short storage line, the wrapped length, gat, verbosity and the executed block of a rejected command."
  },
  {
   "property": "C40",
   "status": "proved",
   "theorems": [
    "C40_request",
    "C40_unauthorized",
    "C40_prefix",
    "C40_accepted",
    "C40_no_headers_refuted",
    "C40_split_refuted",
    "C40_method_never_405",
    "C40_trailing_and_refuted"
   ],
   "note": "Every well-formed GET, PUT and DELETE request with any headers, query and body; unauthorized ones are refused; incomplete ones wait; acceptance implies a valid key. Refutations: request without headers, split inside the empty line, a trailing ampersand; 405 proved unreachable."
  },
  {
   "property": "C41",
   "status": "proved",
   "theorems": [
    "C41_session",
    "C41_message",
    "C41_trouble",
    "C41_query_ends",
    "C41_wrong_password",
    "C41_short_refuted",
    "C41_quote_refuted",
    "C41_backslash_quote_refuted",
    "C41_repeated_refuted",
    "C41_semicolon_refuted",
    "C41_surrogates_refuted",
    "C41_words_refuted",
    "C41_describe_portal_refuted",
    "C41_empty_setting_refuted"
   ],
   "note": "Whole sessions (startup, password, TLS request, Query/Parse/Bind/Describe/Execute/Sync/Close) cut into packets anywhere are answered in order from exactly their own bytes. Trouble only for declared lengths below 4 or 2^32-1 (C41_short_refuted). Quote handling, repeated parameters, portals and other deviations are refuted by name."
  },
  {
   "property": "C42",
   "status": "proved",
   "theorems": [
    "C42_brink_refuted",
    "C42_cas_refuted",
    "C42_restored",
    "C42_ends",
    "C42_exact",
    "C42_save_load"
   ],
   "note": "For every schedule of the worker threads of load, every set of block load times and every prior cache with room: load returns 0 and each key is untouched or back with value, flags and wall-clock expiry (C42_restored, C42_exact, C42_save_load end to end through the file system model; C42_ends bounds the steps). LZ4 is any pair of functions assumed inverse; C63 discharges this for the code's LZ4. Two deviations proved: at the exact instant of expiry an item is restored for ever (C42_brink_refuted), cas tokens are not restored (C42_cas_refuted)."
  },
  {
   "property": "C43",
   "status": "proved",
   "theorems": [
    "C43_stale_refuted",
    "C43_power_refuted",
    "C43_write",
    "C43_crash",
    "C43_result"
   ],
   "note": "For any number of concurrent saves with distinct work names, every interleaving of their threads and every stopping point: every other file holds its old contents or a complete new file (C43_crash, C43_result). Process crashes only: without fsync a power failure can lose the data (C43_power_refuted), and a stale work file of the same name leaves trailing bytes (C43_stale_refuted). C43_write: what a write does to a work file that was left."
  },
  {
   "property": "C44",
   "status": "proved",
   "theorems": [
    "C44_any_refuted",
    "C44_cut_refuted",
    "C44_intact",
    "C44_burst",
    "C44_cut",
    "C44_saved"
   ],
   "note": "For every file: only intact blocks before the first bad one reach the cache and success needs a file of intact blocks only (C44_intact, C44_saved); a change confined to 32 consecutive bits of a payload is rejected (C44_burst); truncation is rejected unless at a block boundary (C44_cut). Counterexamples: C44_any_refuted (33 bits), C44_cut_refuted (boundary)."
  },
  {
   "property": "C45",
   "status": "proved",
   "theorems": [
    "C45_print_u64",
    "C45_print_i64",
    "C45_roundtrip",
    "C45_parse_i64",
    "C45_parse_u64",
    "C45_reading_unique",
    "C45_unsigned_minus_refuted",
    "C45_empty_refuted"
   ],
   "note": "Printing is canonical, parsing is characterised exactly, round trips for all 64-bit integers. Refuted: ' -1' read as an unsigned number, the empty string read as 0."
  },
  {
   "property": "C46",
   "status": "proved",
   "theorems": [
    "C46_add",
    "C46_mul"
   ],
   "note": ""
  },
  {
   "property": "C47",
   "status": "proved",
   "theorems": [
    "C47_resize",
    "C47_shrink"
   ],
   "note": "Any power-of-two size of at least 64 with room for the items."
  },
  {
   "property": "C48",
   "status": "proved",
   "theorems": [
    "C48_line",
    "C48_prefix",
    "C48_quoted",
    "C48_stable"
   ],
   "note": "Every inline command line is split into exactly its words, whatever follows; every prefix without the line end waits; any text can be quoted."
  },
  {
   "property": "C49",
   "status": "proved",
   "theorems": [
    "C49_all_shards",
    "C49_iterate",
    "C49_one_shard",
    "C49_no_such_shard",
    "C49_route"
   ],
   "note": "All multi-shard calls."
  },
  {
   "property": "C50",
   "status": "proved",
   "theorems": [
    "C50_cut",
    "C50_requests",
    "C50_http",
    "C50_runs",
    "C50_sniff",
    "C50_sniff_unique",
    "C50_trouble",
    "C50_trouble_refuted",
    "C50_first_line_refuted",
    "C50_http_key_refuted",
    "C50_http_cut_refuted"
   ],
   "note": "Well-formed RESP, telnet, memcache and HTTP streams; the first line must come in one packet unless it begins with '*' or NUL (C50_first_line_refuted), and an HTTP request must not be cut before its last line feed (C50_http_cut_refuted). Trouble is characterised for every byte stream (C50_trouble), up to trouble inside a command, which must then be the next command in the text."
  },
  {
   "property": "C51",
   "status": "proved",
   "theorems": [
    "C51_flush",
    "C51_flush_reject",
    "C51_sweep",
    "C51_purge"
   ],
   "note": "For every reachable cache, option list, protocol and processor count: C51_flush, C51_flush_reject, C51_sweep, C51_purge. A background job is a program proved to leave the cache empty (swept) whatever cache it finds when it is run; that the thread is eventually run is not modelled."
  },
  {
   "property": "C52",
   "status": "proved",
   "theorems": [
    "C52_keys",
    "C52_dbsize"
   ],
   "note": "C52_keys for patterns in the language of C36 (no escaped question mark, at most 127 star groups); C52_dbsize for fewer than 2^63 keys."
  },
  {
   "property": "C53",
   "status": "proved",
   "theorems": [
    "C53_series",
    "C53_call",
    "C53_reject",
    "C53_cursor_refuted",
    "C53_other_clients_refuted"
   ],
   "note": "C53_series (ends; complete, sound, once), C53_call (any cursor but one), C53_reject. Two deviations proved: C53_cursor_refuted (a client can make the server read out of bounds), C53_other_clients_refuted (a deletion by another client can hide a live item)."
  },
  {
   "property": "C54",
   "status": "proved",
   "theorems": [
    "C54_connection",
    "C54_clock_refuted",
    "C54_cursor_refuted",
    "C54_command"
   ],
   "note": "C54_command: any arguments, any protocol, for every command but MONITOR, DEBUG, SAVE, LOAD, STATS (their work is not in the command model; SAVE and LOAD are C42-C44). C54_connection: any bytes in any packets up to 2^44 bytes; trouble only with the texts of C50_trouble. Deviations proved: C54_clock_refuted (memcache date and a clock that jumps between two readings: assertion), C54_cursor_refuted (SCAN cursor outside the array)."
  },
  {
   "property": "C55",
   "status": "proved",
   "theorems": [
    "C55_arguments",
    "C55_no_leak",
    "C55_buffer",
    "C55_remove_refuted",
    "C55_reuse_refuted"
   ],
   "note": "C55_arguments, C55_no_leak, C55_buffer. remove_first is covered when the last argument is borrowed; deviation proved: C55_remove_refuted (double free) and C55_reuse_refuted (use after free) through Postgres ::text statements with bound parameters."
  },
  {
   "property": "C56",
   "status": "proved",
   "theorems": [
    "C56_loop",
    "C56_serial",
    "C56_others",
    "C56_uring_refuted",
    "C56_wait_refuted",
    "C56_eof_refuted",
    "C56_thread_refuted"
   ],
   "note": "C56_loop (bytes and replies of every connection, for every handler; why closed connections were closed), C56_serial (refinement: the thread is a server that handles one packet at a time, with failed writes and ends only where the system reported them), C56_others. The loop is generic in the handlers. C56_loop allows one bad outcome: the thread waiting for ever on a client that does not read (C56_wait_refuted). With io_uring it assumes that completions arrive in order of submission (C56_uring_refuted shows why). Also refuted: C56_eof_refuted, C56_thread_refuted."
  },
  {
   "property": "C57",
   "status": "proved",
   "theorems": [
    "C57_table",
    "C57_growth_refuted"
   ],
   "note": "C57_table; deviation proved: C57_growth_refuted."
  },
  {
   "property": "C58",
   "status": "proved",
   "theorems": [
    "C58_limit",
    "C58_tls",
    "C58_tls_refuted",
    "C58_room_refuted"
   ],
   "note": "C58_limit, C58_tls (no connection turned away); deviations proved: C58_tls_refuted, C58_room_refuted."
  },
  {
   "property": "C59",
   "status": "proved",
   "theorems": [
    "C59_safe",
    "C59_server",
    "C59_requests",
    "C59_order",
    "C59_auth",
    "C59_trouble"
   ],
   "note": "C59_server (one serial order of everything that was done, answers and authentication per client), C59_requests (requests of RESP, telnet and memcache clients done once, in order, none left), C59_order (agrees with real time), C59_auth (password, for the server as a whole), C59_trouble (whose text brings the server into trouble), C59_safe (with commands of ordinary size, no SCAN with a cursor out of range, no troubled piece of text and a machine that serves every call, the server never comes into trouble). Composes Net (C56) with Conn, Cmds and Reply. A command is atomic here, also one in the background; other threads run whole commands between the steps. SAVE, LOAD, MONITOR, STATS and DEBUG are not modelled as commands."
  },
  {
   "property": "C60",
   "status": "proved",
   "theorems": [
    "C60_name_finds_the_last",
    "C60_each_is_freed_once",
    "C60_freed_by_its_name",
    "C60_table_is_the_list",
    "C60_any_number_of_names_refuted"
   ],
   "note": "C60_name_finds_the_last, C60_each_is_freed_once, C60_freed_by_its_name, C60_table_is_the_list (ties the table to the list used in the model of the protocol). With 65536 names of one hash the last is lost: C60_any_number_of_names_refuted (pigeonhole, for every hash function). The hash function is arbitrary; memory does not run out (xmalloc ends the process)."
  },
  {
   "property": "C61",
   "status": "proved",
   "theorems": [
    "C61_watchers_see_all",
    "C61_shown_before_run",
    "C61_auth_is_hidden",
    "C61_line_tells_arguments",
    "C61_line_is_one_line",
    "C61_other_bytes_refuted",
    "C61_readers_let_go",
    "C61_others_go_on_refuted",
    "C61_hex"
   ],
   "note": "C61_watchers_see_all, C61_shown_before_run, C61_auth_is_hidden, C61_line_tells_arguments, C61_line_is_one_line, C61_readers_let_go. The claims that fail: C61_other_bytes_refuted (uninitialised memory), C61_others_go_on_refuted (standstill). The check of the counter without the lock is one atomic read; starting and stopping are one step each because they do not wait inside the lock; a write is done whole or not at all. C61_hex: how other bytes are shown."
  },
  {
   "property": "C62",
   "status": "proved",
   "theorems": [
    "C62_last_counts",
    "C62_else_exit",
    "C62_yes_no",
    "C62_numbers",
    "C62_starts",
    "C62_low_memory",
    "C62_autosweep_refuted",
    "C62_evict_no_refuted",
    "C62_digits"
   ],
   "note": "C62_last_counts, C62_else_exit, C62_yes_no, C62_numbers, C62_starts, C62_low_memory. The claims that fail: C62_autosweep_refuted (src/main.c:647 tests the wrong variable), C62_evict_no_refuted (noevict is never passed to pogocache_new; shown down to the key that is lost). calc_memlimit (floating point) is an arbitrary function of the text; tls_init and setmaxrlimit are not modelled. C62_digits: how the numbers of the options are read."
  },
  {
   "property": "C63",
   "status": "proved",
   "theorems": [
    "C63_round_trip",
    "C63_format",
    "C63_any_input",
    "C63_one_meaning",
    "C63_only_format_refuted",
    "C63_save_load",
    "C63_too_large_refuted"
   ],
   "note": "C63_round_trip, C63_format, C63_any_input, C63_one_meaning, C63_save_load (C42_save_load with the real codec). The claims that fail: C63_only_format_refuted, C63_too_large_refuted (a length of 0 from LZ4_compress_default is not checked in flush). The model is of the code as built on 64-bit little-endian machines with the fast decode loop; unaligned access and pointer comparison are taken as on such machines; lengths of 4 GB and more are not modelled."
  },
  {
   "property": "C64",
   "status": "proved",
   "theorems": [
    "C64_in_order",
    "C64_handed_on",
    "C64_stays_open",
    "C64_settles",
    "C64_standstill_refuted",
    "C64_request_waits_refuted",
    "C64_plain",
    "C64_replies"
   ],
   "note": "C64_in_order, C64_handed_on, C64_settles, C64_stays_open, C64_replies, C64_plain. The claim that fails: C64_standstill_refuted, C64_request_waits_refuted (PACKETSIZE-1 is one less than the largest record, and SSL_pending is not asked). What is assumed of OpenSSL and of epoll is at the head of Tls.v; the handshake is not told apart from parts of records; tls_init and tls_accept are not modelled."
  },
  {
   "property": "C65",
   "status": "proved",
   "theorems": [
    "C65_late_refuted",
    "C65_status_refuted",
    "C65_suffix_refuted",
    "C65_other_refuted",
    "C65_any_moment",
    "C65_ending",
    "C65_nonzero",
    "C65_zero",
    "C65_load_first",
    "C65_restart",
    "C65_kept",
    "C65_starts"
   ],
   "note": "C65_any_moment, C65_ending, C65_nonzero, C65_zero, C65_load_first, C65_restart, C65_kept, C65_starts. The claims that fail: C65_late_refuted, C65_status_refuted, C65_suffix_refuted, C65_other_refuted. Built on C42, C43 and C63 with the real codec. The cache that a process begins to serve with is taken to be reachable, which C65_restart gives for the next one and which holds for an empty one. SAVE and LOAD commands of clients during the shutdown are not in this model (C43 has saves at the same time); the names of work files are taken to be new."
  },
  {
   "property": "C66",
   "status": "proved",
   "theorems": [
    "C66_rounds",
    "C66_closed",
    "C66_start",
    "C66_frugal",
    "C66_cut"
   ],
   "note": "C66_rounds, C66_closed, C66_start, C66_frugal, C66_cut (a text too long for its block is cut, never written outside). The bytes of replies are those of Reply.v (C38), to which the byte-level model is shown equal. Data of a call are at most 2^60 bytes; C66_wraps shows that the size computation wraps beyond 2^63. Texts of HTTP statuses are at most 400 bytes (all are short literals). memcpy from a null pointer with length 0, at the first write, is taken to do nothing."
  },
  {
   "property": "C67",
   "status": "proved",
   "theorems": [
    "C67_total",
    "C67_grows",
    "C67_straight",
    "C67_ever_stored_refuted"
   ],
   "note": "C67_total, C67_grows, C67_straight, C67_ever_stored_refuted: the documented meaning (\"total number of entries that have ever been stored in the cache\") fails: a store with XX or a CAS on an absent key counts, a called-off delete counts again, a store over an expired item answers INSERTED and does not count."
  },
  {
   "property": "C68",
   "status": "proved",
   "theorems": [
    "C68_read",
    "C68_bounds",
    "C68_monotone",
    "C68_quiet",
    "C68_same_connection_refuted",
    "C68_answered_refuted"
   ],
   "note": "C68_read, C68_bounds, C68_monotone, C68_quiet; refuted: that STATS counts commands sent before it on the same connection, or all commands already answered."
  },
  {
   "property": "C69",
   "status": "proved",
   "theorems": [
    "C69_get",
    "C69_get_malformed",
    "C69_mget",
    "C69_ttl",
    "C69_touch",
    "C69_del",
    "C69_incrby",
    "C69_incr",
    "C69_set",
    "C69_set_reject",
    "C69_setex",
    "C69_balance_refuted",
    "C69_incr_miss_refuted"
   ],
   "note": "C69_get, C69_get_malformed, C69_mget, C69_ttl, C69_del, C69_touch, C69_set, C69_set_reject, C69_setex, C69_incr, C69_incrby; refuted: C69_balance_refuted, C69_incr_miss_refuted. The counts are read off the log of cache calls a command makes; counters of AUTH, flush and oversized values are not modelled."
  },
  {
   "property": "C70",
   "status": "proved",
   "theorems": [
    "C70_names",
    "C70_stats",
    "C70_trouble",
    "C70_args"
   ],
   "note": "C70_stats, C70_names, C70_trouble, C70_args, Example C70_case. Readings of the system (pid, clocks, getrusage, memory) and the compiled-in texts are parameters; rounding of doubles is left open. cmdSTATS is not part of the command table of Cmds.v, where STATS stays unmodelled."
  },
  {
   "property": "C71",
   "status": "proved",
   "theorems": [
    "C71_populate",
    "C71_runs",
    "C71_stops",
    "C71_parse",
    "C71_reject",
    "C71_stop_refuted",
    "C71_detach",
    "C71_far_limits",
    "C71_reply"
   ],
   "note": "C71_populate, C71_runs, C71_stops, C71_parse, C71_reject, C71_detach, Example C71_case; refuted: C71_stop_refuted (DEBUG POPULATE 1 test 1 5-5). Each store is one atomic step, which C24 justifies. The theorem allows any order of all stores, more than interleavings. C54 (no client can stop the server) leaves DEBUG out. C71_far_limits (limits more than an int apart stop the server), C71_reply."
  },
  {
   "property": "C72",
   "status": "proved",
   "theorems": [
    "C72_request",
    "C72_refused",
    "C72_reply",
    "C72_saved",
    "C72_any_moment",
    "C72_loaded",
    "C72_kept",
    "C72_load_ok",
    "C72_newest_refuted"
   ],
   "note": "C72_request, C72_refused, C72_reply, C72_saved, C72_any_moment, C72_loaded, C72_kept, C72_load_ok, Examples C72_request_case, C72_work_names, C72_case; refuted: C72_newest_refuted (two overlapping SAVEs). The temporary names of the saves must differ and not be in use (tidy): C72_work_names shows that the names are made from a random number. A step of a save is one of C43; a client operation is atomic (C24)."
  },
  {
   "property": "C73",
   "status": "proved",
   "theorems": [
    "C73_live",
    "C73_untouched",
    "C73_ends",
    "C73_newer_refuted"
   ],
   "note": "C73_live, C73_untouched, C73_ends, Example C73_case; refuted: C73_newer_refuted (SET during LOAD is overwritten by the older item of the file). Room for the keys is assumed as in C42 (room_among), and memory for the stores."
  },
  {
   "property": "C74",
   "status": "proved",
   "theorems": [
    "C74_command",
    "C74_keeps",
    "C74_other",
    "C74_closed",
    "C74_cut",
    "C74_joined",
    "C74_any",
    "C74_packets_refuted",
    "C74_safe_refuted"
   ],
   "note": "C74_command, C74_keeps, C74_other, C74_closed, C74_cut, C74_joined, C74_any, Example C74_case; refuted: C74_packets_refuted (cutting matters while watching, unlike C50), C74_safe_refuted (a star and a line end make the parser look at a byte that was not received). What it is sent of other clients' commands is C61."
  },
  {
   "property": "C75",
   "status": "proved",
   "theorems": [
    "C75_flush",
    "C75_flush_gone",
    "C75_sweep",
    "C75_sweep_unseen",
    "C75_ends",
    "C75_moment_refuted"
   ],
   "note": "C75_flush, C75_flush_gone, C75_sweep, C75_sweep_unseen, C75_ends, Examples C75_case and C75_sweep_case; refuted: C75_moment_refuted. Memory for an empty table is assumed for FLUSHALL (without it the code overwrites the table pointer, see C20 and C51); a step is the visit of one shard under its lock (C24)."
  },
  {
   "property": "C76",
   "status": "proved",
   "theorems": [
    "C76_background",
    "C76_lowmem",
    "C76_frame",
    "C76_read_back"
   ],
   "note": "C76_frame (memory not short), C76_lowmem (any state of memory: at most one other key, and it is gone, and only for SET and SETEX), C76_background (what is left to a background thread), C76_read_back, Examples C76_frame_case, C76_lowmem_case, C76_background_case and C76_read_back_case. Stated for ordinary commands (C59_safe). What FLUSH ASYNC leaves to a thread of its own is not a command of the log (C51, C75 say what it does)."
  },
  {
   "property": "C77",
   "status": "proved",
   "theorems": [
    "C77_sum",
    "C77_tickets"
   ],
   "note": "C77_sum, C77_tickets, Example C77_case. Builds on the single log of C59, the counter commands of C29 and the frame of C76; stated for ordinary commands (C59_safe) and a system that is not short of memory. What FLUSH ASYNC leaves to a thread of its own is not a command of the log (C51, C75 say what it does)."
  },
  {
   "property": "C78",
   "status": "proved",
   "theorems": [
    "C78_get",
    "C78_ttl",
    "C78_deleted"
   ],
   "note": "C78_get, C78_ttl, C78_deleted, Example C78_case (a value for one second read after 0.6 and after 1.2 seconds, and a deleted key). Builds on C28, C31, C32, C59 and C76; stated for ordinary commands and a system that is not short of memory. What FLUSH ASYNC leaves to a thread of its own is not a command of the log (C51, C75 say what it does)."
  },
  {
   "property": "C79",
   "status": "proved",
   "theorems": [
    "C79_exclusive",
    "C79_holder",
    "C79_released"
   ],
   "note": "C79_exclusive, C79_holder, C79_released, Example C79_case (two clients, a lock of one second that is tried for after 0.6 and after 1.2 seconds, then deleted). Builds on C28, C32, C59 and C76; stated for ordinary commands and a system that is not short of memory (with low memory the lock may be evicted, C76_lowmem). What FLUSH ASYNC leaves to a thread of its own is not a command of the log (C51, C75 say what it does)."
  },
  {
   "property": "C80",
   "status": "proved",
   "theorems": [
    "C80_registers"
   ],
   "note": "C80_registers, Examples C80_case and C80_turn. RegSpec.v is the specification: one inductive rule for each command and outcome. Builds on C28-C32, C51, C59 and C76. Stated for ordinary commands and a system that is not short of memory (C76_lowmem says what low memory may take). LOAD and DEBUG may leave anything in the register (C71 and C72 say what they do). What FLUSH ASYNC leaves to a thread of its own is not a command of the log (C51, C75)."
  },
  {
   "property": "C81",
   "status": "proved",
   "theorems": [
    "C81_exact",
    "C81_once",
    "C81_accepted"
   ],
   "note": "C81_exact, C81_once, C81_accepted, Example C81_case. Every command of the table is shown to give each shard at most one token and to give every item that it writes a token above all earlier ones of its shard. C81_accepted needs no bound on tokens. The bound in young: the counters have 64 bits and wrap; after that old tokens would come again. Stated for a system that is not short of memory."
  },
  {
   "property": "C82",
   "status": "proved",
   "theorems": [
    "C82_table"
   ],
   "note": "C82_table, Example C82_case. TableSpec.v is the specification, on top of RegSpec.v (C80). KEYS for the patterns of C36; expired items that are still in the cache may make it name a key twice (C14, C52). As in all theorems about Server, a command is one step: the code holds no lock over several keys, so commands of other threads may fall between the keys of an MGET (C83_several_keys_refuted); the table then holds for commands that do not overlap."
  },
  {
   "property": "C83",
   "status": "proved",
   "theorems": [
    "C83_threads",
    "C83_several_keys_refuted",
    "C83_mget"
   ],
   "note": "C83_threads, C83_several_keys_refuted, Example C83_case. A step is a call of the cache (atomic by C24), a question to the outside world or a write to the connection. A command that works in a batch is one step (C25_atomic shows that batches act so; the two models are not joined formally). Each thread has its own clock readings, as in the code, so that the order need not be that of the clock. C83_mget: each value in the reply of an interleaved MGET or MGETS stood in the cache at some moment between its beginning and its end; that the caches of all moments are caches of sensible histories is a hypothesis there, shown for the case."
  }
 ]
}