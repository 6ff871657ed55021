{"id": "C01", "title": "History refines an abstract map", "statement": "For every history of pogocache_store / pogocache_load / pogocache_delete / pogocache_sweep / pogocache_clear calls, every status returned and every value handed to a load callback is the one an abstract key -> (value, expires, flags, cas) map with expiry gives for the same history; the hash table (probing, growing, shrinking, key packing) is never observable.", "quantifier": "all histories of any length, all keys, values, options, seeds, shard counts, load factors (5 options), as long as no probe distance reaches 255", "why_tests_cant": "There are unboundedly many histories and the table goes through displacement, wrap-around and resize states no finite suite enumerates.", "anchors": ["src/pogocache.c: storeop, loadop, deleteop, map_insert, map_get_bucket, delbkt, resize, tryshrink"]}
{"id": "C02", "title": "Store then load returns what was stored", "statement": "After a store on key k returns INSERTED or REPLACED, a load of k at any time before its expiration returns FOUND and presents exactly the stored value, flags and expiration, whatever the cache contained before.", "quantifier": "all reachable caches, keys, values, store options and load times", "why_tests_cant": "Needs every key/value byte string and every table layout, including keys whose packed and unpacked forms collide in length or hash.", "anchors": ["src/pogocache.c: storeop, loadop, entry_new, entry_extract, sixpack"]}
{"id": "C03", "title": "Operations on one key do not disturb other keys", "statement": "A store, load or delete of key k changes the item that any other key k2 holds in no way, except that a store flagged low-memory may remove at most one other item.", "quantifier": "all reachable caches, all pairs of distinct keys, all options", "why_tests_cant": "Deleting and inserting shift neighbouring buckets; a test sees only the layouts it happens to build.", "anchors": ["src/pogocache.c: map_insert, delbkt, resize, auto_evict_entry"]}
{"id": "C04", "title": "Expired items are never returned", "statement": "No load, iteration or scan step executed with time t ever presents an item whose expiration is non-zero and <= t, and a store treats such an item as absent.", "quantifier": "all reachable caches, times and items", "why_tests_cant": "The boundary must hold for every timestamp and every code path that reads an entry.", "anchors": ["src/pogocache.c: entry_alive_exp, loadop, iterop, entryiter, storeop"]}
{"id": "C05", "title": "Unexpired items are never lost", "statement": "An item that was stored and not since deleted, replaced, cleared or evicted under low memory stays loadable at every time before its expiration; in particular growth, shrinking, sweeping and iteration never drop it.", "quantifier": "all histories; requires probe distances below 255 (refuted without that bound)", "why_tests_cant": "The distance byte of a bucket is 8 bits wide, so the failure needs hundreds of colliding keys in one region of a large table; random tests do not get there.", "anchors": ["src/pogocache.c: map_insert, resize, set_dib, delbkt"]}
{"id": "C06", "title": "NX store never touches a live item", "statement": "A store with nx on a key holding a live item returns FOUND and leaves the item (value, flags, expiration, cas) unchanged; on a key without a live item it stores.", "quantifier": "all reachable caches, keys, values, times", "why_tests_cant": "The implementation first overwrites the entry and then puts the old one back; correctness depends on the table state after two inserts.", "anchors": ["src/pogocache.c: storeop put_back"]}
{"id": "C07", "title": "XX and CAS stores never create an item", "statement": "A store with xx, or with casop, on a key without a live item returns NOTFOUND and leaves no item under that key.", "quantifier": "all reachable caches, keys, values, times", "why_tests_cant": "The implementation inserts and then deletes; the delete must hit exactly the new entry in every layout, also right after a resize.", "anchors": ["src/pogocache.c: storeop"]}
{"id": "C08", "title": "Compare-and-store succeeds exactly on the current token, tokens never repeat", "statement": "With CAS enabled, a casop store on a live item succeeds iff the given token equals the token the item currently reports; every successful store or update gives the key a token strictly larger than every token previously reported by any key of the same shard (until the 64-bit counter wraps).", "quantifier": "all histories with fewer than 2^64-1 writes per shard", "why_tests_cant": "ABA freedom is a statement about all pairs of points in all histories.", "anchors": ["src/pogocache.c: storeop, loadop, struct shard.cas"]}
{"id": "C09", "title": "A cancelled operation changes nothing", "statement": "When the callback of a store or delete asks to keep the old entry, the operation returns CANCELED and every later load behaves as if the call had not been made (the expiration sweep of that key aside).", "quantifier": "all reachable caches, keys and callbacks", "why_tests_cant": "The entry has been removed from or replaced in the table when the callback runs; re-insertion must restore it in every layout without allocating.", "anchors": ["src/pogocache.c: deleteop, storeop"]}
{"id": "C10", "title": "KEEPTTL keeps exactly the old expiration", "statement": "A store with keepttl over a live item stores the new value with the expiration of the old item; over a missing or expired item it uses the expiration given in the call.", "quantifier": "all reachable caches, items and times", "why_tests_cant": "All combinations of expired/live items and ttl/expires options.", "anchors": ["src/pogocache.c: storeop"]}
{"id": "C11", "title": "Low-memory stores evict at most one other item and never the new one", "statement": "A low-memory store that inserts a new key removes at most one other item: an expired one if one is met first, otherwise the one with the older access time among the first two candidates; the new item itself is always present afterwards. With eviction disabled the store returns NOMEM and changes nothing.", "quantifier": "all reachable caches, keys and times", "why_tests_cant": "Candidate selection walks the table from an arbitrary position in an arbitrary layout.", "anchors": ["src/pogocache.c: auto_evict_entry, evict_entry, storeop"]}
{"id": "C12", "title": "Every operation terminates: the table always has a free bucket", "statement": "In every reachable state each shard has strictly fewer entries than buckets, so all probe loops stop; the number of entries never exceeds the growth threshold.", "quantifier": "all reachable caches, all load factors 55..95, also when allocation of a bigger table fails", "why_tests_cant": "A non-terminating probe shows only in a completely full table.", "anchors": ["src/pogocache.c: map_insert, map_get_bucket, map_delete, resize, tryshrink"]}
{"id": "C13", "title": "Sweep removes exactly the expired items", "statement": "After a sweep at time t no item with expiration in (0,t] is left, all other items are unchanged, and the reported 'swept' count is the number of removed items. ('kept' may over-count; see the refutation.)", "quantifier": "all reachable caches and times", "why_tests_cant": "The loop revisits buckets while deletion shifts entries around the end of the table.", "anchors": ["src/pogocache.c: sweepop, pogocache_sweep"]}
{"id": "C14", "title": "Iteration visits every live item", "statement": "pogocache_iter presents every live item at least once and, when the callback never deletes and nothing is expired, exactly once; items it is told to delete disappear, all others stay. (Exactly-once with deletions is refuted.)", "quantifier": "all reachable caches, all callbacks with state", "why_tests_cant": "Double visits need a cluster that wraps around the end of the table.", "anchors": ["src/pogocache.c: iterop, pogocache_iter"]}
{"id": "C15", "title": "Cursor scan covers the cache", "statement": "Calling pogocache_entry_iter repeatedly from cursor 0 until it returns cursor 0, on an unmodified cache without expired entries, returns each item exactly once and stops; each returned entry is live. A cursor naming shard number nshards must not read outside the shard array (refuted).", "quantifier": "all reachable caches, all 2^64 cursor values", "why_tests_cant": "The bad cursor is one value range out of 2^64.", "anchors": ["src/pogocache.c: entryiter, pogocache_entry_iter", "src/cmds.c: cmdSCAN"]}
{"id": "C16", "title": "Entry count is exact", "statement": "pogocache_count equals the number of distinct keys that hold an item (expired ones not yet removed included).", "quantifier": "all histories", "why_tests_cant": "Every code path that adds or removes an entry has to adjust the counter in every layout.", "anchors": ["src/pogocache.c: countop, map_insert, delbkt"]}
{"id": "C17", "title": "Reported memory size equals the sum of entry sizes", "statement": "pogocache_size with entriesonly equals the sum of the allocation sizes of the entries present. True for histories of stores and deletes; refuted for expiry on load, iteration, sweep and load-updates.", "quantifier": "all histories of stores/deletes; counterexample for the rest", "why_tests_cant": "Drift accumulates only over particular histories.", "anchors": ["src/pogocache.c: map_insert, delentry_at_bkt, loadop, sweepop, iterop, sizeop"]}
{"id": "C18", "title": "Notification stream mirrors the cache", "statement": "A listener that applies each 'notify' event (insert / replace / delete) to its own key -> item map holds, after every operation, exactly the items of the cache.", "quantifier": "all histories of engine operations", "why_tests_cant": "Any missed or extra event on any path breaks the mirror.", "anchors": ["src/pogocache.c: notify and all callers"]}
{"id": "C19", "title": "Entries are released exactly once", "statement": "Every entry allocation is released exactly once over its lifetime: entries dropped from the table are released when the operation ends, entries in the table are never released while present, so there is neither a leak nor a use-after-free nor a double free.", "quantifier": "all histories with allocation failures at any point (refuted when the entry allocation itself fails)", "why_tests_cant": "Failure injection at every allocation of every history.", "anchors": ["src/pogocache.c: entry_free, storeop, loadop, deleteop, clearop"]}
{"id": "C20", "title": "Clear empties the cache", "statement": "After pogocache_clear returns, no key is found in the cleared shards, count is 0, and other shards are untouched.", "quantifier": "all reachable caches, one-shard and all-shard forms", "why_tests_cant": "Needs all contents.", "anchors": ["src/pogocache.c: clearop, pogocache_clear"]}
{"id": "C21", "title": "Entry encoding round-trips", "statement": "For every key, value, expiration, flags and cas, with key packing and cas storage on or off, decoding an encoded entry yields the same key, value, flags, cas and expiration (non-positive expirations read back as none), and the stored size field is the allocation size.", "quantifier": "all keys, values and fields with total size below 2^64", "why_tests_cant": "All lengths including the 1/2/4/8-byte size-field boundaries and every key alphabet.", "anchors": ["src/pogocache.c: entry_new, entry_extract, entry_key, entry_value, entry_memsize"]}
{"id": "C22", "title": "Six-bit key packing is lossless", "statement": "unsixpack(sixpack(k)) = k for every packable key of length 1..128, packing never exceeds 96 bytes, distinct keys have distinct packed forms, and comparing packed forms bytewise orders keys as comparing the keys bytewise.", "quantifier": "all byte strings of length up to 128", "why_tests_cant": "63^128 keys.", "anchors": ["src/pogocache.c: sixpack, unsixpack, tosix, fromsix, entry_compare"]}
{"id": "C23", "title": "Variable-length integers round-trip", "statement": "Writing any 64-bit unsigned or signed integer and reading it back from a buffer with any trailing bytes yields the integer and the number of bytes written (1..10); reading any prefix reports 'need more', never a value; reading never looks past the given length.", "quantifier": "all 64-bit integers, all trailing bytes, all prefixes", "why_tests_cant": "2^64 inputs.", "anchors": ["src/util.c: varint_write_u64, varint_read_u64, varint_write_i64, varint_read_i64", "src/pogocache.c: varint_write_u64, varint_read_u64"]}
{"id": "C24", "title": "Concurrent key operations are linearizable", "statement": "For any number of threads and any interleaving of lock acquisitions and operation bodies, the results equal those of executing the same operations one at a time in an order consistent with each thread's program order and with real time.", "quantifier": "all schedules, thread counts and operation sequences", "why_tests_cant": "Schedules cannot be enumerated by running the program.", "anchors": ["src/pogocache.c: lock, acquire_for_key, ACQUIRE_FOR_KEY_AND_EXECUTE"]}
{"id": "C25", "title": "Batches are atomic per shard", "statement": "Between the first operation of a batch on a shard and the end of the batch no other thread's operation on that shard takes effect; a read-modify-write batch on one key (INCR, APPEND) therefore never loses an update. Two batches taking two shards in opposite order can deadlock (refuted deadlock freedom).", "quantifier": "all schedules and batches", "why_tests_cant": "Schedules cannot be enumerated by running the program.", "anchors": ["src/pogocache.c: pogocache_begin, pogocache_end, lock", "src/cmds.c: execINCRDECR, cmdAPPEND"]}
{"id": "C26", "title": "Reference counting keeps scanned entries alive", "statement": "An entry returned by a scan stays allocated until its holder releases it even if it is deleted or replaced concurrently, and is freed exactly once when the last reference is dropped, for every interleaving of atomic increments and decrements.", "quantifier": "all interleavings, any number of holders", "why_tests_cant": "Schedules.", "anchors": ["src/pogocache.c: entry_clone, entry_free, pogocache_entry_retain, pogocache_entry_release"]}
{"id": "C27", "title": "48-bit pointer and 24-bit hash packing", "statement": "Storing and loading a pointer below 2^48 is the identity, as is storing and loading a clipped hash.", "quantifier": "all 2^48 pointers, 2^24 hashes", "why_tests_cant": "Input space.", "anchors": ["src/pogocache.c: load_ptr, store_ptr, read_hash, write_hash"]}
{"id": "C28", "title": "SET options mean what they say", "statement": "SET key value with any accepted combination of NX/XX/GET/EX/PX/KEEPTTL/FLAGS/CAS stores exactly when the condition holds, with the requested flags and expiration now+ttl (clamped), and replies OK or null accordingly; contradictory or malformed options store nothing and reply with an error. EXAT/PXAT are refuted: the unix time is used as a boot-relative time.", "quantifier": "all argument lists and cache states", "why_tests_cant": "Option lists are unbounded and order-independent.", "anchors": ["src/cmds.c: cmdSET, execSET, expiry_seconds_time, cmdSETEX"]}
{"id": "C29", "title": "INCR/DECR arithmetic is exact", "statement": "INCR/DECR/INCRBY/DECRBY (signed and unsigned) on a live numeric value reply with and store the decimal form of value plus/minus delta, keeping flags and expiration; on overflow or a non-numeric value (outside memcache) they reply with an error and change nothing; on a missing key they start from zero.", "quantifier": "all 64-bit values and deltas, all cache states", "why_tests_cant": "2^128 pairs.", "anchors": ["src/cmds.c: execINCRDECR, get64", "src/util.c: parse_i64, parse_u64, i64toa, u64toa"]}
{"id": "C30", "title": "APPEND/PREPEND concatenate", "statement": "APPEND (PREPEND) on a live key stores old++new (new++old) with flags and expiration kept and replies the total length; on a missing key it stores the value (memcache: NOT_STORED); a result larger than the maximum argument size is refused and changes nothing.", "quantifier": "all values and cache states", "why_tests_cant": "All byte strings.", "anchors": ["src/cmds.c: cmdAPPEND, append_entry"]}
{"id": "C31", "title": "TTL and EXPIRE agree", "statement": "After EXPIRE key s (s>0) replied 1 at time t, TTL at time t'<expiry replies the whole seconds left, -1 is replied for keys without expiration and -2 for missing keys. EXPIRE with a negative offset larger than the uptime makes the key persistent instead of expiring it (refuted).", "quantifier": "all keys, times and offsets", "why_tests_cant": "The failing offsets depend on the uptime of the machine.", "anchors": ["src/cmds.c: cmdEXPIRE, expire_entry, cmdTTL, ttl_entry"]}
{"id": "C32", "title": "DEL, EXISTS, TOUCH, MGET count and order", "statement": "DEL k1..kn removes exactly the named keys and replies the number that held live items; EXISTS and TOUCH reply the number of arguments naming live keys; MGET replies an array of n elements in argument order, null for missing keys.", "quantifier": "all argument lists and cache states", "why_tests_cant": "Argument lists are unbounded, with duplicates.", "anchors": ["src/cmds.c: cmdDEL, cmdEXISTS, cmdTOUCH, cmdMGET"]}
{"id": "C33", "title": "Command lookup is a case-insensitive exact match", "statement": "For every byte string, the command table lookup finds a command iff the lower-cased string is one of the 40 command names, and its unwrapped probe never reads outside the bucket array.", "quantifier": "all byte strings", "why_tests_cant": "The out-of-bounds probe depends on hashes of arbitrary strings.", "anchors": ["src/cmds.c: get_cmd, build_commands_table", "src/util.c: fnv1a_case, argeq_bytes"]}
{"id": "C34", "title": "No command runs before authentication", "statement": "With a password configured, a connection that has not presented exactly that password cannot read or change the cache over RESP, memcache, telnet or Postgres, and an HTTP request is executed only if it carries the password.", "quantifier": "all byte streams on a connection", "why_tests_cant": "All inputs.", "anchors": ["src/cmds.c: evcommand, cmdAUTH", "src/http.c: parse_http", "src/conn.c: evdata", "src/postgres.c: parsep, pg_respond"]}
{"id": "C35", "title": "Parallel flush/sweep/save partition the shards", "statement": "The ranges handed to worker threads by the fast flush, sweep and save cover every shard exactly once for any number of processors and shards.", "quantifier": "all nprocs >= 1 and nshards >= 1", "why_tests_cant": "All pairs of integers.", "anchors": ["src/cmds.c: flushfast, sweepfast", "src/save.c: save"]}
{"id": "C36", "title": "Glob matching follows the pattern language", "statement": "KEYS/SCAN pattern matching accepts exactly the strings in the language of the pattern ('*' any string, '?' any byte, '\\\\' escapes, others literal), for patterns with at most 127 star groups; refuted for an escaped '?', which still matches any byte, and for more star groups.", "quantifier": "all patterns and strings", "why_tests_cant": "Backtracking matchers fail on particular pattern/string pairs.", "anchors": ["src/util.c: match"]}
{"id": "C37", "title": "RESP requests are parsed exactly and independently of packet boundaries", "statement": "Every array-of-bulk-strings request, with arbitrary bytes in its arguments, is parsed to exactly its arguments, consuming exactly its bytes; every proper prefix makes the parser wait; therefore any way of cutting a stream of requests into packets yields the same commands. Malformed counts such as '*\\\\r\\\\n' are refuted: the result depends on the following bytes.", "quantifier": "all argument lists, all byte values, all splits into packets", "why_tests_cant": "Exponentially many splits.", "anchors": ["src/resp.c: parse_resp", "src/conn.c: evdata", "src/parse.c: parse_command"]}
{"id": "C38", "title": "Replies are framed unambiguously", "statement": "Bulk, integer, array and null replies decode back to exactly the written values for every byte string. Error replies must contain no line break (refuted: the sanitising loop uses the wrong bounds, so a crafted command name injects a reply).", "quantifier": "all values, all output buffer states", "why_tests_cant": "All byte strings times all buffer fill levels.", "anchors": ["src/conn.c: conn_write_bulk, conn_write_int, conn_write_error, writeln"]}
{"id": "C39", "title": "Memcache text commands are parsed exactly", "statement": "set/add/replace/append/prepend/cas with a k-byte data block are parsed to the right command with exactly the k bytes, whatever bytes the block contains, and wait for missing bytes; short storage lines must be rejected (refuted: arguments beyond the list are read).", "quantifier": "all keys, flags, data blocks, prefixes", "why_tests_cant": "All byte strings.", "anchors": ["src/memcache.c: parse_memcache, parse_memcache_telnet"]}
{"id": "C40", "title": "HTTP requests map to the right cache operation", "statement": "GET/PUT/DELETE of a path are turned into GET/SET/DEL of exactly that key and exactly the body; incomplete requests wait. A request without header lines is never answered and 405 is unreachable (refuted).", "quantifier": "all requests", "why_tests_cant": "All byte strings.", "anchors": ["src/http.c: parse_http"]}
{"id": "C41", "title": "Postgres messages are parsed within their bounds", "statement": "A well-formed Query/Parse/Bind/Execute message is parsed using only its own bytes, prepared-statement parameters are substituted by position, and quoted strings yield their contents. Length fields below 4 read out of bounds and a doubled quote yields an empty string (refuted).", "quantifier": "all messages", "why_tests_cant": "All byte strings.", "anchors": ["src/postgres.c: parse_message, parse_query_args, parseB, parseE, arg_append_unescape_simplestr"]}
{"id": "C42", "title": "Save then load restores the cache", "statement": "Loading a file written by SAVE into an empty cache yields exactly the items that were live when they were saved, with the same value and flags and with expirations shifted to the same wall-clock instant; items whose expiry has passed are not restored. Refuted at the instant of expiry: such an item comes back without expiration; cas tokens are not restored.", "quantifier": "all cache contents, clocks and sizes", "why_tests_cant": "All contents and clock differences.", "anchors": ["src/save.c: save, load, load_block"]}
{"id": "C43", "title": "A crash during SAVE never damages the previous file", "statement": "At every crash point of SAVE the persistence file holds either the complete old or the complete new contents (assuming rename is atomic and ordered after the data writes).", "quantifier": "all crash points", "why_tests_cant": "Crash points.", "anchors": ["src/save.c: save"]}
{"id": "C44", "title": "Corrupted blocks are rejected", "statement": "A block whose payload differs from the saved one by any change confined to four consecutive bytes is rejected by the checksum; loading never applies entries of a block whose checksum does not match.", "quantifier": "all payloads, positions and corruptions", "why_tests_cant": "All payloads times all corruptions.", "anchors": ["src/util.c: crc32", "src/save.c: load_block, load"]}
{"id": "C45", "title": "Integers print and parse back", "statement": "For every 64-bit integer, parsing its printed decimal form returns it; parse accepts a string iff it is (spaces, sign) decimal digits of at most 21 bytes denoting a value in range.", "quantifier": "all 64-bit integers, all byte strings", "why_tests_cant": "2^64 values.", "anchors": ["src/util.c: u64toa, i64toa, parse_i64, parse_u64"]}
{"id": "C46", "title": "Clamped arithmetic", "statement": "int64_add_clamp and int64_mul_clamp return the exact mathematical result limited to the 64-bit range and never overflow.", "quantifier": "all pairs of 64-bit integers", "why_tests_cant": "2^128 pairs.", "anchors": ["src/util.c: int64_add_clamp, int64_mul_clamp"]}
{"id": "C47", "title": "Growing and shrinking are transparent", "statement": "Resizing the table up or down leaves every key's item unchanged, and a failed allocation during resize leaves the table as it was.", "quantifier": "all tables, all target sizes", "why_tests_cant": "All layouts.", "anchors": ["src/pogocache.c: resize, tryshrink"]}
{"id": "C48", "title": "Telnet lines are tokenised faithfully", "statement": "A line of arguments written with the documented quoting is parsed back to exactly those arguments; an incomplete line makes the parser wait.", "quantifier": "all argument lists of printable bytes", "why_tests_cant": "All byte strings.", "anchors": ["src/parse.c: parse_telnet"]}
{"id": "C49", "title": "Multi-shard operations act on every shard exactly once", "statement": "count, clear, sweep and iterate over all shards act on each shard exactly once in index order and one-shard forms act on only that shard; a key is always routed to the same shard.", "quantifier": "all shard counts and keys", "why_tests_cant": "All shard counts and contents.", "anchors": ["src/pogocache.c: shard_index, pogocache_iter, pogocache_count, pogocache_sweep, pogocache_clear"]}
{"id": "C50", "title": "Cutting a request stream into packets does not matter", "statement": "However a sequence of well-formed requests is cut into packets, the connection runs exactly the commands asked for, in order, each from exactly its own bytes; for any bytes at all what was read is a prefix of what was sent, and no bytes make the server read outside its buffers except the malformed texts listed. Refuted: a first line cut in two is refused, an HTTP request cut before its last line feed is refused.", "quantifier": "all request sequences, all packet boundaries, all byte streams, all four protocols", "why_tests_cant": "All cuts of all streams.", "anchors": ["src/conn.c: evdata", "src/parse.c: sniff_proto, parse_command", "src/net.c: the read loop"]}
{"id": "C51", "title": "FLUSHALL leaves nothing, SWEEP removes exactly the expired items", "statement": "FLUSHALL, FLUSHDB and FLUSH accept exactly the options async, sync, fast and delay (0 to 365 days), the last one counting. In the foreground no key holds anything when the reply is written; in the background a job is started after the delay that leaves nothing, whatever the cache is then. SWEEP (fast or not) removes every expired item and nothing else; PURGE changes nothing. Every other spelling gets an error and changes nothing.", "quantifier": "all reachable caches, option lists, protocols, processor counts, clocks and schedules of the parallel workers", "why_tests_cant": "All contents, all option orders and all divisions of the shards among threads.", "anchors": ["src/cmds.c: cmdFLUSHALL, flush_work, cmdSWEEP, sweep_work, cmdPURGE", "src/pogocache.c: pogocache_clear, pogocache_sweep"]}
{"id": "C52", "title": "KEYS lists exactly the matching live keys, DBSIZE counts the keys", "statement": "The reply to KEYS pattern has exactly the keys that hold a live item and match the pattern, each once if no expired item is left in the cache, and the command changes nothing. DBSIZE replies with the number of keys in the cache, expired items included.", "quantifier": "all reachable caches, patterns without an escaped question mark and with at most 127 star groups (see C36), protocols, times", "why_tests_cant": "All contents and patterns.", "anchors": ["src/cmds.c: cmdKEYS, keys_work, cmdDBSIZE"]}
{"id": "C53", "title": "A SCAN series returns every item that is there throughout", "statement": "A series of SCAN calls from cursor 0, each with the cursor the last returned, ends with cursor 0 whatever the times of the calls; it returns only matching keys that held a live item at its start and every matching key whose item is alive at its end, each once if nothing expired is in the way; a call never returns more than COUNT keys and changes nothing. Refuted: with deletions by other clients in between an item that is there throughout can be missed; the cursor (number of shards << 32) reads outside the array.", "quantifier": "all reachable caches, patterns, counts, cursors, sequences of call times, protocols", "why_tests_cant": "All contents, cursors and call times; termination.", "anchors": ["src/cmds.c: cmdSCAN, scan_work, scan_done", "src/pogocache.c: pogocache_entry_iter, entryiter"]}
{"id": "C54", "title": "No client can stop the server", "statement": "Whatever bytes a client sends, in whatever packets, the server reads them, runs the commands in them and can go on with a cache in good order: no assertion fails, nothing is read or written outside of memory, no integer overflows and no loop runs forever, except for the malformed texts listed by C50 and for the SCAN cursor of C53. In particular every command with every list of arguments ends well in every protocol. Refuted for a clock that jumps between two readings (memcache date).", "quantifier": "all byte streams up to 2^44 bytes, all ways to cut them into packets, all reachable caches within table limits, all argument lists, protocols, clocks and oracles", "why_tests_cant": "All byte streams and all caches; absence of every kind of undefined behaviour.", "anchors": ["src/conn.c: evdata", "src/cmds.c: all commands", "src/parse.c", "src/pogocache.c"]}
{"id": "C55", "title": "Arguments and buffers hold what was put into them and their memory is freed exactly once", "statement": "Whatever sequence of appends, borrows, joins, clears, swaps, moves and removals is done on any number of argument lists, every list holds the texts it should, no memory is freed twice, used after it was freed or accessed out of bounds, and memory that no argument owns is freed. A buffer holds what was appended in order. Refuted: dropping the first argument of a list whose last argument owns memory (Postgres Execute of '::text GET $1') lets two arguments own the same memory; the next command frees it twice or writes to it after it was freed.", "quantifier": "all sequences of operations on all lists and buffers, all texts", "why_tests_cant": "All histories of list operations; memory faults often stay silent.", "anchors": ["src/args.c", "src/buf.c", "src/xmalloc.c", "src/postgres.c: pg_precommand", "src/parse.c: parse_command"]}
{"id": "C56", "title": "The event loop hands each connection's bytes over exactly once and in order, and sends its replies exactly once and in order", "statement": "For every behaviour of the sockets (any cut of the input, short writes, errors, end of input), every mix of connections in a round and every command run in the background: the bytes handed to a connection's handler are exactly the bytes received on that connection, in order and once; the bytes sent are exactly the replies the handlers wrote, in order, up to the first failed send; a connection that ended was closed exactly once and nothing more is done for it; a connection that has no event in a round is left as it was. The whole thread behaves like a server that takes up one packet at a time, handles it to the end and only then goes on; it gives a connection up only when its handler asked for it, the client ended it or a send to it failed. Refuted: with io_uring, completions that arrive in another order hand one connection's bytes to another; a client that does not read its replies makes the thread spin so that no connection is served; end of input right after a background command loses received commands; when a background thread cannot be started the connection is never served again.", "quantifier": "all sequences of rounds, events, socket answers, handlers and background completions, any number of connections", "why_tests_cant": "All schedules of socket readiness, short writes, errors and background completions across connections.", "anchors": ["src/net.c: qaccept, qattach, handle_read, qread, qprocess, qwrite, qclose, flush_conn, qthread, net_conn_bgwork"]}
{"id": "C57", "title": "The table of connections finds every open connection and no other", "statement": "Whatever sequence of connections opening and closing: looking up a descriptor gives the open connection with that descriptor, or nothing if there is none; lookups and insertions end. Refuted: closing does not lower the count by which the table grows, so one connection at a time opened and closed again and again makes the table grow without bound.", "quantifier": "all sequences of insertions, lookups and deletions, any number of connections", "why_tests_cant": "All histories of connections, including those that make the table grow while it is in use.", "anchors": ["src/net.c: hashfd, cmap_grow, cmap_insert, cmap_get, cmap_delete"]}
{"id": "C58", "title": "Never more open connections than --maxconns, and TLS is used for exactly the connections of the TLS port", "statement": "Whatever the threads do in whatever order, the number of open connections never exceeds the limit and the count of connections is exact once none is being turned away. If no connection is turned away, a connection is served with TLS if and only if it came in on the TLS port. Refuted: after a TLS connection was turned away a plain connection that gets the same descriptor is served as TLS; a connection can be turned away although none is open.", "quantifier": "all interleavings of accepts, first events, rejections and closes of all threads, all limits", "why_tests_cant": "All interleavings of the threads that share the counter and the marks.", "anchors": ["src/net.c: qaccept, qclose, save_tls_fd, del_tls_fd, nconns"]}
{"id": "C59", "title": "All clients together see one cache on which commands run one after the other", "statement": "Whatever any number of clients send, in whatever pieces, and however the event loop, background commands and other threads take turns: unless the server runs into trouble there is one order of everything that was done in which every command ran on the cache that the commands before it left. What a client asked for is done in the order in which it was sent, each request once, and nothing that arrived completely is left undone while the connection is idle. Each client gets the answers to its own requests, in order, and nothing else. The order agrees with real time. With a password nothing is done for a connection before a request on that connection carried it. If the server runs into trouble, a client sent one of the known bad texts or the next command of a client ended in trouble.", "quantifier": "all numbers of connections, all packets and cuts of them, all schedules of rounds, background jobs and other threads, all answers of the sockets, all cache states and clocks", "why_tests_cant": "The interleavings of connections, packets, jobs and threads are unbounded.", "anchors": ["src/conn.c: evopened, evdata, conn_bgwork, work5, done5", "src/net.c: qprocess, qread, qwrite, qclose, net_conn_bgwork", "src/cmds.c: evcommand"]}
{"id": "C60", "title": "A prepared statement or portal name finds what was last defined under it", "statement": "On a Postgres connection, with no more than 65535 different names in use, every name of a statement or portal finds what was defined last under that name, or nothing if nothing was, in whatever order names are defined and defined again and whatever they hash to. A definition that is replaced is released at that moment, one that is still there when the connection ends is released then: each exactly once. Beyond that number of names the claim fails: for every hash function there are 65536 names of which the last is not found although it was just defined, and it is never released.", "quantifier": "all series of definitions, all names and hash functions", "why_tests_cant": "The loss needs tens of thousands of names with one hash; probing order depends on the whole history.", "anchors": ["src/hashmap.c: hashmap_set_with_hash, hashmap_get_with_hash, resize0, hashmap_iter", "src/postgres.c: statement_insert, statement_get, portal_insert, portal_get, statments_free, portals_free"]}
{"id": "C61", "title": "A client that watches with MONITOR sees every command once, before it runs, but can stop the server", "statement": "While a client watches, it is sent one line for each command that any client's thread shows in that time, each exactly once and in one order that is the same for all watchers; every command is shown after it was received and before it runs, however threads take turns. AUTH (in any letter case), QUIT and MONITOR are never shown. If the arguments hold only printable characters, tabs, line feeds and carriage returns, the line is exactly one protocol line and determines the arguments. With any other byte that fails: the line then holds three bytes of memory that were never written, and may be cut. As long as watchers read, a thread that shows a command gets done; a single watcher that does not read stops the commands of all other clients for as long as it likes.", "quantifier": "all schedules of the threads, sets of watchers, moments of starting and stopping, and arguments", "why_tests_cant": "Depends on every interleaving of threads and watchers; a test that reads its socket never meets the standstill.", "anchors": ["src/monitor.c: monitor_start, monitor_stop, monitor_cmd", "src/cmds.c: cmdMONITOR, evcommand"]}
{"id": "C62", "title": "Program options mean what they say", "statement": "Options may be given in any order, with the value after a space or an equals sign; for each option the last one counts. Any other word, or a missing value, ends the program with status 1; --help and --version end it with status 0. Options that are yes or no are refused if they are anything else and otherwise do what they say; numbers are brought within their limits and kept if they are within. Low memory mode is on above the limit, off below it, and never on without a limit. Two claims fail: --autosweep no is refused together with --cas yes (and anything is taken for no without it), and --evict no does not stop the cache from dropping other keys when memory is low.", "quantifier": "all command lines, all answers of the system, all series of memory readings", "why_tests_cant": "There are endless combinations and orders of options; the two faults show only for particular pairs, or only in low memory.", "anchors": ["src/main.c: main, BFLAG, TFLAG, AFLAG, memticker", "src/pogocache.h: struct pogocache_opts"]}
{"id": "C63", "title": "Compressing and decompressing is safe and loses nothing", "statement": "Data of up to 0x7E000000 bytes that SAVE compresses comes back exactly when LOAD decompresses it, and neither reads or writes outside its buffers. What SAVE writes is in the LZ4 block format, and any block of that format is read as what it stands for. Whatever bytes a file holds, decompressing them reads and writes nothing outside the buffers, gives no more than the buffer takes, and the result does not depend on what the memory held before. With this, what was saved comes back without any assumption on the compression. Two claims fail: the decompressor also takes blocks with a distance of 0, and a shard of more data than LZ4 takes is saved, with success reported, as a block that no LOAD accepts.", "quantifier": "all data, all inputs of the decompressor, all buffer sizes and earlier contents of the buffer", "why_tests_cant": "The fast paths copy past the end of what they are to write, in steps of 8, 16, 18 and 32 bytes, with a dozen margins that depend on both lengths, the distance and the room left; only few of the combinations occur in any test, and a damaged file can contain all of them.", "anchors": ["src/lz4.c: LZ4_decompress_generic, LZ4_compress_generic_validated", "src/save.c: flush, load_block"]}
{"id": "C64", "title": "TLS connections lose nothing and do not stand still", "statement": "The bytes that a client sends over TLS reach the parser in order, none lost or doubled, however they are cut into records and whenever they arrive; the server comes to wait after a bounded number of rounds; and when it waits, everything sent in records of at most 16383 bytes has been handed on. A write that OpenSSL wants to be tried again is tried with the same bytes, and replies are sent whole and in order. One claim fails: if the last record has 16384 bytes, as many as the protocol allows, its last byte stays in OpenSSL and the server is not told of it: a client that sends a request of 16384 bytes in one record and waits for the reply waits for ever. A plain connection does not have this.", "quantifier": "all series of records and parts of records, all interleavings of arrivals and rounds of the event loop, all answers of OpenSSL to writes", "why_tests_cant": "The standstill needs a record of exactly the greatest size at the end of what the client sends; the order of arrivals and rounds is a matter of timing.", "anchors": ["src/tls.c: tls_read, tls_write", "src/net.c: PACKETSIZE, qread, flush_conn"]}
{"id": "C65", "title": "Data survives an orderly restart", "statement": "Whenever a process that persists its data is stopped, from its start on and at any point of its shutdown, the file holds what it held before or is a complete new one. If the process ends because it has saved, each item is in the file as it was at some moment after the signal; the next process, whatever its options, does not fail to load it, serves no request before all of it is loaded, and then has exactly these items with value, flags and expiry, less those that have expired since; an item without expiry that nobody touches after the signal is there again. If it ends with a status that is not 0 the file is the old one. Four claims fail. Requests are answered while the shards are saved, and a write that was acknowledged in this time may be lost. The exit status after a second signal is 0 although nothing is saved. A file whose name ends in .pogocache.work is deleted by the next process. A process that starts deletes the work files of all processes with a file in the same directory; the save of one that is shutting down then fails and its data is lost.", "quantifier": "all histories of requests, all moments of signals and crashes, all interleavings of saving threads, requests and clocks, all outcomes of system calls, all options of the next process", "why_tests_cant": "What is in the file depends on which requests come between the saves of which shards, and a crash may come at any point of it.", "anchors": ["src/main.c: sigterm, sigtermticker, listening", "src/save.c: save, load, cleanwork", "src/net.c: net_main"]}
{"id": "C66", "title": "Replies are written within their buffers and sent whole", "statement": "Whatever replies are written on a connection, of any protocol and with any data, in whatever order and over however many rounds of the event loop: no byte is read or written outside of the connection's output buffer or of a temporary buffer, no byte is sent that was not written, no assertion fails and every call returns. What is sent in a round are the replies of this round, whole and in order. The only other outcome is that the process ends because memory is refused. When the connection is freed, in the middle of a round too, all blocks have been freed. The buffer is never made larger than 16 bytes or twice what has to be in it.", "quantifier": "all sequences of replies with all data that fit in memory (2^60 bytes), all rounds, all points at which the connection is closed, all behaviours of the allocator", "why_tests_cant": "Whether a write stays in the buffer depends on how full it is, which depends on all replies before; and on sizes up to the limits of the integers.", "anchors": ["src/net.c: net_conn_out_ensure, net_conn_out_write, net_conn_out_setlen, flush_conn, conn_free", "src/conn.c: writeln, conn_write_bulk, conn_write_http, write_error", "src/postgres.c: pg_write_row_desc, pg_write_row_data, pg_write_error"]}
{"id": "C67", "title": "What the running total of stored items counts", "statement": "From a new cache, after any history of calls, the total (of the cache, or of one shard) is exactly the number of calls, for keys of that shard, of two kinds: stores that answered INSERTED or NOTFOUND while the cache held no item of the key, not even an expired one, and deletes that were called off by their callback; modulo 2^64. No call lowers it or raises it by more than one; deletes, expiry, eviction, clears and resizes do not change it. In histories without stores that demand an existing item, deletes that can be called off, and stores over expired items, it is the number of answers INSERTED. In other histories it is not the number of items ever stored, as documented: counterexamples in both directions.", "quantifier": "all cache options, all sensible histories of calls, all shards, all environments (allocation failures, clocks)", "why_tests_cant": "The number depends on the whole history of calls, of expiries and evictions; a test looks at a few stores.", "anchors": ["src/pogocache.c: pogocache_total, totalop, map_insert (map->total++), storeop, deleteop, resize, clearop"]}
{"id": "C68", "title": "The counters that STATS reports", "statement": "The counters cmd_get, cmd_set, get_hits and get_misses reported by STATS never count a command that was not executed, never go back, and when all threads are waiting for requests are exactly the number of events counted so far: nothing is lost or counted twice however the threads interleave (modulo 2^64). A STATS always includes the commands answered in earlier rounds of its own thread. It need not include commands before it in the same packet, nor commands that another thread has already answered.", "quantifier": "all numbers of threads and connections, all packets with fewer than 2^32 counted events, all interleavings of the threads, all moments at which STATS runs", "why_tests_cant": "The counters are buffered per connection and per thread and added up with relaxed atomics; whether a count is lost depends on the interleaving.", "anchors": ["src/net.c: sumstats, sumstats_global, qprocess, qthread, net_stat_cmd_get_incr, stat_cmd_get", "src/conn.c: stat_cmd_get_incr"]}
{"id": "C69", "title": "What commands contribute to the counters of STATS", "statement": "For every cache state and protocol: GET counts one cmd_get and one get_hits or get_misses according to whether the key holds an item at that time (a malformed GET counts a cmd_get only); MGET and MGETS do so for each key; TTL and PTTL count a hit or miss but no cmd_get; DEL counts delete_hits for exactly the distinct items removed and delete_misses for the other arguments; TOUCH counts cmd_touch and a touch hit or miss for each key; a well-formed SET or SETEX counts one cmd_set whether or not it stores (and store_no_memory when memory is low and eviction off), a malformed SET none; the INCR family counts a hit when the counter was changed, a miss only for a missing key on Memcache, and nothing when it is refused. So cmd_get need not equal get_hits + get_misses, and incr_misses does not count missing keys outside Memcache.", "quantifier": "all cache options and reachable contents, all keys, values, argument lists and protocols, all clocks and environments", "why_tests_cant": "The counts depend on the contents of the cache, on expiry and on every parse path of the commands.", "anchors": ["src/cmds.c: cmdGET, cmdMGET, cmdTTL, cmdDEL, cmdTOUCH, execSET, execINCRDECR", "src/stats.c"]}
{"id": "C70", "title": "STATS lists every statistic, once, with its value", "statement": "STATS without arguments replies, on every protocol, with the documented statistics in a fixed order, each name once: the process id, uptime, time, product, version, hash, pointer size, processor times (when the system gives them; seconds and six decimals), the connection counts, the command counters, threads, memory, and of the cache the bytes of its entries, the number of keys it holds and the running total. Every number is the canonical decimal text of the value, and name and value can be told apart. It changes no item. This needs the compiled-in version and hash to be short (496 bytes on Memcache, 502 elsewhere): from 498 and 504 bytes on the server reads beyond a buffer on its stack. STATS with an argument is a syntax error and changes nothing.", "quantifier": "all cache options and reachable contents, all values of the counters and readings within their C types, all version and hash texts, all four protocols, all argument lists", "why_tests_cant": "The values range over 64-bit counters and all cache contents; the buffer sizes matter only for texts no test build has.", "anchors": ["src/cmds.c: stats_begin, stats_printf, stats_end, stats, cmdSTATS"]}
{"id": "C71", "title": "DEBUG POPULATE stores exactly the keys it names, but can stop the server", "statement": "DEBUG POPULATE n prefix size [lo-hi] stores, whatever the number of worker threads and however their stores interleave, exactly the keys prefix:0 ... prefix:n-1, each with size zero bytes and, given limits, a lifetime of at least lo and less than hi seconds; every other key is as before. A range without a dash is ignored, other malformed arguments are refused. With limits lo < hi that fit, and memory for the value, it always runs through. It does not always: equal limits divide by zero, and a size for which there is no memory aborts the process, so one command of any client stops the server. DEBUG DETACH replies with two times within its buffer.", "quantifier": "all cache options and reachable contents, all argument lists, all numbers of threads, clocks and random numbers, all interleavings of the stores", "why_tests_cant": "Interleavings of threads, the rounding of the partition and the argument space are unbounded.", "anchors": ["src/cmds.c: cmdDEBUG, cmdDEBUG_populate, populate_entry, cmdDEBUG_detach, detach_work, detach_done", "src/xmalloc.c: check_ptr"]}
{"id": "C72", "title": "SAVE and LOAD do what their options say, and an OK can be relied on", "statement": "SAVE [FAST] [TO path] and LOAD [FAST] [FROM path] take the last path given, else the configured one, up to its first zero byte; any other argument, or no path, is an error and nothing is done. OK is replied exactly if the work succeeded, in the form of each protocol. When a SAVE is answered with OK, and no other save to that file was running when it began, the file is complete and each item in it is as it was at some moment while the SAVE was running, whatever other clients and other saves did meanwhile; a LOAD of it by any server restores that, and an item without expiry that was there untouched throughout is there after it. At every moment the file is the old one or a complete one. LOAD answers OK only for a file of intact blocks. Of two overlapping SAVEs to the same file, however, the older may replace the newer after both were answered with OK.", "quantifier": "all argument lists and protocols, all cache options and contents, all interleavings of the threads of any number of SAVE commands with each other, with clock changes and with the operations of other clients, all failures of the file system calls", "why_tests_cant": "Interleavings of the workers of several saves with writes by other clients are unbounded, as are the contents.", "anchors": ["src/cmds.c: cmdSAVELOAD, bgsaveloadwork, bgsaveloaddone", "src/save.c: save, load, thsave, thload"]}
{"id": "C73", "title": "LOAD while clients work: every saved item comes back at some moment, nothing else changes", "statement": "While LOAD runs in the background and other clients use the cache, in any interleaving: LOAD never changes what a key shows that is not in the file; what it does to a key of the file is to put the saved item there, with its value, flags and instant of expiry; when it answers it answers with success and every item of the file has been put back at some moment since the command. A key that no client changes meanwhile is after the LOAD as if the LOAD had been alone. LOAD can always go on, and ends after a bounded number of its own steps, whatever clients do. But a value that a client stores while LOAD runs may be replaced by the older one of the file.", "quantifier": "all files written by SAVE, all cache options and contents, all numbers of threads, all interleavings of their steps with any calls of any clients, all clock readings", "why_tests_cant": "Interleavings of background threads with client commands are unbounded.", "anchors": ["src/cmds.c: cmdSAVELOAD, bgsaveloadwork", "src/save.c: load, thload, load_block"]}
{"id": "C74", "title": "A client that watches with MONITOR: what it may send, and when the watching ends", "statement": "MONITOR is given only on a RESP connection and without arguments; otherwise the client gets an error and goes on as before. While watching, each read of the connection that brings exactly one PING request (in RESP or as a line, in any case of letters) is answered with exactly one PONG, an empty line is passed over, and the watching goes on. Any other request, a request that the network splits over two reads, a request with anything behind it in the same read, or the end of the connection ends it: no answer, nothing further is read. Nothing but PONG is written in answer to anything sent.", "quantifier": "all sequences of reads of any bytes, all numbers of PINGs in all their encodings, all places where a request can be cut", "why_tests_cant": "How the network cuts the bytes into reads is outside the control of a test, and the sequences are unbounded.", "anchors": ["src/cmds.c: cmdMONITOR, monitor_work, monitor_done", "src/args.c: args_eq", "src/resp.c: parse_resp, parse_resp_telnet"]}
{"id": "C75", "title": "FLUSHALL and SWEEP while clients work: each key at one moment, and a sweep is never seen", "statement": "While FLUSHALL or SWEEP runs in the background, with FAST or without, and other clients use the cache in any interleaving with its threads: FLUSHALL empties each key at exactly one moment between the command and its end and does nothing else to it, so a key that no client changes meanwhile is gone when the reply is written. SWEEP removes an expired item of each key at exactly one moment and does nothing else; no client can see from its answers that a sweep runs. Both end after as many steps of their own as there are shards, whatever clients do. But FLUSHALL is not one moment for all keys: of two keys that a client stores one after the other during it, the first may stay and the second be gone.", "quantifier": "all cache options and contents, all numbers of processors and shards, all interleavings of the threads with any calls of any clients, all clock readings", "why_tests_cant": "Interleavings of background threads with client commands are unbounded.", "anchors": ["src/cmds.c: flush_work, flushfast, thflush, sweep_work, sweepfast, thsweep", "src/pogocache.c: pogocache_clear, pogocache_sweep"]}
{"id": "C76", "title": "A command changes only the keys it names, so what one client stores every client reads", "statement": "A command changes only the key it names: SET, SETEX, EXPIRE, APPEND, PREPEND and the counter commands their first key, DEL its keys; FLUSHALL, FLUSH, FLUSHDB, LOAD and DEBUG may change every key; every other command, with whatever arguments, in whatever protocol, changes none, and neither does a command that is refused. The same holds for what a command leaves to a background thread (SWEEP ASYNC, PURGE ASYNC). All other keys show the same value, flags, token and end of life afterwards. So in a server with any number of clients, if SET key val is done and then, with any commands of any clients in between that do not name the key for a change, GET key, then GET replies with val, whichever client sends it. When the system is short of memory, SET and SETEX may take one other key besides their own, which is then gone and not changed; no other command takes any.", "quantifier": "all cache options and contents, all commands and arguments, all protocols, all clients and schedules, all clock readings that do not go back; the reading back by another client as long as memory is not short", "why_tests_cant": "Independence of all other keys is a claim about every pair of keys (including hash collisions and shared shards), every command and every history in between.", "anchors": ["src/cmds.c: evcommand, cmdSET, cmdSETEX, cmdGET, cmdDEL, cmdEXPIRE, cmdINCRDECR, cmdAPPENDPREPEND, cmdKEYS, cmdSWEEP, cmdPURGE, cmdSCAN", "src/pogocache.c: pogocache_store, pogocache_load, pogocache_delete, pogocache_iter, pogocache_sweep", "src/net.c: qthread"]}
{"id": "C77", "title": "A counter that several clients change: no change is lost, and INCR gives no number twice", "statement": "In a server with any number of clients of any protocols: after SET key with a number, and as long as clients only add to the key (INCR, DECR, INCRBY, DECRBY and their unsigned forms) or give commands that do not change it, GET key replies with the number plus everything that was added, and each command that added replies with the sum at its moment. Clients that are not allowed to give commands add nothing. If they only use INCR, each gets a greater number than all before it: no two get the same.", "quantifier": "all cache options and contents, all numbers and increments whose running sums stay between 0 and 2^63 - 1, all clients, schedules and other commands in between, all clock readings that do not go back, as long as memory is not short", "why_tests_cant": "Lost updates depend on the schedule of the clients and on what happens in between; both are unbounded.", "anchors": ["src/cmds.c: cmdINCRDECR, cmdINCRDECRBY, execINCRDECR, cmdSET, cmdGET, evcommand", "src/pogocache.c: pogocache_begin, pogocache_end, pogocache_load, pogocache_store", "src/net.c: qthread"]}
{"id": "C78", "title": "What a client stores is there for every client exactly until its time, and what a client deletes is gone for every client", "statement": "In a server with any number of clients of any protocols: after SET (with any options but NX, XX, CAS and KEEPTTL) or SETEX has stored a value, GET of that key by any client, with no command in between that may change the key, replies with the value if the clock has not reached the end of life that the options say, and with nothing from that moment on. TTL and PTTL by any client reply with the whole seconds or milliseconds left. After DEL, GET by any client replies with nothing.", "quantifier": "all cache options and contents, all keys, values and options, all clients, schedules and other commands in between, all clock readings that do not go back, as long as memory is not short", "why_tests_cant": "The claim ranges over all times between the two commands and over all histories in between.", "anchors": ["src/cmds.c: cmdSET, cmdSETEX, cmdGET, cmdTTL, cmdDEL, evcommand", "src/pogocache.c: pogocache_store, pogocache_load, pogocache_delete", "src/net.c: qthread"]}
{"id": "C79", "title": "SET NX is a lock: one client gets it, and keeps it until its time ends or it is deleted", "statement": "In a server with any number of clients of any protocols that take a lock with SET key val NX (with any options but CAS and GET): once a client was told that its value is stored, then as long as no command but such tries touches the key, every other try by any client is told that it failed until the end of life that the winner gave, and GET by any client in that time replies with the value of the winner. After DEL of the key, or from the end of life on, the first try by any client is told that its value is stored.", "quantifier": "all cache options and contents, all keys, values and options, all clients, schedules and other commands in between, all clock readings that do not go back, as long as memory is not short", "why_tests_cant": "Mutual exclusion is a claim about every interleaving of any number of clients and about all times in between.", "anchors": ["src/cmds.c: cmdSET, execSET, cmdDEL, cmdGET, evcommand", "src/pogocache.c: pogocache_store, pogocache_delete", "src/net.c: qthread"]}
{"id": "C80", "title": "The server is a table of registers: the whole behaviour of any key, for all clients together", "statement": "In a server with any number of clients of any protocols, take any key and the log of all commands in the order in which they were done. There is a register for the key (value, end of life, flags, token, or nothing) such that: it starts with what the cache shows at first; every command by a client that may give commands, if it is GET, TTL, PTTL, SET with any options, SETEX, INCR, DECR, INCRBY, DECRBY and their unsigned forms, APPEND, PREPEND, EXPIRE, DEL or FLUSH on it, replies exactly what the register says at that moment and leaves in it exactly what the command says, malformed forms included; refused clients and all other commands leave it as it is; values end by themselves at their end of life; and in the end the cache shows what the register holds.", "quantifier": "all cache options and contents, all keys, all commands with all arguments, all clients, protocols and schedules, all clock readings that do not go back, as long as memory is not short", "why_tests_cant": "It is the linearizability of the server: a claim about every reply in every history of every number of clients.", "anchors": ["src/cmds.c: evcommand, cmdGET, cmdTTL, cmdSET, cmdSETEX, cmdINCRDECR, cmdINCRDECRBY, cmdAPPEND, cmdEXPIRE, cmdDEL, cmdFLUSHALL", "src/pogocache.c: pogocache_load, pogocache_store, pogocache_delete, pogocache_clear", "src/net.c: qthread"]}
{"id": "C81", "title": "Optimistic locking works between clients: SET with a token cannot overwrite what it did not see", "statement": "The cache keeps tokens (usecas). A client reads keys with MGETS and gets the token of each; later any client sends SET key value CAS token. If the reply is that the value was stored, then at that moment the cache still showed exactly what MGETS showed (value, end of life, flags and token), every GET of the key in between replied that same value, and no SET or SETEX of the key in between was told that it stored. So of two SETs with the same token at most one is told that it stored. And if no command in between writes the key and it has not ended, the SET is told that it stored.", "quantifier": "all cache options with tokens and all contents, all keys, values and options of SET besides GET, all commands of all clients before, between and after, all protocols and schedules, all clock readings that do not go back, as long as memory is not short and fewer than 2^64-3 tokens were given", "why_tests_cant": "A lost update shows only if some other command among all possible ones, in some schedule, gives an old token again or changes a value without a new token.", "anchors": ["src/cmds.c: cmdMGETS, cmdSET, execSET, cmdGET, cmdSETEX", "src/pogocache.c: pogocache_store, pogocache_load, pogocache_iter", "src/net.c: qthread"]}
{"id": "C82", "title": "The server is one table of all keys: commands on several keys reply what the commands before them in the log left under all of them", "statement": "In a server with any number of clients of any protocols, take the log of all commands in the order in which they were done. There is one table that holds for every key a value, end of life, flags and token, or nothing, such that: it starts with what the cache shows at first; every command of the log changes each key as C80 says, all keys at once; MGET and MGETS reply what all the keys asked for hold at that place of the log, EXISTS and TOUCH how many of them stand there, DEL how many different ones it took away, KEYS exactly the keys that stand there and match; and in the end the cache shows what the table holds.", "quantifier": "all cache options and contents, all commands with all arguments and numbers of keys, all clients, protocols and schedules, all clock readings that do not go back, as long as memory is not short", "why_tests_cant": "It is a claim about every reply of every command on any number of keys, in every history of every number of clients.", "anchors": ["src/cmds.c: evcommand, cmdMGET, cmdEXISTS, cmdTOUCH, cmdDEL, cmdKEYS", "src/pogocache.c: pogocache_load, pogocache_delete, pogocache_iter", "src/net.c: qthread"]}
{"id": "C83", "title": "Commands of several threads at the same time act as if they were run one after the other", "statement": "Any number of clients send commands that several threads run at the same time, their steps mixed in any way: SET, GET, TTL, PTTL, EXPIRE, SETEX, the commands on counters, APPEND, PREPEND, ECHO, PING and AUTH with any arguments, and DEL, MGET, MGETS, EXISTS and TOUCH with one key. When all have ended, there is an order of all of them such that each gave the same reply and the cache is the same as if they had been run one after the other in this order; a command that ended before another one began comes before it in the order. For MGET of two keys this is false: it may show the old value of one and the new value of the other although the other was set last.", "quantifier": "all cache options and contents, all numbers of commands and threads, all schedules of their steps, all protocols, all answers of the outside world", "why_tests_cant": "The number of schedules grows exponentially with the number of steps; a test runs a few and cannot choose them.", "anchors": ["src/cmds.c: evcommand, execSET, execINCRDECR, cmdAPPEND, cmdMGET", "src/pogocache.c: pogocache_begin, pogocache_load, pogocache_store", "src/net.c: qthread"]}
