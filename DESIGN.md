# Formal model of pogocache: design

Source: `/repo` (tidwall/pogocache, read as text, never built or run here).
Model and proofs: `/verif/rocq/theories`, Coq 8.16.1, standard library only.

## 1. Method

* Every C function in scope becomes a total Gallina function with the same
  control flow. Each definition carries a comment `[src/file.c:lines]`.
* Bytes are `N` below 256 (`byte_ok`), strings are `list N`. Machine integers
  are `N`/`Z` with explicit wrap (`mod 2^64`, `mod 256`) wherever the C code
  can wrap; where it cannot, the theorem that it cannot is proved.
* Loops over data become structural recursion. Loops that are not structural
  (hash probes, iteration with deletion) recurse on fuel and return a distinct
  `None`/error on exhaustion; theorems show that the fuel the model passes is
  never exhausted on reachable states.
* Undefined behaviour (null dereference, read outside an array) is a distinct
  outcome, never a default value.
* Allocation success is an argument (a boolean oracle per call site), the clock
  is an argument of every operation, callbacks are functions.
* Properties are stated against small specification files (`*Spec*.v`) which do
  not mention the implementation model: an abstract map from keys to items,
  grammars, layouts.
* Where the English property is false of the code, a theorem `..._refuted`
  exhibits a witness state or input, and the weaker true statement is proved.

## 2. Layers

Model files hold definitions only; `*Spec*.v` files hold the vocabulary of the
statements (no code); `*Proofs*.v` hold lemmas; `Prop*.v` hold the property theorems
`Cnn_...`, each with a case that meets its hypotheses.

| Layer | Model | Code modelled |
|---|---|---|
| bytes, machine integers | Base, Types | types of pogocache.h |
| clamped arithmetic, varints, integer text | Clamp, Varint, IntText | util.c 24-338, pogocache.c 240-286 |
| sixpack | Sixpack | pogocache.c 153-237 |
| entry blob codec | Entry | pogocache.c 313-670 |
| hash, packed bucket fields | Hash | pogocache.c 86-151, 762-778 |
| robin-hood table | Map | pogocache.c 679-1016 |
| shard operations | Shard | pogocache.c 1018-2103 |
| cache (all shards) | Cache | pogocache.c 1184-1394, 1732-2103 |
| threads, shard locks, batches | Conc, Threads | pogocache.c 1258-1394, 2105-2149 |
| reference counts under threads | Refcount | pogocache.c 638-648 and their callers |
| patterns | Glob | util.c match |
| command table, commands | CmdTable, Prog, Cmds | cmds.c |
| wire protocols | Resp, Memcache, Http, Postgres | resp.c, memcache.c, http.c, postgres.c |
| replies | Reply | conn.c 193-458, reply writers of postgres.c |
| connections | Conn | conn.c 26-190, parse.c |
| file format, loading threads | Save | save.c 227-632, util.c 228-247 |
| saving threads, file system | SaveFs | save.c 53-225 |
| memory of buffers and argument lists | Args | buf.c, args.c, xmalloc.c 146-168 |
| event loop, background work | Net | net.c 161-278, 567-935, 1244-1302 |
| handlers over one shared cache | Server | conn.c 62-228 |
| table of connections | Cmap | net.c 357-430 |
| limit on connections, TLS marks | Accept | net.c 432-467, 581-642, 870-886 |
| table of statements and portals | Hmap | hashmap.c 30-349, 467-476, postgres.c 172-325 |
| watching commands | Monitor | monitor.c 19-109, cmds.c 1490-1532, 2395-2398 |
| program options, low memory mode | Main | main.c 39-66, 189-283, 332-370, 459-762, 814-833 |
| LZ4 compression and decompression | Lz4 | lz4.c 340-574, 681-870, 932-1405, 1455-1477, 1980-2458; save.c 60-64, 259-265 |
| TLS connections | Tls | tls.c 126-170; net.c 53, 658-703, 768-792, 916-937 |
| start, signals, shutdown | Proc | main.c 289-330, 421-448; save.c 590-632; net.c 1170-1186 |
| output buffer | OutBuf | net.c 247-338, 682-703; conn.c 230-414; postgres.c 65-79, 1240-1339, 1488-1513; xmalloc.c 91-96, 146-167 |
| running total | Map, Shard, Cache (existing) | pogocache.c 893, 1843-1872 |
| counters of STATS | Stats, StatsSpec | net.c 258-262, 506-565, 786-803, 916-933, 1304-1318 |
| counters per command | StatCmd | cmds.c 88-106, 394-494, 614-633, 969-1002, 1591-1612, 1661-1770; stats.c 15-135 |
| the reply of STATS | StatReply | cmds.c 1988-2110 |
| DEBUG | Debug | cmds.c 1300-1477; xmalloc.c 91-96 |
| SAVE and LOAD | SaveCmd | cmds.c 848-932; save.c 53-225, 412-588 (by SaveFs and Load) |
| LOAD while clients work | LoadLive | cmds.c 848-867, 925; save.c 376-552 (by Save) |
| The session of a watching client | Watch | cmds.c 1499-1559; args.c 28-44 |
| FLUSHALL and SWEEP beside clients | Jobs | cmds.c 684-752, 1087-1175; pogocache.c 2047-2064, 1942-1970 |
| Which keys a command changes | FrameSpec | no code: a table of the commands that change keys |
| Counters shared by clients | PropTally (specification part) | no code: which commands add what |
| End of life seen by all clients | PropSpan (specification part) | no code: which commands store what until when |
| Locks | PropLock (specification part) | no code: what is a try for a lock, who won and who lost |
| Registers | RegSpec (specification) | no code: what each command does to one key |
| Tokens | TokProofs, TokProofs2, TokProofs3 | no code: what commands do to the tokens |
| Table | TableSpec (specification) | no code: what commands on several keys tell |
| threads that run commands | Weave | cmds.c 2379-2410 and the command functions, net.c 889-937 |

Specifications: Spec (abstract map with expiry), Trace, Observe, CmdSpec 1-3, RespSpec,
McSpec, HttpSpec, ReplySpec, PgSpec, ConnSpec, SaveSpec, SafeSpec 1-2, ArgsSpec, NetSpec,
ServerSpec.

## 3. Plan per property

* C01 history refinement: the cache model is run against `Spec.spec_step`;
  abstraction function reads every entry of every bucket; one simulation lemma
  per operation, induction over the history. Eviction makes the spec a relation.
* C02, C03, C05-C11, C13, C16, C20: corollaries of the per-operation
  simulation lemmas.
* C04: the spec never shows expired items; plus direct lemma on iteration.
* C12, C47: robin-hood invariant (`dib` step condition, home position, unique
  keys, count, one empty bucket) preserved by every map function; probe fuel.
* C05 needs all probe distances < 255 (8-bit field); the theorem carries the
  condition "no cyclic window of buckets is over-full" and it is shown to hold
  for every shard with at most 254 entries; `_refuted` without.
* C14, C15: loop invariants over the iteration index; `_refuted` for the
  double visit after wrap-around and for the cursor off by one.
* C17: entsize invariant for store/delete histories; `_refuted` otherwise.
* C18, C19: operations emit an event trace (alloc, free, notify); theorems fold
  the trace.
* C21, C22, C23, C27: codec round-trip lemmas by induction and bit lemmas.
* C24, C25: small-step interleaving semantics with spin locks per shard; the
  linearization point is the operation body under the lock; deadlock witness.
* C26: transition system of retain/release atomics with an invariant
  "rc = references held".
* C28-C32: commands as programs over the cache API; theorems use the abstract
  cache, lifted by C01.
* C33: the 40-entry table is computed; lookup proved for all strings.
* C34: the gate in the dispatcher, then an invariant over the loop of a connection
  for every byte stream.
* C35, C49: arithmetic on index ranges.
* C36: glob matcher against an inductive language definition.
* C37-C41, C48: parsers against encoders, prefix lemmas, chunking by induction.
* C42-C44: file format encoder/decoder, crash states of the file system, CRC
  as a linear map on four-byte windows.
* C45, C46: arithmetic.
* C51-C53: the commands on the whole cache as programs over the cache model; C35,
  C14, C15 and C36 lifted to replies; a series of SCAN calls by lexicographic
  induction on (entries left, entries ahead of the cursor).
* C54: every command program shown to end in a reachable cache (case by case over the
  table); bounds on argument lengths from each parser; induction over packets with
  the commands that the connection meets.
* C55: a heap of blocks with explicit faults; a separation invariant (each live block
  belongs to one slot of one list) kept by every operation.
* C56: the loop of one thread as a function of what the sockets answer; per connection a record
  of what was received, handed over, said and sent; an invariant by class of
  connection (idle, waiting to send, in the background, given up), kept by every round;
  refinement to a server that handles one packet at a time.
* C57: buckets of chains; every connection is in the bucket of its hash, and the chains together
  hold the open connections, kept by growing.
* C58: threads as interleaved atomic steps on the counter and the marks; an invariant.
* C59: the handlers of the loop (Server) are those of Conn, Cmds and Reply over one shared cache; the
  refinement of C56 reduces the loop to one packet at a time; an invariant ties each
  connection to a run of its text and the log of all deeds to one sequential run.
* C50: a framing lemma per protocol (exact, prefixes wait), then induction over
  packets; trouble characterised by inversion of the parsers.
* C60: the robin-hood invariant of C12 for a probe distance of any width; pigeonhole over words for the
  names that collide.
* C61: threads and watchers as a transition system; an invariant over all schedules that ties what was sent to
  the order in which commands were shown; a decoder argument for the text of a line.
* C62: the words of the command line against a grammar of items, by induction over the words; the faults by
  evaluation, joined with C11 for the lost key.
* C63: every copy of the decompressor, with its overshoot, against a description of the bytes written; one round of either loop against one
  sequence; rounds by induction over the input. The compressor by an invariant that ties the output so far to the input so far; the format is a
  specification of its own (Lz4Spec).
* C64: an invariant that ties what was handed on, what OpenSSL keeps and what is in the socket to what was sent; a measure for the
  rounds; the standstill from an invariant on the last record taken.
* C65: a process as a transition system over the file system of C43; the invariant is that the save so far is a run of C43 whose
  moments are states of the process after the signal; load of the next process by C42 and C63.
* C66: buffers as lists of cells that may be unset, every read and write checked; invariant that the buffer begins with the bytes so far and its
  size is a power of two; each writer appends exactly what Reply.v says.
* C67: per shard, the field changes only in map_insert's new-bucket case; case analysis of every call, then induction over histories with the
  set of held keys from the refinement.
* C68: threads as small-step programs (increment, read, sum up, add to the totals), any schedule; invariant: total = increments whose thread
  has flushed since, thread and connection counters = the rest.
* C69: a log of the calls a command makes (same interpreter as Prog), counts as functions of the log; per command by the lemmas of C28-C32.
* C70: the texts of stats_printf with the two 512-byte buffers, split again as stats_end does; the table of names and values as the specification; lengths bounded by the digits of 64-bit numbers.
* C71: the partition of the keys is the whole range; stores with different keys commute as far as look-ups see (induction over any permutation with C02 and C03).
* C72: option parsing against a list of options spelt out; invariant of C43 generalised to saves that take their shards from a cache that changes meanwhile; then C42 for what a load restores.
* C73: the invariant of the threads of load without the cache (it does not depend on it); each store of a thread is the saved item (C42); induction over the interleaving.
* C74: induction over the reads, with the theorems of the two parsers (C37, C48).
* C75: invariant: each shard is still on the list of exactly one thread and untouched, or on none and visited once; induction over the interleaving.
* C76: one lemma per command (its walk over the cache keeps every key outside the table), then induction over the log of the server (C59). With low memory the same for all commands but SET and SETEX, and for these the three outcomes of a store (C28).
* C77: induction over the log of the server: the counter shows the sum from every time no clock has passed.
* C78: the frame of C76 between two entries of the log of C59, with the theorems of the two commands at its ends.
* C79: an invariant through the log of C59 (the value of the winner stands while its time lasts), with C28 for the tries and C76 for all other commands.
* C80: a simulation through the log of C59: each command is decided to be well formed or not, then C28-C32 and C51 give its rule, C76 all that is left.
* C81: along the log of C59, what is stored is either what was there before (same view) or has a token above the shard's counter (invariant since, one lemma for each command of the table); so an equal token means an equal view.
* C82: the table is what stands in the cache; each command of the log is one_turn of C80 for every key, and C32 and C52 for the replies.
* C83: the moment of a command is its only call of the cache (or its end, if it makes none); invariant: the commands whose moment has come, run in this order, give the present cache, and what is left of each makes no call. MGET with several keys is not atomic (refuted by a case); for it the loop is followed through the schedule, and each key gets the moment of its own call.

## 4. Trusted base

* Coq 8.16.1's kernel (with its virtual machine, used by `vm_compute` in cases and
  witnesses). No plugin, no axiom: `Print Assumptions` answers "Closed under the global
  context" for every theorem named in MANIFEST.json. This was checked with a
  generated file that prints the assumptions of each of them; the build does not depend
  on it.
* The reading of the C code that the comments record: each definition cites the lines
  that it models. Nothing checks that the definitions and the C code agree.
* The specification files and the statements in `Prop*.v`.
* The simplifications of section 5.

## 5. What is modelled, and what is not

### Simplifications, per layer

* Integers: `int` counts of the table are unbounded naturals (Map); everything 64-bit that
  can wrap wraps explicitly. Sizes of byte strings are bounded by hypotheses (`2^61`,
  `2^62`) where C needs an addressable size.
* Memory: each allocation asks an oracle; a failed one gives the result that the code has
  for it. The bytes of an entry are modelled (Entry), the address is an opaque
  identifier. Reads outside of these bytes are outcomes (`OutOfBounds`).
* Floating point: the load factors are modelled by the integers that they
  yield for the default and for the configured values (`opts_load`).
* Clock and time of day: an oracle value per reading; theorems assume only what they
  state (`fine`, `steady`).
* Threads (Conc, Threads, Refcount): interleaving of atomic steps, sequentially
  consistent. The C memory model below that is not modelled. Reading and
  writing a shard under its lock is one step. Fairness is not modelled: liveness
  is stated as "some thread can always step" (or refuted).
* Commands (Prog, Cmds): a command is a program over the cache API, run
  sequentially; batches are atomic, which C25 justifies. Work in the background
  is a program that the reply waits for, or that is forked (FLUSHALL ASYNC). The
  counters of STATS are left out.
* Parsers: a buffer is the list of its bytes followed by the terminating zero
  where the code reads it. Arguments are passed by value, except in Args, which models the
  slots and who owns them.
* Postgres: the map of statements and portals (hashmap.c) is an association list; the table
  itself is modelled in Hmap and C60 shows that it finds the same.
* Connections: one connection, its packets in any cut. A command in the background does
  not end the loop as in C, the loop goes on (in Server it ends it). HTTP keep-alive is parsed but has no effect
  in the code; not modelled. After an HTTP request the rest of the packet is dropped.
* Event loop (Net): one thread; other threads show as arbitrary changes of the
  shared state between steps. A call of a handler is atomic. A background command
  finishes at any later point. TLS connections read and write like plain ones.
  The table of connections is a list in Net and is modelled itself in Cmap; the limit is
  modelled in Accept. With io_uring the answers come in the order of a given permutation.
* Server: the loop of Net with the handlers of Conn. Commands are atomic, a command in the background
  counts at the moment when its work is done; other threads run whole commands between the
  steps of this one. After trouble nothing further is said.
* Files: a path names a sequence of bytes; `rename` is atomic, `write` may be short, a
  crash loses nothing that was written (the code never calls fsync; C43 is about
  crashes of the process, not of the machine). Directories, permissions and
  names with a zero byte are not modelled. In C42-C44 LZ4 is any pair of functions of which
  the second undoes the first; C63 proves this of a model of the code. The checksum is modelled bit by bit.

### Not modelled

* tls.c apart from reading and writing (C64), uring.c, epoll, kqueue and sockets: operating system and OpenSSL. What they
  answer is an oracle in Net. listen_*, warmup*, net_main of net.c.
* lz4.c: streaming, dictionaries, destSize and partial decoding (nothing uses them). hashmap.c: deletion, scan and the hash function (nothing else uses them).
* main.c apart from the options, the low memory mode and the life of a process (calc_memlimit, memstr, the texts); sys.c (machine properties), xmalloc.c,
  helppage.h.
* The commands DEBUG and STATS; stats.c, unless a row of
  section 2 names them.
* Failure of pthread_create when saving and loading (the code compares its result with -1,
  which it never is); for background commands it is modelled in Net.
* Wall-clock time, memory actually returned by the allocator.
