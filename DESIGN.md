# Formal model of amelielabs/amelie (Rocq/Coq 8.16.1)

Everything below is about the source in /repo read as text (version 1.0.0-rc1).
Nothing was compiled or run: the tie between the C code and the model is the
citation of file and lines on every definition.

## Layout

`rocq/theories/` has one group of files per area:

* `XModel.v`  – executable Gallina model of the code (citations on every definition);
* `XSpec.v`   – small independent specification (only where the statement needs one);
* `XProofs.v` – lemmas;
* `XProps.v`  – the property theorems only, each closed by `exact lemma`, followed by
  `Print Assumptions`, with an `Example` beside it which shows that a concrete,
  non-trivial case meets the hypotheses.

Conventions: `_partial` marks a theorem which proves part of a property (what is
missing is said in the comment and in MANIFEST.json); `_refuted` marks a machine
checked counterexample: the faithful model of the code violates the property.
Undefined behaviour of C (out-of-bounds read, use after free, signed overflow, an
`assert`/`abort`) is a distinct outcome of the model, never a silent default.

## Plan per property

| id | what is modelled | how it is proved |
|----|------------------|------------------|
| C01, C53 | tree.c pages, binary search, split, over a zipper model of rbtree.c (rotations, recolouring) | invariant + refinement to a sorted list; `_refuted` for string keys (memcmp magnitude) |
| C02 | tree_iterator_open/next | `_refuted` (gap between pages), `_partial` for keys that exist / scan from start |
| C03 | hash_store.h, hash.h incl. tombstones and incremental rehash | `_refuted` (2 witnesses), `_partial`: insert-only/delete-free refinement for every hash function |
| C04 | index_hash_merge.h | `_refuted`, `_partial` |
| C05 | union_iterator_step with an arbitrary comparator | proved for comparators with results in {-1,0,1}; `_refuted` for byte-difference memcmp |
| C06,C07 | part_op.c, log.h, commit.c with row identities and a free list | refinement; abort = inverse by induction on the log |
| C08 | part_mgr_create, part_mapping, murmur hash of rows, values and keys | arithmetic of the ranges; the hash of the bytes of a row equals the hash of its values |
| C09–C12 | the pipeline of transactions over partitions (executor, dtr, pod, track_sync, commit) as a transition system (`Tx*`) | invariants of all schedules for atomicity, isolation and order; `_refuted` schedules with aborts |
| C13 | write.h, write_log.h, record.h bytes | round trip over bytes |
| C14, C60 | crc.c tables, slicing by 8, alignment; the CRC32 instruction; record_validate | both equal the bitwise division; linearity over GF(2) and the shift register is injective; `_refuted` for a burst over the checksum field and the count |
| C15,C16,C18,C48,C59 | wal_file/wal/wal_cursor over byte files | refinement to list of records; C16 `_refuted` |
| C17 | id_mgr gc, wal_slots | `_refuted`, `_partial` |
| C19 | recover_cmd / part_apply | fold lemma |
| C20 | record_cmd_skip on a JSON payload | `_refuted`, `_partial` |
| C21 | refresh.c file operations, service_recover, part id files (`Refresh*`), a crash between any two operations | invariant of the set of files at every crash point; `_refuted` without sync |
| C22 | id_path/id_of on strings (`Id*`) | printing and parsing are inverse for every id and kind; `_refuted` for version 0 |
| C23, C24 | heap.c, heap_file.c: buckets, pages, free lists, the shadow heap, the file with its header and CRC (`Heap*`) | invariant of all histories of add, release and snapshot; refinement to a map of live chunks; round trip of the file |
| C25–C28 | JSON codec, compare, find | structural induction |
| C29, C30, C66 | escape.h, json_export.c, json_parser.c (stack machine); strtod and %g as parameters | relation of RFC 8259 texts; the machine consumes the text of a value and writes its form; invariant of the stack for soundness; `_refuted` for escapes and limits |
| C31, C32, C67 | row.h/row.c over byte memory (create, update, search key), value_data.h, vm.c readers, compare.h | one layout lemma for all writers; inductive history of a row; order by lexicographic codes; `_refuted` for narrow columns, identity and NULL keys |
| C33, C34 | uuid.c, base64.c | arithmetic on bytes, enumeration of the tables; `_refuted` for a longer UUID text and bytes above 127 |
| C35–C38, C63–C65 | date.c, interval.c, timestamp.c, timezone.c, overflow.h, the time operators of vm.c, fn_time.c; gmtime_r and mktime by the Gregorian calendar | one 400-year cycle by computation, the rest by periodicity and arithmetic; parsers inverted piece by piece; invariant of the binary search; `_refuted` for wraps and zone lookups |
| C39 | like.c | `_refuted`, `_partial` (sound/complete classes) |
| C54–C56 | value/compare.h, all.c, any.c, cand/cor/cnot of vm.c | values mapped to integer lists compared lexicographically; loop invariants; `_refuted` for NULL, NaN, INTERVAL |
| C40–C43 | set.c, union_iterator.h, in.c | invariants, refinement |
| C57, C58 | agg.c agg_write, agg_compute, agg_merge, merge of sets and distinct sets; avg.h | both hash sets against the list of rows as an invariant of scan and merge; `_refuted` for the out-of-bounds free and the unsigned division |
| C44–C46, C61 | lock_mgr.h, access.h, the order of locks of statements and DDL, the event of a waiting lock | invariants of the transition system of all sessions; waits-for chains are strictly increasing in the relation; `_refuted` schedules |
| C47 | sequence.h, the recovery of sequences from rows and log (`Seq*`) | invariant of all histories with crashes; `_refuted` |
| C49 | the 30 schema operations of catalog_mgr and its managers with their undo records, tr_commit/tr_abort, session.c (`Ddl*`) | effect of every operation against DdlSpec; abort is the inverse by induction on the log; `_refuted` for read-only mode and failing logs |
| C50, C62 | utf8.h, string functions of fn_string.c | decoder inverse to the RFC 3629 encoding by arithmetic on the bytes; loops over bytes simulate loops over code points |
| C51 | hash_table.h (`Ht*`) | `_refuted`, `_partial` |
| C52 | streamer.c, primary.c, session_replay.c, wal_cursor.c, wal_gc with slots, id_mgr.h (`Repl*`): both servers, lost and late messages, restarts | invariant of all histories: files hold consecutive slices of the log, the cursor is at the LSN sent, the replica has a prefix; a continuation for catching up; `_refuted` histories |
| C68 | auth.c, auth_cache.h, user.c, hmac of tokens by a parameter (`Auth*`) | equivalence with the signed token specification; histories of the cache |
| C69 | *_config.c of every object, catalog.c dump/restore, JSON text of C29 (`Cat*`) | round trip of every configuration, then of the whole text; `_refuted` for dropped columns, function order, non UTF-8 bytes |
| C70 | catalog_mgr file operations and the start of a server (`CatFile*`), a crash between any two bytes | case analysis of the crash points with an invariant of the directory |
| C71 | the catalog file, the partition files, the log and the server over restarts (`Dur*`): statements in micro-steps, checkpoint in parts, removal of log files, recovery | invariant relating disk and memory to the list of logged statements; the recovery loop keeps its own invariant per record |
| C72 | CREATE INDEX of a quiet partition, recovery of rows with the indexes of the catalog file (`Idx*`, on top of `Part*`, `Replay*`) | build of the index by induction; recovery keeps the prefix relation of rows and the exactness of those indexes that existed when the rows were written; `_refuted` histories |
| C73, C74 | the second heap of refresh.c and indexate.c, heap_add/heap_remove with it, part_apply (`Shadow*`) | invariant of the two heaps during any transactions, then induction over the merge; `_refuted` histories |
| C75 | path_op.h, path.c, path_prepare.c, scan.c, the partitions of a statement and the cursor (`Scan*`, keys of `Row*`); names are resolved, values of other expressions are functions of their names | invariant of every bound kept by path_key (each row with a true WHERE is inside), then of the scan of the ordered rows; `_refuted` conditions |
| C76 | update.c and json_array.h on the encoded bytes (`Jupd*`, codec of `Json*`) | induction over the path and over the fields around the key; the specification is by `lookup` of paths and names of fields; `_refuted` calls |
| C77 | parse_expr.c on token lists (`Expr*`): the two stacks, priorities, unary flag, and_or flag, all in mutual functions with fuel | mutual induction over the derivations of the grammar `Sup` (ExprSpec.v): the loop started on a phrase reaches the state where the operators of the phrase are on top of the stack and reduce to its tree; `Sup` is included in the precedence grammar `Std`; `_refuted`: derivations of `Std` read with another tree or refused |
| C78 | emit_expr.c, cast.c, rmap.h, the operations of vm.c (`Comp*`): expressions as trees, code as a list of operations with patched jumps, registers with types; primitive operations are a record of parameters | for every expression the compiler accepts, the piece of code started anywhere ends behind it with the value of `eval` (CompSpec.v), the registers in use and the stack kept: mutual induction over expressions, arguments and WHENs with an invariant on the free registers, the types of registers and the positions of the open jumps; `_refuted`: LIKE typed as string, interval as truth value |
| C79 | runtime/base/ring.h, bus.h, ipc.h, notify.c, mainloop of task.c (`Bus*`): every access to shared memory is a step, the threads interleave; any number of senders with lists of messages, one receiver, optionally one of the senders is the receiver | invariants: slots between read and write hold the messages of the history, every claimed slot has its owner, a sleeping receiver with messages has an eventfd or a sender about to notify, every owed event is on its way; a measure that every step decreases; the final state is empty. Refuted for a thread that sends to itself with a full ring |
| C80 | runtime/base/timer_mgr.c, the part of mainloop (task.c) that runs timers and waits, sleep() (`Timer*`); runs of sleeps, cancellations, reads of the time and rounds of the loop | invariant over runs (sorted, sequence numbers, ends bounded by begin + span); permutation of the sleeps into fired, stopped and waiting; three counterexample runs for the parts that are false |
| C81 | runtime/os/readahead.h, server/http/http.c, the request loop of frontend_client.c, client_io.h (`Http*`); chunks of bytes, the header loop with its 256 byte reads, pushback, the parser with reads outside of the header as UB, the content loop with its int | the bytes that remain are a function of the stream, lemma per read; first occurrence of the end marker under prefixes; a separate encoder of requests, induction over the list of requests; the writer equals the encoder. Counterexamples for the limit, the int and the token |
| C82 | parse_row.c, parse_value.c, refs.h, emit_send/emit_insert_store, cupdate_store, csend_shard, row_get_identity, row_map, cinsert, row_create (`Ins*`); the set owned by the program, TYPE_REF values, the stack with what is left on it, requests per partition and their later execution on the shared set; INT columns, any hash | a specification row by row from the text; the parsed row with its references stands for the given values; writing generated columns twice is writing them once when they read ordinary columns; invariant over every interleaving: inserted ++ pending = specified, per partition. Counterexamples by computation |
| C83 | emit_upsert, emit_update_target, ctable_prepare, cupsert, cexcluded, cupdate, row_create, row_update, part_upsert (`Ups*`): the emitted program with its patched jumps, run by an instruction counter over the rows sent; index_hash_upsert and hash_iterator_open_at on the hash of `HashModel` (`UpsHashModel`) | the program is run symbolically: conflict code, returning code and the loop of CUPSERT, by induction over the rows with the invariant that keys are unique, equals a separate row by row specification; SET lists ordered by insertion equal the lookup by column; refuted by execution for EXCLUDED, for an identity column out of the key, and for the hash at the insert that enlarges it |
| C84 | plan_main, plan_pushdown, the code of cmd_scan, cmd_sort, cmd_union, cmd_recv with its jumps, CSET_ADD on the stack, set_sort, the union of `UnionModel` (`Sel*`): the program of a partition and of the session, run by an instruction counter | the scan is run symbolically by induction over the rows (WHERE, OFFSET, LIMIT counters); a merge of inputs cut after LIMIT + OFFSET rows agrees with the merge of the full inputs on those rows; C05, C41, C42 for the merge; the index-ordered subquery is computed exactly and refuted |
| C85 | lex_next (white space, comments, numbers, symbols, names, keywords, quoted names, strings), lex_keyword_match and the tables of keyword.c, lex_push and the backlog, the value of a string literal. strtod is a parameter; messages of errors are not modelled. | LexSpec says what words spell what token (its own keyword list, grammar of names, strings, reals, separators), without the scanner. Both directions by induction: every such text is read as its tokens (completeness), everything that is read is such a text (soundness, any bytes); no bad read; three refutations. |
| C86 | value_export, output_json_write (arrays and objects of rows, pretty or not, minimal or full, a store or a row), output_json_write_json, output_json_write_error, output_ensure_limit, on top of the models of json_export, date, timestamp, interval and UUID texts. printf of doubles, the promotion of floats and the timezone are parameters. | OutSpec: the JSON value of a result and of an SQL value; RFC 8259 texts with numbers. Writers add the text to the buffer or fail at the limit; by induction over columns and rows the text is in the grammar; reading back by the parser theorem of C29/C66. |
| C87 | backup.c, restore.c, snapshot_mgr.c, catalog_snapshot.c, wal_snapshot over the server of C71: hard links one by one under the catalog lock, the list of the log, files and log files fetched while everything else runs (`Bak*`) | the directory satisfies the invariant of disks of C71 for the log of the moment; preserved by every step; `_refuted` for checkpoints and DROP TABLE |
| C88 | the endpoint of a request: uri_parse_endpoint, percent decoding, endpoint options and reset, frontend_endpoint, the URL of http_begin_request (UriModel.v, HttpModel.v) | iff with a grammar of URIs (UriSpec.v: path, arguments, what an assignment gives an option, last one wins), by induction over the text; table representation of the options; undefined reads only through the option uri; refutations by evaluation |
| C89 | the console: separator.h whole, the loop of main_console (SepModel.v); not modelled: isspace of bytes above 127 (taken as no space), the terminal | grammar of statements over lexemes (SepSpec.v: blocks, CASE, IF EXISTS), induction over the grammar with an invariant of the byte before the position; stability of a read block under more input; pieces of the input for every input; counterexamples by evaluation |
| C90 | job_mgr.c, job_worker_main, condition variable with POSIX's guarantees (JobModel.v); not modelled: what a job computes, its error and the event of its requester | transition system over any number of threads, events of a run; invariant (a sleeping thread leaves no more jobs than idle threads), measure for termination; counterexample for a negative number of threads |

## Trusted base

* Coq 8.16.1 kernel (`vm_compute` conversions included; `coqchk` accepts the files too).
* `Print Assumptions` stands under each property theorem. For every theorem named in
  MANIFEST.json it prints "Closed under the global context": no axiom at all, not
  even one of the standard library, is used. (A checker that lists every constant of
  every library loaded also names `Coq.ssr.ssrunder.Under_rel.*`: these are the fields
  of a module type inside the standard library's ssreflect file, loaded by
  mathcomp-free `Require`s of ssreflect; no theorem depends on them.)
* The reading of the C code recorded by the citations: no code was compiled, the
  model is a hand translation. Each comment says what is simplified.
* Parameters of the theorems, always explicit arguments (never axioms): the
  comparator of a key, hash functions where the result does not matter, `strtod`/`%g`
  with the stated round trip, HMAC, `gmtime_r`/`mktime` given by the Gregorian calendar.

## Not modelled

The SQL parser, the compiler and the plans of queries, the VM loop (single operators
and readers are modelled where a property cites them), memory allocation and its
failure, threads below the level of messages and locks (a step of a model is a
message, a lock operation, a system call or a write of one byte, as said there), the
network below whole messages, TLS, the operating system apart from: bytes of a file
written in order and cut at any byte by a crash, unsynced bytes lost by a power
failure, rename and unlink atomic and in order.
