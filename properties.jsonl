{"id": "C01", "title": "Ordered index is a map", "statement": "A table with a tree (ordered) index behaves as a map keyed by the index key: an insert/upsert of a row reports the previous row with the same key (if any) and replaces it, a delete removes exactly that key, a lookup returns the last written row of the key or nothing, and iteration from the start visits every row exactly once in key order.", "quantifier": "every sequence of inserts, replaces, deletes and lookups, every key order, any number of rows (any number of page splits)", "why_tests_cant": "page splits and page removals happen only for particular key orders and sizes; a test can exercise only some histories", "anchors": ["amelie/db/index/tree.c: tree_set, tree_upsert, tree_replace, tree_delete_by, tree_get, tree_search, tree_search_page", "amelie/db/index/tree_iterator.h"]}
{"id": "C02", "title": "Range scan over an ordered index is complete", "statement": "A scan of an ordered index positioned at any key K (present or not) returns every row whose key is >= K, in ascending order, and nothing else.", "quantifier": "every index content (any number of pages) and every start key, including keys that fall in the gap after the last row of a page", "why_tests_cant": "only start keys that fall between the last key of one page and the first key of the next trigger the boundary; random tests with small tables have only one page", "anchors": ["amelie/db/index/tree_iterator.h: tree_iterator_open, tree_iterator_next", "amelie/db/index/tree.c: tree_get"]}
{"id": "C03", "title": "Hash index is a map", "statement": "A table with a hash index behaves as a map keyed by the index key: at most one row per key is ever visible, a lookup finds the last written row of a key, deletes of other keys never make a row invisible or a key duplicated.", "quantifier": "every sequence of inserts, deletes, replaces and lookups, every hash function, and every moment of an incremental rehash", "why_tests_cant": "failures need particular collision chains interleaved with deletes or with an incremental rehash", "anchors": ["amelie/db/index/hash_store.h: hash_store_set, hash_store_get, hash_store_delete", "amelie/db/index/hash.h: hash_set, hash_get, hash_delete, hash_rehash, hash_get_or_set"]}
{"id": "C04", "title": "Cross-partition hash scan returns every row", "statement": "A full scan of a hash-indexed table that is split in several partitions returns the rows of all partitions, each exactly once, and never reads outside the list of partitions.", "quantifier": "every number of partitions and every distribution of rows, including empty partitions", "why_tests_cant": "depends on which partitions are empty; one-partition tests always pass", "anchors": ["amelie/db/index/index_hash_merge.h: index_hash_merge_next, index_hash_merge_open"]}
{"id": "C05", "title": "Cross-partition ordered merge", "statement": "Merging the ordered results of several partitions (ORDER BY across partitions, ordered index scan over several partitions) yields a sorted sequence that contains every input row exactly once.", "quantifier": "every number of sorted inputs, every content, every key type for which the comparison returns a negative, zero or positive number", "why_tests_cant": "the order depends on the relative contents of the inputs and on the magnitude returned by memcmp, which differs between platforms", "anchors": ["amelie/vm/set/union_iterator.h: union_iterator_step", "amelie/db/index/index_tree_merge.h", "amelie/runtime/base/str.h: str_compare_fn", "amelie/vm/value/compare.h: store_compare"]}
{"id": "C06", "title": "Rollback restores the table", "statement": "When a transaction is aborted, the primary index and every secondary index of each partition it touched hold exactly the rows they held before the transaction, whatever mix of inserts, upserts, updates and deletes it executed, including when it fails in the middle of an operation because of a unique violation in a secondary index.", "quantifier": "every table content, every number of secondary indexes, every sequence of operations of a transaction and every failure point", "why_tests_cant": "the number of operation interleavings and failure points is unbounded", "anchors": ["amelie/db/part/part_op.c: part_insert, part_upsert, part_update, part_delete, log_if_commit, log_if_abort", "amelie/db/transaction/commit.c: tr_commit, tr_abort", "amelie/db/transaction/log.h"]}
{"id": "C07", "title": "Rows are freed exactly once and never while visible", "statement": "After commit or abort of a transaction every row version created or replaced by it is either still referenced by the primary index or has been released exactly once; no released row is still reachable through any index.", "quantifier": "every table content and every sequence of operations of a transaction followed by commit or abort", "why_tests_cant": "use-after-free and double free depend on the exact history of each key inside the transaction", "anchors": ["amelie/db/part/part_op.c: log_if_commit, log_if_abort, log_if_secondary_*", "amelie/db/transaction/commit.c"]}
{"id": "C08", "title": "Every key belongs to exactly one partition", "statement": "For every table created with 1..N partitions, each hash value used to route a row maps to exactly one partition, every partition owns at least one hash value, and the same key is always routed to the same partition.", "quantifier": "every partition count accepted by CREATE TABLE and every hash value", "why_tests_cant": "a rounding error would affect only some partition counts", "anchors": ["amelie/db/part/part_mapping.h", "amelie/db/part/part_mgr_recover.c: part_mgr_create", "amelie/vm/value/row.h: row_map"]}
{"id": "C09", "title": "Transactions that abort do not disturb committed transactions", "statement": "If a transaction aborts, the effect of every committed transaction is preserved: the final state of each partition equals the state obtained by executing only the committed transactions, in their commit order.", "quantifier": "every schedule of transactions over partitions, every choice of the transactions that fail, every moment at which partitions observe the outcome", "why_tests_cant": "needs a particular interleaving between a failing and a later pipelined transaction on the same partition", "anchors": ["amelie/system/backend/pod.c", "amelie/db/transaction/track.h: track_sync", "amelie/vm/executor/batch.h", "amelie/vm/executor/commit.c", "amelie/db/transaction/commit.c: tr_abort_list, tr_commit_list"]}
{"id": "C10", "title": "Every executed transaction is eventually answered", "statement": "Once all partitions have finished executing a transaction, the commit stage eventually makes a commit or abort decision for it; no transaction waits forever because of how it was ordered relative to others.", "quantifier": "every sequence of begin/complete events and every overlap pattern of partitions between transactions", "why_tests_cant": "a lost transaction shows only for specific overlap patterns and completion orders", "anchors": ["amelie/vm/executor/executor.c: executor_attach, executor_detach", "amelie/vm/executor/dtr_group.h", "amelie/vm/executor/dtr_queue.h", "amelie/vm/executor/commit.c"]}
{"id": "C11", "title": "Conflicting transactions commit in execution order", "statement": "Two transactions that touch a common partition are decided by the commit stage in the order in which they were dispatched to that partition.", "quantifier": "every sequence of dispatches, completions and commits and every overlap pattern", "why_tests_cant": "schedule dependent", "anchors": ["amelie/vm/executor/executor.c: executor_attach", "amelie/vm/executor/dtr_group.h: dtr_group_add", "amelie/vm/executor/batch.h: batch_process"]}
{"id": "C12", "title": "Multi-partition atomicity", "statement": "A transaction that writes to several partitions is either committed on all of them or aborted on all of them.", "quantifier": "every set of transactions in a commit batch, every partition set, every failing member and every write-ahead-log error", "why_tests_cant": "depends on the mix of failing and succeeding transactions in one batch", "anchors": ["amelie/vm/executor/batch.h", "amelie/vm/executor/commit.c", "amelie/db/transaction/track.h"]}
{"id": "C13", "title": "WAL record round trip", "statement": "Every committed transaction written to the write-ahead log is read back as exactly the same ordered list of row operations (command, table, row bytes).", "quantifier": "every list of row operations (any number of tables, rows and row sizes)", "why_tests_cant": "row boundaries, command grouping and size fields interact for arbitrary lists", "anchors": ["amelie/db/transaction/write.h", "amelie/db/transaction/write_log.h: write_log_add", "amelie/db/transaction/record.h", "amelie/db/db/recover.c"]}
{"id": "C14", "title": "WAL checksum detects corruption", "statement": "A record whose stored bytes differ from the written ones in any single burst of at most 32 bits fails validation (so it is never replayed as valid).", "quantifier": "every record and every burst position and pattern", "why_tests_cant": "2^32 patterns at each of unboundedly many positions", "anchors": ["amelie/runtime/lib/crc.c", "amelie/db/transaction/record.h: record_validate", "amelie/db/transaction/write.h: write_end"]}
{"id": "C15", "title": "Crash recovery yields a prefix of the committed transactions", "statement": "After a crash at any point of a WAL write, restart recovers exactly the effects of all the records that were completely written, in LSN order, and nothing of the record that was being written.", "quantifier": "every log content and every crash offset inside the last write", "why_tests_cant": "crash can happen after any byte", "anchors": ["amelie/db/wal/wal_file.h: wal_file_pread", "amelie/db/wal/wal_cursor.c", "amelie/db/wal/wal.c", "amelie/db/db/recover.c"]}
{"id": "C16", "title": "Commits acknowledged after a crash recovery survive the next restart", "statement": "If the server crashes in the middle of a WAL write, restarts and then acknowledges new commits, those commits are recovered by the following restart.", "quantifier": "every torn-write length and every sequence of later commits", "why_tests_cant": "needs two consecutive restarts with a torn tail of arbitrary length", "anchors": ["amelie/db/wal/wal.c: wal_open, wal_write", "amelie/db/wal/wal_cursor.c"]}
{"id": "C17", "title": "WAL garbage collection keeps needed records", "statement": "WAL GC never deletes a file containing a record that is newer than the checkpoint of some partition or not yet read by some replication slot.", "quantifier": "every set of WAL files, every set of slots and every checkpoint LSN", "why_tests_cant": "needs several slots or slots and checkpoints at different positions", "anchors": ["amelie/db/wal/wal.c: wal_gc, wal_slots", "amelie/runtime/lib/id_mgr.h: id_mgr_gc_between", "amelie/db/service/op.c: service_gc"]}
{"id": "C18", "title": "WAL cursor returns every record from an LSN", "statement": "Opening the log at any LSN L that is still covered by the files and reading until the end returns exactly the records with LSN >= L, in order, across any number of rotated files.", "quantifier": "every log content, every split into files and every start LSN", "why_tests_cant": "file boundaries may fall anywhere", "anchors": ["amelie/db/wal/wal_cursor.c: wal_cursor_open, wal_cursor_next", "amelie/runtime/lib/id_mgr.h: id_mgr_find, id_mgr_next", "amelie/db/wal/wal.c: wal_rotate"]}
{"id": "C19", "title": "Replay is idempotent with respect to snapshots", "statement": "Recovering a partition from a snapshot taken at LSN S and replaying the log from any earlier position gives the same table content as replaying the whole log from an empty table.", "quantifier": "every log, every snapshot LSN and every replay start position not after it", "why_tests_cant": "ranges over all combinations of snapshot position and log", "anchors": ["amelie/db/db/recover.c: recover_cmd", "amelie/db/part/part_op.c: part_apply"]}
{"id": "C20", "title": "Recovery handles logged schema changes", "statement": "Replaying a log that contains DDL records already included in the catalog skips exactly those records and continues with the next record of the log.", "quantifier": "every DDL payload", "why_tests_cant": "the payload bytes of the DDL decide where replay continues", "anchors": ["amelie/db/db/recover.c", "amelie/db/transaction/record.h: record_cmd_skip"]}
{"id": "C21", "title": "Partition refresh is crash safe", "statement": "If the server crashes at any point of a background partition refresh (snapshot rewrite), restart finds either the old or the new image of the partition; committed data is never lost.", "quantifier": "every crash point between the file system operations of the refresh", "why_tests_cant": "needs crash injection between each pair of file operations", "anchors": ["amelie/db/service/refresh.c: refresh_complete_job", "amelie/db/service/flush.c", "amelie/db/service/service_recover.c", "amelie/db/service/service_file.h"]}
{"id": "C22", "title": "Storage file names identify the object", "statement": "The name given to an object file encodes its id, version and state, and scanning the directory at startup decodes exactly the same id, version and state.", "quantifier": "every id, version and state", "why_tests_cant": "unbounded ids; only some (version, state) pairs are affected", "anchors": ["amelie/db/storage/id.h: id_path, id_of"]}
{"id": "C23", "title": "Heap allocations never overlap and are large enough", "statement": "Every row allocated by a partition heap gets a block at least as large as requested, and two live blocks never overlap, for any history of allocations and releases.", "quantifier": "every sequence of allocations (any size accepted) and releases", "why_tests_cant": "allocation histories are unbounded", "anchors": ["amelie/db/heap/heap.c: heap_add, heap_remove", "amelie/db/heap/heap.h: heap_bucket_of"]}
{"id": "C24", "title": "Partition snapshots are point-in-time consistent", "statement": "A snapshot image of a partition written while transactions continue contains exactly the rows that were present when the snapshot was started.", "quantifier": "every sequence of row allocations and releases concurrent with the snapshot", "why_tests_cant": "concurrent history dependent", "anchors": ["amelie/db/heap/heap.c: heap_snapshot, heap_add, heap_remove", "amelie/db/service/refresh.c"]}
{"id": "C25", "title": "Binary JSON round trip", "statement": "Every JSON value encoded in the internal binary format (integers of any sign and size, strings up to 2 GiB, nested objects and arrays) decodes to the same value, and skipping an encoded value moves exactly to its end.", "quantifier": "every JSON value (any nesting depth and size) followed by any bytes", "why_tests_cant": "unbounded nesting and all integer/size class boundaries", "anchors": ["amelie/runtime/json/json.h", "amelie/runtime/json/json_op.h: json_skip", "amelie/runtime/json/encode.h"]}
{"id": "C26", "title": "JSON reals survive storage", "statement": "A floating point number stored inside a JSON value is read back unchanged.", "quantifier": "every double", "why_tests_cant": "2^64 values; depends on the exact float32 narrowing rule", "anchors": ["amelie/runtime/json/json.h: json_write_real, json_read_real"]}
{"id": "C27", "title": "JSON comparison is a total order", "statement": "Comparing JSON values (ORDER BY, GROUP BY, MIN/MAX on JSON) is reflexive, antisymmetric and transitive, and returns equal only for equal values.", "quantifier": "every pair/triple of JSON values", "why_tests_cant": "ranges over triples of unbounded values", "anchors": ["amelie/runtime/json/json_compare.h: json_compare"]}
{"id": "C28", "title": "JSON object field access", "statement": "Looking up a key in a stored JSON object returns the value of that key and null/absence iff the key is not in the object; array index access returns the element at that position.", "quantifier": "every object/array, any nesting, every key", "why_tests_cant": "nested values must be skipped correctly for every content", "anchors": ["amelie/runtime/json/json_op.h: json_obj_find, json_array_find"]}
{"id": "C29", "title": "JSON text round trip", "statement": "Exporting a JSON value to text and parsing that text gives back the same value.", "quantifier": "every JSON value without reals", "why_tests_cant": "every combination of escapes, nesting and numbers", "anchors": ["amelie/runtime/json/json_export.c", "amelie/runtime/json/json_parser.c", "amelie/runtime/json/escape.h"]}
{"id": "C30", "title": "String escape round trip", "statement": "Unescaping an escaped string returns the original bytes, and unescaping never outputs a byte that does not come from its input.", "quantifier": "every byte string", "why_tests_cant": "all sequences of special characters", "anchors": ["amelie/runtime/json/escape.h: escape_str, unescape_str"]}
{"id": "C31", "title": "Row encoding round trip", "statement": "A row created from a list of column values reads back every column value and every NULL unchanged, for any mix of fixed size, string and null columns and any total size.", "quantifier": "every column layout and values", "why_tests_cant": "offset width depends on total row size; boundaries at 255 and 65535 bytes", "anchors": ["amelie/db/row/row.h", "amelie/vm/value/row.c: row_create"]}
{"id": "C32", "title": "Key comparison is a total order", "statement": "The comparison used by ordered indexes over multi-column keys is a total order consistent with the column values.", "quantifier": "every key definition and every triple of rows", "why_tests_cant": "ranges over triples of rows", "anchors": ["amelie/db/row/compare.h: compare"]}
{"id": "C33", "title": "UUID text round trip", "statement": "Formatting a UUID and parsing the text gives the same UUID; parsing any accepted text and formatting it gives the text back in lower case.", "quantifier": "all 2^128 UUIDs and all 36 character strings", "why_tests_cant": "2^128 values", "anchors": ["amelie/runtime/lib/uuid.c"]}
{"id": "C34", "title": "Base64 round trip", "statement": "Decoding an encoded byte string returns the original bytes, for both the standard and the URL-safe variant; decoding never reads outside its tables.", "quantifier": "every byte string", "why_tests_cant": "all lengths modulo 3 and all byte values", "anchors": ["amelie/runtime/lib/base64.c", "amelie/runtime/lib/base64url.c"]}
{"id": "C35", "title": "Date conversions", "statement": "Every date in the supported range printed as yyyy-mm-dd parses back to the same date, day arithmetic is exact, and the printed calendar fields are a valid Gregorian date; text that is not a valid calendar date is rejected.", "quantifier": "all dates between 0001-01-01 and 9999-12-31 and all 10-character inputs", "why_tests_cant": "leap year rules over 3.6 million days and all malformed inputs", "anchors": ["amelie/runtime/lib/date.c", "amelie/runtime/lib/date.h"]}
{"id": "C36", "title": "Interval text round trip and arithmetic", "statement": "Formatting an interval and parsing it gives the same interval; add, subtract and negate are exact; truncating or extracting a field behaves the same for positive and negative intervals.", "quantifier": "every interval (32-bit months, 32-bit days, 64-bit microseconds)", "why_tests_cant": "2^128 values and sign combinations", "anchors": ["amelie/runtime/lib/interval.c"]}
{"id": "C37", "title": "Timestamp text round trip", "statement": "Every supported timestamp printed in a session time zone parses back to the same instant.", "quantifier": "every timestamp in range and every time zone offset", "why_tests_cant": "depends on offsets near the range limits and on fractional digits", "anchors": ["amelie/runtime/lib/timestamp.c"]}
{"id": "C38", "title": "Integer arithmetic never wraps silently", "statement": "Integer addition, subtraction and multiplication in expressions return the exact mathematical result or an error.", "quantifier": "all pairs of 32/64-bit integers", "why_tests_cant": "2^128 pairs", "anchors": ["amelie/runtime/base/overflow.h"]}
{"id": "C39", "title": "LIKE matches SQL semantics", "statement": "str LIKE pattern is true exactly when the pattern matches the whole string, where % matches any sequence, _ one character and backslash escapes.", "quantifier": "every UTF-8 string and pattern", "why_tests_cant": "backtracking cases are unboundedly many", "anchors": ["amelie/vm/value/like.c: value_like", "amelie/runtime/lib/utf8.h"]}
{"id": "C40", "title": "GROUP BY / DISTINCT keep one row per key", "statement": "Adding rows to a grouping set gives each distinct key exactly one group, returns the same group for equal keys, and keeps groups in first-seen order, at any number of groups.", "quantifier": "every sequence of keys and every hash function consistent with equality", "why_tests_cant": "collision chains and resizes of the hash", "anchors": ["amelie/vm/set/set.c: set_upsert", "amelie/vm/set/set_hash.h"]}
{"id": "C41", "title": "LIMIT and OFFSET", "statement": "A result with OFFSET o and LIMIT l is exactly the rows o..o+l-1 of the full result.", "quantifier": "every result, offset and limit >= 0", "why_tests_cant": "all combinations of sizes", "anchors": ["amelie/vm/set/union_iterator.h: union_iterator_open, union_iterator_next"]}
{"id": "C42", "title": "UNION / DISTINCT merge", "statement": "UNION returns each distinct row once, in order, and UNION ALL returns all rows of all inputs.", "quantifier": "every list of inputs", "why_tests_cant": "duplicate runs may span any number of inputs", "anchors": ["amelie/vm/set/union_iterator.h: union_iterator_step_distinct, union_iterator_step_all"]}
{"id": "C43", "title": "IN follows three-valued logic", "statement": "value IN (list) is NULL for a NULL value, TRUE if some element equals it, NULL if none does but some element is NULL, FALSE otherwise.", "quantifier": "every value, list and subquery results inside the list", "why_tests_cant": "NULL combinations in unbounded lists", "anchors": ["amelie/vm/set/in.c: value_in"]}
{"id": "C44", "title": "Lock compatibility", "statement": "At every moment the set of locks granted on a relation is pairwise compatible (an exclusive lock excludes all others; exclusive read-only excludes writers).", "quantifier": "every sequence of lock and unlock requests by any number of sessions", "why_tests_cant": "schedules are unbounded", "anchors": ["amelie/runtime/runtime/lock_mgr.h: lock_resolve, lock_mgr_lock_of, lock_mgr_unlock"]}
{"id": "C45", "title": "Lock requests are granted in order and never lost", "statement": "A waiting lock request is granted as soon as it and all earlier requests are compatible with the granted ones; no later request overtakes an earlier waiting one.", "quantifier": "every sequence of lock and unlock requests", "why_tests_cant": "schedules are unbounded", "anchors": ["amelie/runtime/runtime/lock_mgr.h"]}
{"id": "C46", "title": "Sessions cannot deadlock on table locks", "statement": "Sessions that take the locks of a statement in relation order never form a cycle of waits: whenever some session waits, some lock-holding session is not waiting.", "quantifier": "every number of sessions, every access list, every interleaving", "why_tests_cant": "cycles need particular interleavings", "anchors": ["amelie/runtime/runtime/access.h: access_add, access_merge, access_sort", "amelie/runtime/runtime/lock_mgr.h: lock_mgr_lock_access"]}
{"id": "C47", "title": "Identity values are unique", "statement": "Values generated for an identity column are strictly increasing and never collide with values generated before or observed in explicitly inserted rows, including after recovery.", "quantifier": "every sequence of generate/insert operations", "why_tests_cant": "histories with explicit values and restarts", "anchors": ["amelie/db/row/sequence.h: sequence_sync, sequence_next"]}
{"id": "C48", "title": "Log sequence numbers are gap free and monotonic", "statement": "Every committed write gets the next LSN; LSNs in the log strictly increase by one across rotations and failed writes leave no trace in the log.", "quantifier": "every sequence of successful and failed writes and rotations", "why_tests_cant": "failure may strike any write", "anchors": ["amelie/db/wal/wal.c: wal_write, wal_rotate, wal_truncate"]}
{"id": "C49", "title": "Schema operations roll back", "statement": "If a DDL transaction is aborted, the set of relations (by name and id) is exactly the one before it; if committed, exactly the created relations are added and the dropped ones removed.", "quantifier": "every sequence of create/drop operations in a transaction", "why_tests_cant": "orders of create and drop of equal names", "anchors": ["amelie/db/transaction/relation_mgr.c", "amelie/db/transaction/commit.c"]}
{"id": "C50", "title": "UTF-8 validation", "statement": "The UTF-8 decoder used by the JSON and SQL scanners accepts exactly the well-formed UTF-8 sequences, never reads past the end, and character counting agrees with it.", "quantifier": "every byte string", "why_tests_cant": "all byte sequences", "anchors": ["amelie/runtime/lib/utf8.h: utf8_next, utf8_strlen, utf8_forward"]}
{"id": "C51", "title": "Lookups of cached credentials and functions", "statement": "After removing an entry from the internal hash table (token cache, user-defined function registry) every other entry is still found.", "quantifier": "every sequence of insertions and removals and every hash function", "why_tests_cant": "collision chains with removals", "anchors": ["amelie/runtime/lib/hash_table.h: hashtable_set, hashtable_delete, hashtable_get", "amelie/server/auth/auth_cache.c", "amelie/vm/func/function_mgr.c"]}
{"id": "C52", "title": "Replication applies the primary's log exactly once and in order", "statement": "A replica applies each record of the primary exactly once and in LSN order, also after disconnects and reconnects at any point.", "quantifier": "every sequence of sends, acknowledgements, disconnects", "why_tests_cant": "disconnect may happen between any two steps", "anchors": ["amelie/sync/repl/primary.c: primary_next", "amelie/sync/repl/streamer.c", "amelie/system/session/session_replay.c"]}
{"id": "C53", "title": "Ordered index stays balanced", "statement": "After any history of inserts, deletes and scans with deletes, a lookup in an ordered index compares its key with at most 2*log2(pages+1)+1 pages: deletes and splits never degenerate the index into a chain.", "quantifier": "every sequence of operations, every key order, any number of pages", "why_tests_cant": "balance is a property of every reachable shape of a red-black tree; tests see only a few shapes and do not observe the depth", "anchors": ["amelie/runtime/lib/rbtree.c: rbtree_set, rbtree_remove", "amelie/db/index/tree.c"]}
{"id": "C54", "title": "ANY and ALL follow three-valued logic", "statement": "v op ALL (rows) is FALSE when the comparison fails for some non-NULL row, else NULL when a row is NULL, else TRUE; v op ANY (rows) is TRUE when it holds for some row, else NULL when a row is NULL, else FALSE; a NULL operand gives NULL.", "quantifier": "every operator, value and list of rows or array elements", "why_tests_cant": "NULL positions and list lengths are unbounded", "anchors": ["amelie/vm/set/all.c: value_all", "amelie/vm/set/any.c: value_any"]}
{"id": "C55", "title": "AND, OR and NOT follow SQL logic", "statement": "AND, OR and NOT of any two values are those of three-valued logic, NULL being unknown: NULL AND FALSE is FALSE, NULL OR TRUE is TRUE.", "quantifier": "every pair of values of every type", "why_tests_cant": "the combination of types, NULL and evaluation order", "anchors": ["amelie/vm/vm/vm.c: cand, cor, cnot", "amelie/vm/value/compare.h: value_is_true"]}
{"id": "C56", "title": "One total order on values and rows", "statement": "The comparison behind ORDER BY, GROUP BY, DISTINCT, MIN and MAX is a total order: values of one type by value (strings by bytes, intervals by months, days, microseconds), different types by type, rows by their keys with ascending and descending columns; equal exactly when the values are the same.", "quantifier": "every pair and triple of values, rows of any width, any mix of ascending and descending", "why_tests_cant": "transitivity and antisymmetry quantify over all triples", "anchors": ["amelie/vm/value/compare.h: value_compare, store_compare", "amelie/vm/set/set.c: set_sort"]}
{"id": "C57", "title": "Distributed aggregates equal the aggregates of all rows", "statement": "For SELECT k.., agg(..).. GROUP BY k.. over a partitioned table the result has exactly one row per distinct key that occurs in any partition, and COUNT, MIN, MAX, SUM, AVG (with DISTINCT or not) of each row are those of all non-NULL values of the group, however the rows are spread over the partitions.", "quantifier": "every distribution of every set of rows over any number of partitions, every list of aggregates", "why_tests_cant": "the number of rows, groups, partitions and the collisions and resizes of the hash sets are unbounded", "anchors": ["amelie/vm/set/agg.c: agg_write, agg_merge_sets, agg_merge_set_distinct", "amelie/vm/set/set.c: set_upsert", "amelie/vm/vm/vm.c: cset_agg"]}
{"id": "C58", "title": "AVG over integers is the quotient of sum and count", "statement": "AVG over an integer column is the sum of the values divided by their count, rounded towards zero, for every set of values whose sum fits into 64 bits.", "quantifier": "every list of integers", "why_tests_cant": "the values, including all negative sums, are unbounded", "anchors": ["amelie/runtime/lib/avg.h: avg_int", "amelie/vm/vm/vm.c: cavgi"]}
{"id": "C59", "title": "Truncating the log at an LSN keeps exactly the earlier transactions", "statement": "Truncating the log at an LSN L (after any history, and after a write torn at any byte) leaves files from which recovery reads exactly the transactions with an LSN up to L that the files contained; everything after L and all torn bytes are gone.", "quantifier": "every history of commits, failed writes, rotations, garbage collections and restarts, every torn length, every L at or above the first remaining LSN", "why_tests_cant": "file boundaries, torn bytes and the LSN may fall anywhere", "anchors": ["amelie/db/wal/wal.c: wal_truncate", "amelie/db/wal/wal_file.h: wal_file_truncate"]}
{"id": "C60", "title": "The checksum does not depend on the machine", "statement": "The table-driven checksum and the one that uses the CPU instruction give the same value for every buffer, every address (alignment) and every starting checksum, and a checksum computed in parts equals the checksum of the whole: files written on one machine validate on another.", "quantifier": "every buffer, alignment, starting value and split into parts", "why_tests_cant": "2^8n buffers of each length; the alignment loop, the eight-byte loop and the tail all depend on the address and length", "anchors": ["amelie/runtime/lib/crc.c: crc32, crc32_sse"]}
{"id": "C61", "title": "The lock of a statement covers all its uses of a table", "statement": "A statement that uses a table in several ways (for example updates it and reads it in a subquery) excludes other sessions from everything that any of these uses excludes while it runs.", "quantifier": "every list of uses of every table by a statement, every other session", "why_tests_cant": "combinations of uses and of concurrent statements are unbounded; the damage needs a particular interleaving", "anchors": ["amelie/runtime/runtime/access.h: access_add", "amelie/runtime/runtime/lock_mgr.h: lock_resolve", "amelie/compiler/parser/parse_update.c", "amelie/compiler/parser/parse_expr.c"]}
{"id": "C62", "title": "String functions count and cut characters", "statement": "LENGTH, SUBSTR, STRPOS, REPLACE, TRIM/LTRIM/RTRIM, LOWER and UPPER work on characters, not bytes: LENGTH is the number of characters, SUBSTR the characters from a position (or an error), STRPOS the first position, REPLACE replaces all occurrences from left to right, TRIM removes exactly the characters of the filter at the ends, and LOWER/UPPER change the ASCII letters only. No function reads outside of its string.", "quantifier": "every valid string of any length, every position, count, filter and pattern", "why_tests_cant": "strings mix characters of 1 to 4 bytes at any offsets; positions and counts are 64-bit integers", "anchors": ["amelie/vm/func/fn_string.c", "amelie/runtime/lib/utf8.h"]}
{"id": "C63", "title": "Local times use the offset of the time zone that is in force", "statement": "Printing, parsing and extracting timestamps in a named time zone uses, for every instant, the offset of the last transition of the zone that is not later than the instant.", "quantifier": "every zone file (any number of transitions) and every instant", "why_tests_cant": "zone files have hundreds of transitions and the search depends on their number and on the instant", "anchors": ["amelie/runtime/lib/timezone.c: timezone_match, timezone_create"]}
{"id": "C64", "title": "DATE_TRUNC, DATE_BIN and EXTRACT", "statement": "DATE_TRUNC returns the first instant of the unit (year ... microsecond) that contains the timestamp in the given time zone, DATE_BIN the last multiple of the span after the origin that is not later than the timestamp, EXTRACT the fields of the local time.", "quantifier": "every timestamp, unit, zone offset, span and origin", "why_tests_cant": "about 2.5 * 10^17 timestamps, 2^96 intervals", "anchors": ["amelie/vm/func/fn_time.c: fn_date_bin, fn_date_trunc, fn_extract", "amelie/runtime/lib/timestamp.c: timestamp_trunc, timestamp_extract"]}
{"id": "C65", "title": "Timestamp arithmetic is exact or an error", "statement": "Adding or subtracting an interval to a timestamp or a date gives exactly the shifted instant (for months: the same day and time of the target month, counted from its first day), or an error if the result is not a valid timestamp; the difference of two timestamps brings one back to the other.", "quantifier": "every timestamp or date and every interval", "why_tests_cant": "the fields of an interval are 32 and 64 bit integers: 2^128 combinations with the fields of a timestamp, with carries between them", "anchors": ["amelie/runtime/lib/timestamp.c: timestamp_add, timestamp_sub, timestamp_get_unixtime", "amelie/vm/vm/vm.c: caddtl, csubtl, csubtt, cadddl, csubdl"]}
{"id": "C66", "title": "JSON texts of the standard are parsed to their value", "statement": "Parsing a JSON text of RFC 8259 stores exactly the value it stands for; any other text is an error, and whatever is accepted, what is stored is the well-formed binary form of one value; the parser terminates and never reads outside of the text.", "quantifier": "every byte string", "why_tests_cant": "all nestings, white space, escapes and numbers, valid or not", "anchors": ["amelie/runtime/json/json_parser.c: json_parse", "amelie/runtime/json/escape.h: unescape_str"]}
{"id": "C67", "title": "A search by the first columns of a key starts at the right row", "statement": "For a search by values of the first columns of a primary key or index, the scan starts at the first row whose key is not lower than the values: rows that have the values are never skipped, and with a value for every column exactly the row with this key is found.", "quantifier": "every table, key, row and list of values for the first columns of the key", "why_tests_cant": "all combinations of key types and boundary values (least values of the columns that are not given)", "anchors": ["amelie/vm/value/row.c: row_create_key", "amelie/db/row/compare.h: compare"]}
{"id": "C68", "title": "Only a valid token lets a request in", "statement": "A request with a token is accepted, as a user, only if the token is signed with the secret of the user it names, has not expired and the user exists now; every such token is accepted; without a token a request is accepted only if the listener does not require one; no token, valid or not, makes the server misbehave.", "quantifier": "every sequence of requests with arbitrary tokens and times and of changes of the users, every digest and hash function", "why_tests_cant": "a forged token that shares a digest with an earlier one is one history among unboundedly many", "anchors": ["amelie/server/auth/auth.c: auth_run, auth_sync", "amelie/server/auth/auth_cache.c", "amelie/server/auth/jwt_decode.c: jwt_decode, jwt_decode_validate", "amelie/runtime/lib/base64url.c: base64url_decode", "amelie/system/frontend/frontend_client.c: frontend_auth"]}
{"id": "C69", "title": "The catalog survives a restart", "statement": "The catalog file a checkpoint writes is read at the next start to the same storages, databases, tables (columns with their types and constraints, dropped columns, indexes, partitions, tiers) and functions.", "quantifier": "every catalog: any number of objects, any names, types, defaults, function texts and order of creation", "why_tests_cant": "catalogs are unbounded; the file goes through encoders, JSON text, a parser and field-wise readers", "anchors": ["amelie/db/catalog/catalog_file.c: catalog_write_prepare, catalog_restore", "amelie/db/catalog/table_config.h", "amelie/db/row/column.h: column_write, column_read, column_copy", "amelie/db/row/constraints.h", "amelie/db/index/index_config.h", "amelie/db/tier/tier_config.h", "amelie/db/storage/volume.h", "amelie/runtime/json/decode.h: decode_obj"]}
{"id": "C70", "title": "Writing the catalog file is atomic", "statement": "If the server or the machine stops at any point while the catalog file is rewritten, the next start reads the old or the new catalog as a whole; a write that returned is what the next start reads.", "quantifier": "every crash point between and inside system calls, every old and new catalog, repeated crashes", "why_tests_cant": "crash points inside a file replacement cannot be enumerated by running the program", "anchors": ["amelie/db/catalog/catalog_file.c: catalog_read, catalog_write", "amelie/runtime/os/vfs.c: vfs_write"]}
{"id": "C71", "title": "Committed schema changes and rows survive a restart together", "statement": "A server that ends at any point and is started again starts, and shows the tables and the rows of exactly the statements that were logged, in their order, no matter which partitions were written, when the catalog file was written and which log files were removed in between.", "quantifier": "every history of transactions, CREATE/ALTER/DROP/TRUNCATE TABLE, checkpoints in parts, removals of log files, crashes in the middle of statements and restarts", "why_tests_cant": "the recovery depends on how the catalog file, each partition file and the log relate, after any number of restarts", "anchors": ["amelie/db/db/recover.c: recover_next, recover_map", "amelie/db/service/op.c: service_checkpoint, service_gc", "amelie/system/session/session.c", "amelie/db/catalog/catalog_file.c: catalog_restore", "amelie/db/part/part_mgr.c", "amelie/db/part/part_mgr_recover.c", "amelie/db/part/part.c: part_open, part_truncate"]}
{"id": "C72", "title": "Indexes agree with the rows, also after a restart", "statement": "CREATE INDEX succeeds exactly if no two rows have the same key, and then every index of the table has one entry per row under its key and no other; after a restart every index again agrees with the rows, so that a search by it finds the same rows and a unique index rejects the same inserts as before.", "quantifier": "every table content, every history of transactions and CREATE INDEX, every position of the partition file and of the catalog file in this history", "why_tests_cant": "whether an index is complete after recovery depends on when the index was created relative to two files and to each record of the log", "anchors": ["amelie/db/service/indexate.c: indexate_next", "amelie/db/part/part_op.c: part_insert, part_update, part_apply", "amelie/db/db/recover.c: recover_next", "amelie/db/part/part.c: part_open", "amelie/db/service/op.c: service_checkpoint"]}
{"id": "C73", "title": "CREATE INDEX works while others write", "statement": "CREATE INDEX with transactions running from its start to its end succeeds exactly if no two rows have the same key at its end, and then every index agrees with the rows those transactions leave; if it fails, the table behaves as if it had never been tried, now and at every later checkpoint and restart.", "quantifier": "every table content and every sequence of concurrent transactions, committed or failed", "why_tests_cant": "the outcome depends on which rows the concurrent transactions touch and on how the two heaps are merged", "anchors": ["amelie/db/service/indexate.c: indexate_begin, indexate_job, indexate_apply, indexate_abort", "amelie/db/heap/heap.c: heap_add, heap_remove, heap_snapshot", "amelie/db/part/part_op.c: part_apply"]}
{"id": "C74", "title": "A checkpoint of a partition is transparent to writers", "statement": "A checkpoint of a partition with transactions running from its start to its end writes exactly the rows of its start; afterwards the rows and all indexes are what those transactions alone would have left.", "quantifier": "every table content and every sequence of concurrent transactions, committed or failed", "why_tests_cant": "rows written meanwhile are placed elsewhere and copied back; any interleaving of inserts, updates, deletes and aborts is possible", "anchors": ["amelie/db/service/refresh.c: refresh_begin, refresh_snapshot_job, refresh_apply", "amelie/db/heap/heap.c: heap_add, heap_remove, heap_snapshot", "amelie/db/part/part_op.c: part_apply"]}
{"id": "C75", "title": "An index never changes the result of a query", "statement": "A SELECT, UPDATE or DELETE of a table finds exactly the rows for which WHERE is true, each once, whatever indexes and partitions the table has and whichever index is used: creating, dropping or naming an index (USE INDEX) only changes the speed.", "quantifier": "every table content, set of indexes and partitions, WHERE of AND, comparisons, BETWEEN and any other conditions, and every choice of the index", "why_tests_cant": "which comparisons become bounds of an index, which partition is asked and where the scan stops depends on the shape of the condition, the order of its parts and the values of the rows together", "anchors": ["amelie/compiler/plan/path.c: path_key, path_start, path_stop, path_value, path_create", "amelie/compiler/plan/path_op.h: path_ops_add", "amelie/compiler/plan/path_prepare.c: path_prepare_target", "amelie/compiler/compiler/scan.c: scan_key, scan_stop, scan_table", "amelie/compiler/compiler/compiler.c", "amelie/vm/vm/command.c: ctable_open", "amelie/db/part/cursor.c: cursor_open"]}
{"id": "C76", "title": "Functions that change JSON values change exactly what they name", "statement": "set(object, path, value) gives the object with the value at the path, every other path keeps its value and no field is added, lost or renamed other than the one of the path; unset(object, path) removes the path and nothing else; append, push, pop, pop_back, put and remove of an array give the array with exactly the named item added, replaced or removed; a path through something that is no object and an index that does not exist are errors.", "quantifier": "every JSON object or array (any depth and encoding widths), every path, value and index", "why_tests_cant": "the functions work on the encoded bytes with a position, a path and a found flag shared by the recursive calls: the result depends on the place of the path among all other fields at every level", "anchors": ["amelie/vm/value/update.c: update_set, update_set_next, update_unset, update_unset_next, update_read", "amelie/vm/value/json_array.h: value_array_append, value_array_push, value_array_pop, value_array_pop_back, value_array_put, value_array_remove", "amelie/vm/func/fn_json.c", "amelie/runtime/json/json_op.h: json_array_last"]}
{"id": "C77", "title": "The operators of an expression group by their precedence", "statement": "An SQL expression is read with the tree of the usual precedence of SQL: OR, AND, NOT, = <> IS LIKE, < <= > >= BETWEEN IN, | ^ & shifts, + - ||, * / %, unary - and ~, then [index] .field ::method; operators of one level group from the left, parentheses, calls, lists, objects and CASE contain whole expressions, and nothing behind the expression is read", "quantifier": "every sequence of tokens of the grammar, of any length and nesting, and whatever token follows it", "why_tests_cant": "the parser reduces two stacks by priority and calls itself for operands of BETWEEN, LIKE, IN, ANY, AT TIMEZONE, with flags for AND/OR and unary operators: the tree of an operator depends on every operator before it on the stack", "anchors": ["amelie/compiler/parser/parse_expr.c: priority_map, expr_pop, expr_operator, expr_value, expr_case, parse_expr_args, parse_unary, parse_op, parse_expr"]}
{"id": "C78", "title": "A compiled expression computes the value of the expression", "statement": "The operations compiled for an expression, run with any values of the columns, variables and arguments, leave the value of the expression (operators by the types of the operands, NULL if an operand is NULL, CASE by its first true WHEN, BETWEEN, IN, calls, arrays, objects) or fail exactly if the value fails; whatever else the statement keeps in registers or on the stack is not touched.", "quantifier": "every expression the compiler accepts (any nesting), every place in a statement and set of registers in use, every values of the inputs", "why_tests_cant": "the code depends on which registers are free at each point, on jumps that are set later and on operands freed by the operations: the same operator compiles to other operations in other places", "anchors": ["amelie/compiler/compiler/emit_expr.c: emit_expr, emit_operator, emit_case, emit_between, emit_in, emit_is, emit_push", "amelie/compiler/compiler/cast.c: cast_op, cast_operator", "amelie/compiler/compiler/rmap.h", "amelie/compiler/compiler/compiler_op.h", "amelie/vm/vm/vm.c: vm_run", "amelie/vm/value/null.h", "amelie/vm/value/compare.h: value_is_true"]}
{"id": "C79", "title": "Messages between threads are delivered once, in order, and wake the receiver", "statement": "A message sent to another thread is received exactly once, messages of one sender in the order they were sent; a signal of an event makes its thread run after the signal, however often and by however many threads it is signaled; a receiver that sleeps is woken up, and no thread waits forever for a free place, for its turn or for a wake-up.", "quantifier": "every number of threads and messages, every interleaving of their accesses to the shared memory (sequentially consistent), every ring of 2^k places, every other reason to wake up", "why_tests_cant": "a lost wake-up or a slot that is overwritten needs one particular interleaving of single memory accesses of three threads; a test sees a few of them", "anchors": ["amelie/runtime/base/ring.h: ring_write, ring_read, ring_pending", "amelie/runtime/base/bus.h: bus_send, bus_step, bus_set_sleep", "amelie/runtime/base/ipc.h: ipc_ref, ipc_unref", "amelie/runtime/base/notify.c: notify_signal, notify_cb", "amelie/runtime/base/task.c: mainloop"]}
{"id": "C80", "title": "A session that sleeps wakes up once, in time, and not before", "statement": "A call of sleep(ms) returns exactly once: by its timer or because the session was cancelled, never by both. A round of the loop of the thread wakes up exactly the sessions whose time has come, in the order of their ends (ties in the order of their beginnings), and the thread does not wait past the end of the next sleep. No session is woken up before the clock reached the beginning of its sleep plus ms, and the time a statement sees (CURRENT_TIMESTAMP, the expiration of a token) is the time of the clock.", "quantifier": "every clock value, every sequence of sleeps, cancellations, reads of the time and rounds of the loop of a thread with any durations, and every int64 argument", "why_tests_cant": "Whether a timer is lost, runs twice or early depends on the order of all sleeps of a thread and on when other messages arrive between two rounds of the loop; the early wake up needs a second session that waits while the first one begins.", "anchors": ["amelie/runtime/base/timer_mgr.c: timer_mgr_update, timer_mgr_step, timer_mgr_cmp, timer_mgr_add, timer_mgr_remove", "amelie/runtime/base/timer_mgr.h: timer_mgr_reset, timer_mgr_time_ms, timer_start, timer_stop", "amelie/runtime/base/task.c: mainloop", "amelie/runtime/base/wait.h: wait_event_time", "amelie/vm/func/fn_misc.c: fn_sleep"]}
{"id": "C81", "title": "The requests of a connection are read as they were sent, however they arrive", "statement": "Any sequence of HTTP requests on one connection is read as exactly these requests, each with its method, url, headers and content, whatever pieces the bytes arrive in (also when one piece holds the end of a request and the beginning of the next). What is read never depends on the pieces. No stream of bytes makes the reader leave its buffers. What the client of this project writes (url, token, content) and what the server replies is read by the other side as it was meant.", "quantifier": "every list of requests with any methods, urls, headers and bodies, every cut of their bytes into pieces, every byte stream that is not HTTP, every endpoint of a client and every reply", "why_tests_cant": "The cut of a stream into pieces is chosen by the network; a test uses a handful of cuts and short headers.", "anchors": ["amelie/runtime/os/readahead.h: readahead_read, readahead_pushback", "amelie/server/http/http.c: http_read_header, http_read, http_read_content_limit, http_find, http_begin_request, http_begin_reply", "amelie/system/frontend/frontend_client.c: frontend_client, frontend_auth", "amelie/server/client/client_io.h: client_send, client_recv"]}
{"id": "C82", "title": "INSERT inserts the rows it says, each time it is executed", "statement": "Each execution of an INSERT ... VALUES inserts, for each of its rows, the row with the given literals, the current values of the given variables, the defaults, a new number in an identity column that is given none, and each stored generated column computed from that row. It does so each time it is executed (in a loop or in a function that is called again), in order within a partition, whenever the threads of the partitions execute their requests, and it fails only if a row breaks a NOT NULL constraint.", "quantifier": "every table (constraints, defaults, identity, stored expressions), every list of rows, all values of the variables, every number of executions, every interleaving with the threads of the partitions, every mapping of keys to partitions", "why_tests_cant": "The rows live in the compiled program and pass through the stack of the virtual machine; whether they are the same at the next execution or when another thread reads them depends on the history, and a test executes a statement once with literals.", "anchors": ["amelie/compiler/parser/parse_row.c: parse_rows, parse_row, parse_row_list", "amelie/compiler/parser/parse_value.c: parse_value, parse_value_default, parse_value_validate", "amelie/compiler/compiler/compiler.c: emit_send", "amelie/compiler/compiler/emit_insert.c: emit_insert_store, emit_insert_store_generated_on_match", "amelie/vm/vm/command.c: csend_shard, cupdate_store, cinsert", "amelie/vm/value/row.h: row_get_identity, row_map", "amelie/vm/value/row.c: row_create", "amelie/vm/value/value_data.h: value_data_encode", "amelie/vm/vm/vm.c: cpush_var, cset_ptr, cstore_read"]}
{"id": "C83", "title": "INSERT ... ON CONFLICT changes exactly the rows it names, and RETURNING shows them", "statement": "An INSERT ... ON CONFLICT DO NOTHING, ERROR or UPDATE SET ... WHERE (and INSERT ... RETURNING) handles the given rows in order: a row with a new key is inserted, for a key that is there the old row stays, is an error, or gets exactly the assigned columns, computed from the old row and from EXCLUDED, the row proposed for insertion. RETURNING gives one result for every given row, computed from the row its key has then. Keys stay unique, no key is lost, rows with other keys do not change, a violation of NOT NULL or of another unique index is an error. The statement is accepted exactly if SET names existing columns that are in no key, each once.", "quantifier": "every table (constraints, widths of the columns, key, other unique indexes), every content, every list of rows (also the same key many times), every SET list, condition and RETURNING list, both kinds of primary index", "why_tests_cant": "The emitted program jumps between the loop of the insert, the conflict code and the returning code; whether it ends in the same table as the statement means depends on the whole list of rows and the content of the table, and the hash index goes wrong only at the insert that enlarges it.", "anchors": ["amelie/compiler/compiler/emit_upsert.c: emit_upsert", "amelie/compiler/compiler/emit_update.c: emit_update_target", "amelie/vm/vm/command.c: ctable_prepare, cupsert, cupdate", "amelie/vm/vm/vm.c: cexcluded", "amelie/vm/value/row.c: row_create, row_update", "amelie/db/part/part_op.c: part_upsert, part_update", "amelie/db/index/index_hash.c: index_hash_upsert", "amelie/db/index/hash_iterator.h: hash_iterator_open_at", "amelie/db/index/hash.h: hash_get_or_set"]}
{"id": "C84", "title": "SELECT returns the selected rows in the order, and the window, it asks for", "statement": "SELECT ... WHERE ... ORDER BY ... LIMIT n OFFSET m (or SELECT DISTINCT) returns rows m to m+n-1 of all rows that satisfy WHERE, ordered as ORDER BY says (or of the different ones), whatever the partitions of the table, whichever index is read and wherever the statement stands. A subquery does not change the values of the statement around it, and every LIMIT and OFFSET that is accepted has a result.", "quantifier": "every query (any expressions, WHERE, ORDER BY with ASC and DESC, DISTINCT, LIMIT, OFFSET), any number of partitions with any rows, tree or hash index, any content of the stack before", "why_tests_cant": "Which plan is taken depends on the query and the index, LIMIT is applied three times (scan, partition, merge) with different limits, and whether the cut loses a row depends on how the rows lie in the partitions.", "anchors": ["amelie/compiler/plan/plan.c: plan_main, plan_order_by, plan_scan", "amelie/compiler/plan/plan_pushdown.c: plan_pushdown", "amelie/compiler/compiler/emit_select.c: emit_select_on_match, cmd_scan, cmd_sort, cmd_union, cmd_recv, emit_plan", "amelie/compiler/compiler/scan.c: scan, scan_on_match", "amelie/compiler/parser/parse_order.h: ast_order_list_match_index", "amelie/vm/vm/vm.c: cset_add, cset_sort, cunion", "amelie/vm/set/set.c: set_add, set_sort", "amelie/vm/set/union.c"]}
{"id": "C85", "title": "A statement is read as the tokens it spells", "statement": "The text of a statement is read as a sequence of tokens: integers, reals, symbols, operators of two characters, keywords (in any case), names, names with dots, quoted names and string literals, separated by white space and comments. For every text of such words the tokens are exactly those that the words spell, with the position of every word; every other sequence of bytes is refused; nothing outside of the text is read; the value of a string literal is the text between its quotes with the escapes replaced.", "quantifier": "all texts (any bytes), all sequences of tokens and separators between them, all string literals", "why_tests_cant": "The words (keywords in any case, dots, quotes, comments, escapes, neighbouring words without a space) combine without limit; tests read a few hundred statements.", "anchors": ["amelie/compiler/parser/lex.c: lex_next, lex_keyword_match", "amelie/compiler/parser/keyword.c: keywords, keywords_alpha", "amelie/compiler/parser/lex.h: lex_push", "amelie/runtime/json/escape.h: unescape_str", "amelie/compiler/compiler/emit_expr.c: emit_string"]}
{"id": "C86", "title": "The answer of a request is the JSON document of its rows", "statement": "The answer of a request in JSON is a JSON text of the rows it returns: an array with all rows in order, each an object with every value under the name of its column (or, in the minimal format, an array of the values, or the value alone), whatever strings, dates, intervals, JSON values and numbers the rows have; the result of a JSON expression and the message of an error are JSON texts too. Reading the text gives the same values back. If the answer reaches the limit of its size, it is an error.", "quantifier": "all results (any number of rows and columns, any values), both formats, pretty or not, any timezone, any limit; all JSON expressions; all messages of errors", "why_tests_cant": "Whether the text is well formed depends on the content of the strings, the nesting of the JSON values, the number of rows and columns and the format; tests compare a few answers.", "anchors": ["amelie/vm/output/output_json.c: output_json_write, output_json_write_json, output_json_write_error", "amelie/vm/value/json.h: value_export", "amelie/runtime/json/json_export.c: json_export_as", "amelie/vm/output/output.h: output_ensure_limit"]}
{"id": "C87", "title": "A hot backup is the database of the moment it was taken", "statement": "When the client of a backup has received everything without an error, a server started in its directory shows exactly the statements that were committed when the backup was taken: every table, definition and row of that moment, nothing of what was executed while the backup was sent, and it goes on as any other server (what it commits survives its restarts). The backup succeeds whatever is executed meanwhile.", "quantifier": "every history of statements, checkpoints, schema changes and restarts before the backup; every interleaving of the hard links, the list of log files and the requests of the client with statements, checkpoints, removal of log files, schema changes and restarts of the server", "why_tests_cant": "which partition files, catalog and log records belong together depends on what runs between the hard links, the list of the log and the requests; a test that takes a backup of a quiet server sees none of it", "anchors": ["amelie/sync/backup/backup.c: backup_process, backup_send_file", "amelie/sync/backup/restore.c: restore_run, restore_file_remote", "amelie/db/db/snapshot_mgr.c: snapshot_mgr_create", "amelie/db/catalog/catalog_snapshot.c: catalog_snapshot", "amelie/db/wal/wal.c: wal_snapshot, wal_gc", "amelie/db/db/db.c: db_snapshot"]}
{"id": "C88", "title": "A request goes to the database, relation and options its URI names", "statement": "A request is accepted exactly if it is a POST to /v1/db/[database[/relation[/]]] with arguments ?name=value&..., to /v1/backup or to /v1/repl, and every argument names an option and has a value of its type. Then each option has the value given last (percent-encoding stands for the bytes it encodes), or its default, whatever earlier requests of the connection have set. Every database and relation can be named, whatever bytes its name has. What the client of this project asks for is what the server does. No URI makes the server read outside of it.", "quantifier": "every byte string as a URI, all headers, every history of requests on the connection, all names and values of the client", "why_tests_cant": "The URI is chosen by anyone who can connect; the parser walks over it by pointers and its result depends on the order and spelling of all arguments and on what the request before has left in the options.", "anchors": ["amelie/server/http/uri.c: uri_parse_endpoint, uri_parse_path, uri_parse_args, uri_parse_args_set, decode, decode_hex", "amelie/server/http/endpoint.c: endpoint_init, endpoint_reset", "amelie/runtime/runtime/opts.c: opts_find", "amelie/system/frontend/frontend_client.c: frontend_endpoint", "amelie/server/http/http.c: http_begin_request"]}
{"id": "C89", "title": "The console executes the statements of its input, each once and in order", "statement": "What is typed into the console (or piped into it) is executed as the statements it consists of: each once, in order, as soon as its last line is there and not before, however the statements are broken into lines, whatever strings, comments and blocks (BEGIN, IF, FOR, WHILE ... END, CASE ... END) they contain, and whatever comes behind them. Nothing of the input is lost.", "quantifier": "all lists of statements (any nesting of blocks, any strings, names and comments), all ways to break them into lines", "why_tests_cant": "Where a statement ends depends on everything before it (quotes, escapes, comments, nesting) and on what has arrived so far; tests type a few scripts.", "anchors": ["amelie/runtime/lib/separator.h: separator_skip, separator_skip_string, separator_match, separator_next, separator_read, separator_write, separator_read_leftover, separator_advance", "amelie/main/main/main_cli.c: main_console, main_execute"]}
{"id": "C90", "title": "Background jobs run each once, in order, and never wait while a thread is free", "statement": "What the server gives to its background threads (writing and completing checkpoints, building indexes, resolving addresses) is started in the order it was given, each job exactly once; no thread sleeps while a job waits that no other awake thread is there for; every job is finished when the threads are at rest; when the threads are stopped (a restart with another number of jobs, a shutdown) they all end, and only after every job that was given has been finished. This holds for every value of the option jobs that is accepted.", "quantifier": "all numbers of threads, all orders in which jobs are added, threads run, wake (also without a reason) and are stopped and started again", "why_tests_cant": "A lost wakeup or a job that is dropped at a stop appears only at one order of the steps of several threads.", "anchors": ["amelie/runtime/lib/job_mgr.c: job_mgr_start, job_mgr_shutdown, job_mgr_stop, job_mgr_add, job_mgr_next", "amelie/runtime/lib/job_worker.c: job_worker_main", "amelie/runtime/lib/job.h: job_run", "amelie/runtime/base/cond_var.h: cond_var_signal, cond_var_broadcast, cond_var_wait", "amelie/system/system/repo.c: repo_open", "amelie/runtime/runtime/opt.h: opt_set_json"]}
