{
 "claims": [
  {
   "property": "C01",
   "status": "partial",
   "theorems": [
    "C01_ordered_index_map_partial",
    "C01_small_index_partial",
    "C01_string_keys_refuted"
   ],
   "note": "Proved for every history when the key comparison returns -1/0/1 (integer, timestamp, date, uuid keys). FALSE of the code for string keys over 512 rows: tree.c:94 tests the result of the descent with '== 1' while compare() returns the raw memcmp value, so rows are not found and a duplicate key is accepted. C01_small_index_partial: any key type, at most 512 rows."
  },
  {
   "property": "C02",
   "status": "partial",
   "theorems": [
    "C02_range_scan_partial",
    "C02_range_scan_refuted"
   ],
   "note": "FALSE of the code: a scan from a key that falls after the last row of a page returns nothing (tree_iterator.h:39-44). The partial theorem says exactly when it is complete: all or nothing, complete for a present key and for one page."
  },
  {
   "property": "C03",
   "status": "partial",
   "theorems": [
    "C03_hash_index_map_partial",
    "C03_no_delete_partial",
    "C03_upsert_only_partial",
    "C03_duplicate_key_refuted",
    "C03_lost_row_refuted",
    "C03_overflow_refuted"
   ],
   "note": "FALSE of the code: an INSERT of a present key after a delete creates a second row with that key (hash_store_set stops at a deleted slot); an incremental rehash makes rows of a collision chain invisible (it empties slots of the old table in the middle of chains); a table full of deleted marks raises an error on lookups. Proved for every hash function and every history with at most 128 writes where, after a delete, INSERT is only given absent keys."
  },
  {
   "property": "C04",
   "status": "partial",
   "theorems": [
    "C04_merge_scan_partial",
    "C04_rows_missed_refuted",
    "C04_out_of_bounds_refuted"
   ],
   "note": "FALSE of the code: inverted bound test in index_hash_merge_next: rows of every partition after the first non-empty one are missed, and if that is the last partition memory outside of the list is read. Complete only when at most one partition, not the last one, has rows."
  },
  {
   "property": "C05",
   "status": "partial",
   "theorems": [
    "C05_merge_sorted_partial",
    "C05_tree_merge_sorted_partial",
    "C05_string_merge_refuted"
   ],
   "note": "Proved for every comparison with results -1/0/1. FALSE of the code for string columns: union_iterator_step and index_tree_merge_step switch on 0/1/-1 while string comparison returns the raw memcmp value."
  },
  {
   "property": "C06",
   "status": "proved",
   "theorems": [
    "C06_rollback_restores",
    "C06_indexes_agree"
   ],
   "note": "any number of secondary indexes, any operation list, any failure point; the indexes are modelled by the maps they implement (C01, C03)"
  },
  {
   "property": "C07",
   "status": "proved",
   "theorems": [
    "C07_commit_frees_once",
    "C07_abort_frees_once"
   ],
   "note": "row addresses are never reused in the model"
  },
  {
   "property": "C08",
   "status": "proved",
   "theorems": [
    "C08_mapping",
    "C08_routing"
   ],
   "note": "every partition count accepted, any order of the partitions at restart; INSERT, lookup by key and recovery hash the same key to the same partition, for values that fit their columns"
  },
  {
   "property": "C09",
   "status": "partial",
   "theorems": [
    "C09_partial",
    "C09_refuted",
    "C09_refuted_lost"
   ],
   "note": "FALSE of the code as stated: track_sync undoes every prepared transaction up to the abort id, also the committed ones before it (C09_refuted_lost), and undoing a transaction restores rows that a later committed one wrote (C09_refuted). C09_partial: for every history where two transactions have the same partitions or none in common, and no aborted transaction met another one, the rows after the last transaction are those of the committed transactions run one after another in dispatch order. Missing: other overlaps and aborts of pipelined transactions (false there)."
  },
  {
   "property": "C10",
   "status": "partial",
   "theorems": [
    "C10_partial",
    "C10_refuted"
   ],
   "note": "FALSE of the code as stated: two transactions that follow the same one on different partitions get the same order in their group, the second one waits forever (C10_refuted: in every continuation). C10_partial: if concurrent transactions have the same partitions, once all are complete and the commit task is idle all are decided. Missing: independent concurrent groups (dtr_queue_gc drops the counter of a group that is still used) and other overlaps (false)."
  },
  {
   "property": "C11",
   "status": "partial",
   "theorems": [
    "C11_partial",
    "C11_refuted"
   ],
   "note": "FALSE of the code as stated: a transaction joins the group of only one transaction it overlaps (C11_refuted). C11_partial: for every history where two transactions have the same partitions or none in common."
  },
  {
   "property": "C12",
   "status": "partial",
   "theorems": [
    "C12_partial",
    "C12_failed",
    "C12_wal",
    "C12_refuted"
   ],
   "note": "FALSE of the code as stated: a committed transaction is undone at a partition where a later one failed before the partition looked, and kept at its other partitions (C12_refuted). C12_failed, C12_wal: for every history a failed transaction, or one with writes whose log write failed, is not committed. C12_partial: under the hypotheses of C09_partial the outcome at every partition is the decision."
  },
  {
   "property": "C13",
   "status": "proved",
   "theorems": [
    "C13_record_round_trip"
   ],
   "note": "bytes of write_log_add/write_add/write_end read back by the replay loop, with and without checksums"
  },
  {
   "property": "C14",
   "status": "partial",
   "theorems": [
    "C14_burst_partial",
    "C14_crossing_refuted",
    "C14_count_refuted"
   ],
   "note": "proved for every burst inside the stored checksum, inside the rest of the header without a change of the command count, or anywhere behind the header. FALSE of the code: a 32-bit burst over the end of the stored checksum is accepted with a wrong LSN; a flipped bit of the count makes the validation read out of bounds."
  },
  {
   "property": "C15",
   "status": "proved",
   "theorems": [
    "C15_crash_recovery"
   ],
   "note": "any history, any batch, any torn length"
  },
  {
   "property": "C16",
   "status": "partial",
   "theorems": [
    "C16_truncated_partial",
    "C16_commit_lost_refuted",
    "C16_unreadable_refuted"
   ],
   "note": "FALSE of the code: recovery leaves the torn bytes in the file and the next commit is appended behind them, so it is lost (or the log becomes unreadable). Proved when the log is truncated at the recovered LSN before new commits."
  },
  {
   "property": "C17",
   "status": "partial",
   "theorems": [
    "C17_gc_partial",
    "C17_slots_refuted",
    "C17_checkpoint_refuted"
   ],
   "note": "FALSE of the code: wal_slots takes the maximum of the slots and gc uses it instead of the minimum with the checkpoint. Proved: records above the LSN that gc computes are kept."
  },
  {
   "property": "C18",
   "status": "partial",
   "theorems": [
    "C18_cursor_partial",
    "C18_rotation_race_refuted"
   ],
   "note": "proved for every history in which commits do not fall between the read of the LSN and the creation of the file in a rotation. FALSE of the code for this race: the file id is then not the LSN of its first record."
  },
  {
   "property": "C19",
   "status": "proved",
   "theorems": [
    "C19_recovery_exact"
   ],
   "note": "one partition; routing of rows to partitions is C08; logical time of the snapshot is C24"
  },
  {
   "property": "C20",
   "status": "partial",
   "theorems": [
    "C20_rows_partial",
    "C20_ddl_skip_refuted"
   ],
   "note": "FALSE of the code for DDL: the payload is skipped as rows. Proved for row commands of any tables."
  },
  {
   "property": "C21",
   "status": "partial",
   "theorems": [
    "C21_partial",
    "C21_refresh_done",
    "C21_switch_refuted",
    "C21_flush_refuted",
    "C21_gc_refuted"
   ],
   "note": "FALSE of the code as stated: a crash between the removal of the old heap file and the rename of the new one leaves no file of the partition (C21_switch_refuted; C21_flush_refuted: after a flush the recovery also removes the new heap file), and service_gc run by another session while a refresh writes its file removes log records that only the old file needs, because header->lsn in memory is set first (C21_gc_refuted). C21_partial: every other crash point of every history, any readdir order, torn incomplete files; C21_refresh_done: a finished refresh. Missing: those crash points; power failures (only a crash of the process is modelled); the file-name constants used by db/service do not exist in id.h at this commit, their meaning is taken from the comments."
  },
  {
   "property": "C22",
   "status": "partial",
   "theorems": [
    "C22_partial",
    "C22_distinct",
    "C22_scan_partial",
    "C22_scan_tier",
    "C22_in_range",
    "C22_only_complete",
    "C22_refuted",
    "C22_leftover_refuted"
   ],
   "note": "FALSE of the code for files without a version (partitions) that are incomplete or snapshots: id_of skips the dot and then looks for the state with its dot, so the name does not decode (C22_refuted); such files are never removed at startup and their number is given again, so the next creation fails (C22_leftover_refuted). Proved: round trip for every other id, version and state below 2^63, names are distinct for all triples, the scans open exactly the complete files. Missing: ids of 2^63 and more; the directory part of the path."
  },
  {
   "property": "C23",
   "status": "partial",
   "theorems": [
    "C23_partial",
    "C23_total_partial",
    "C23_large_refuted",
    "C23_next_refuted"
   ],
   "note": "FALSE of the code for large rows: a page has 512 KiB, no limit of the row size is checked (only an assert), so a row of 524241 bytes or more is written past its page (C23_large_refuted), and one of 516072 bytes makes an unsigned subtraction wrap so that all following rows are put behind the page (C23_next_refuted). Proved for rows below 516072 bytes, for every history of rows created and freed, with snapshots (shadow heap, delayed frees, relocation) in between: blocks inside of pages, disjoint, contents kept, no operation fails. Missing: the lru list, more than 2^19 pages, mmap failures."
  },
  {
   "property": "C24",
   "status": "partial",
   "theorems": [
    "C24_partial",
    "C24_scan",
    "C24_header_refuted"
   ],
   "note": "FALSE of the code as stated: a row created between the checksum and the write of the heap header changes the counters of the header, the file is refused at the next start (C24_header_refuted). C24_partial: whenever the header is accepted, the file, written at any moments of the snapshot, has exactly the rows of the moment of its begin with their contents, and the heap opened from it satisfies C23 for everything that follows; C24_scan: after the end of a snapshot a scan gives each live row exactly once. Missing: compression and page checksums (C33, C34 and C15 treat those), flush_apply, torn reads inside of a header word."
  },
  {
   "property": "C25",
   "status": "proved",
   "theorems": [
    "C25_json_roundtrip",
    "C25_json_structure",
    "C25_json_stored_form",
    "C25_json_injective"
   ],
   "note": "all values and both stored string forms; strings up to 2^31-1 bytes. Reals are covered by C26: C25_json_roundtrip assumes reals that fit, C25_json_structure has no such assumption."
  },
  {
   "property": "C26",
   "status": "partial",
   "theorems": [
    "C26_json_real_refuted",
    "C26_json_real_partial"
   ],
   "note": "FALSE of the code: 0.1 stored in JSON is read back as 0.10000000149011612 (json.h:436-451 narrows to float). The partial theorem is the exact criterion for a real to survive."
  },
  {
   "property": "C27",
   "status": "proved",
   "theorems": [
    "C27_json_compare_order"
   ],
   "note": "total preorder for values without NaN, antisymmetric on values without reals; any memcmp magnitude."
  },
  {
   "property": "C28",
   "status": "proved",
   "theorems": [
    "C28_json_obj_find",
    "C28_json_array_find",
    "C28_json_array_size"
   ],
   "note": ""
  },
  {
   "property": "C29",
   "status": "partial",
   "theorems": [
    "C29_export_text",
    "C29_round_trip_partial",
    "C29_int_min_refuted",
    "C29_not_utf8_refuted",
    "C29_control_refuted"
   ],
   "note": "compact and indented text, any nesting; strings in UTF-8, no reals (%g and strtod are parameters). FALSE of the code for -2^63 and for strings that are not UTF-8; control characters are written raw, which is not a JSON text"
  },
  {
   "property": "C30",
   "status": "partial",
   "theorems": [
    "C30_round_trip",
    "C30_defined_partial",
    "C30_unknown_refuted"
   ],
   "note": "round trip for every byte string; FALSE of the code: an unknown escape leaves a byte unwritten"
  },
  {
   "property": "C31",
   "status": "partial",
   "theorems": [
    "C31_partial",
    "C31_insert_partial",
    "C31_update_partial",
    "C31_not_null_partial",
    "C31_int_refuted",
    "C31_float_refuted",
    "C31_update_identity_refuted"
   ],
   "note": "any history of INSERT, UPDATE and ALTER TABLE ADD COLUMN, values that fit the width of their columns. FALSE of the code: a wider int is truncated silently, a double in a float column is rounded, an UPDATE of a SERIAL column added by ALTER TABLE dereferences NULL"
  },
  {
   "property": "C32",
   "status": "partial",
   "theorems": [
    "C32_partial",
    "C32_refuted"
   ],
   "note": "total order consistent with the values of the key, any number of columns, memcmp of any magnitude; FALSE of the code (NULL dereference) when CREATE INDEX is run on a column that already holds NULL"
  },
  {
   "property": "C33",
   "status": "partial",
   "theorems": [
    "C33_format_parse",
    "C33_parse_format",
    "C33_length",
    "C33_trailing_refuted"
   ],
   "note": "proved for all UUIDs and all texts of 36 characters (accepted exactly if it has the form of a UUID). A longer text is accepted and cut: C33_trailing_refuted."
  },
  {
   "property": "C34",
   "status": "partial",
   "theorems": [
    "C34_base64",
    "C34_base64url",
    "C34_decode_safe_partial",
    "C34_table_refuted"
   ],
   "note": "round trip and RFC 4648 text proved for every byte string, both variants; no access outside of tables and buffers for 7-bit text. FALSE of the code for bytes of 128 and above: the decode table has 128 entries."
  },
  {
   "property": "C35",
   "status": "partial",
   "theorems": [
    "C35_calendar",
    "C35_round_trip",
    "C35_parse",
    "C35_form",
    "C35_days_partial",
    "C35_invalid_text_refuted",
    "C35_days_refuted"
   ],
   "note": "calendar, printing and parsing of every date proved. FALSE of the code: dates that do not exist are accepted ('2024-02-30'), and a count of days is cut to 32 bits"
  },
  {
   "property": "C36",
   "status": "partial",
   "theorems": [
    "C36_parse_partial",
    "C36_round_trip_partial",
    "C36_arithmetic_partial",
    "C36_trunc_partial",
    "C36_extract_partial",
    "C36_overflow_refuted",
    "C36_negative_refuted"
   ],
   "note": "text round trip for every interval but days = -2^31; every text of any number of terms is the sum of its terms, arithmetic is exact, unless it overflows (undefined behaviour or silently cut: C36_overflow_refuted). Truncation and fields of negative intervals are wrong: C36_negative_refuted"
  },
  {
   "property": "C37",
   "status": "partial",
   "theorems": [
    "C37_parse",
    "C37_print",
    "C37_round_trip_partial",
    "C37_utc",
    "C37_range_refuted",
    "C37_seconds_refuted",
    "C37_invalid_text_refuted"
   ],
   "note": "every valid text in every accepted form is parsed to its instant; printing and parsing is the identity if the offset is in whole minutes and the local time is in 1970..9999. FALSE of the code near the limits and for offsets with seconds; times that do not exist are accepted; a text with leading white space can be read behind its end. gmtime_r and mktime are modelled by the calendar."
  },
  {
   "property": "C38",
   "status": "partial",
   "theorems": [
    "C38_add_sub_mul",
    "C38_div_mod_neg_partial",
    "C38_min_refuted"
   ],
   "note": "FALSE of the code for -2^63 / -1, % -1 and its negation (undefined behaviour, a trap on x86)"
  },
  {
   "property": "C39",
   "status": "partial",
   "theorems": [
    "C39_sound_partial",
    "C39_simple_partial",
    "C39_first_occurrence_refuted",
    "C39_any_one_refuted",
    "C39_backslash_refuted"
   ],
   "note": "FALSE of the code: after % the first occurrence of the next character is taken and never given up ('aab' LIKE '%ab' is false), '%_' matches the empty string, and a backslash at the end reads behind the pattern. Proved: a match is right if no % is followed by _, and the answer is exact when behind the first % every literal character is followed by another %."
  },
  {
   "property": "C40",
   "status": "partial",
   "theorems": [
    "C40_one_group_per_key",
    "C40_group_by_values_partial",
    "C40_negative_zero_refuted",
    "C40_json_refuted"
   ],
   "note": "one group per key proved for every equality with a consistent hash (any collisions, any number of resizes) and for SQL keys without NaN, -0.0 and JSON. FALSE of the code for 0.0 and -0.0 (equal, different hash) and for equal JSON strings in the two encodings of a string."
  },
  {
   "property": "C41",
   "status": "proved",
   "theorems": [
    "C41_limit_offset"
   ],
   "note": "every kind of union, every comparison; less than 2^63-1 rows; negative values are rejected by cunion_limit/cunion_offset"
  },
  {
   "property": "C42",
   "status": "partial",
   "theorems": [
    "C42_union_all",
    "C42_union_distinct_partial",
    "C42_string_union_refuted"
   ],
   "note": "UNION ALL proved. UNION (distinct) proved for comparisons with results -1/0/1 over sorted inputs; FALSE of the code for strings (duplicates are returned), same cause as C05."
  },
  {
   "property": "C43",
   "status": "partial",
   "theorems": [
    "C43_in_three_valued_partial",
    "C43_int_double_refuted"
   ],
   "note": "Three-valued logic proved for every list where equality is that of one type. FALSE of the code across types: 1 IN (1.0) is FALSE although 1 = 1.0 is TRUE (value_compare orders different types by type)."
  },
  {
   "property": "C44",
   "status": "proved",
   "theorems": [
    "C44_compatible"
   ],
   "note": "any number of sessions, any requests, any order of unlocks"
  },
  {
   "property": "C45",
   "status": "partial",
   "theorems": [
    "C45_fifo_partial",
    "C45_attached_first_partial",
    "C45_lost_wakeup_refuted",
    "C45_foreign_thread_refuted"
   ],
   "note": "proved: requests are granted in order, and the first waiter is always blocked by an incompatible granted lock. FALSE of the code for the wake-up: the event of the waiter is attached to its thread after the lock is visible in the wait list, so an unlock in another thread can lose the wake-up or resume the coroutine in the wrong thread; proved that attaching first never loses it."
  },
  {
   "property": "C46",
   "status": "partial",
   "theorems": [
    "C46_ordered_partial",
    "C46_statements_partial",
    "C46_create_index_refuted",
    "C46_create_lock_refuted"
   ],
   "note": "proved for any number of sessions that run any queries, writes and DDL with the default locks. FALSE of the code for CREATE INDEX against other DDL (opposite lock order) and for CREATE LOCK, which waits for a table with the DDL lock that DROP LOCK needs."
  },
  {
   "property": "C47",
   "status": "partial",
   "theorems": [
    "C47_partial",
    "C47_increasing_partial",
    "C47_kept_partial",
    "C47_explicit_refuted",
    "C47_reuse_refuted",
    "C47_negative_refuted"
   ],
   "note": "FALSE of the code as stated: an explicitly inserted value is observed only by recovery, so the next generated value can be the same (C47_explicit_refuted); after a restart values of deleted rows are generated again (C47_reuse_refuted); a negative value makes the sequence wrap around after a restart (C47_negative_refuted). Proved: strictly increasing without restarts; after a restart above every existing row until an explicit value is inserted; strictly increasing across restarts when rows are kept. Missing: 4 byte columns, ALTER TABLE SET IDENTITY, concurrency of sequence_sync with sequence_next."
  },
  {
   "property": "C48",
   "status": "proved",
   "theorems": [
    "C48_lsns_gap_free",
    "C48_nothing_lost_without_gc"
   ],
   "note": "any history of commits, failed writes, rotations, gc and clean restarts"
  },
  {
   "property": "C49",
   "status": "partial",
   "theorems": [
    "C49_statement_partial",
    "C49_abort_partial",
    "C49_commit",
    "C49_references",
    "C49_names",
    "C49_read_only_refuted",
    "C49_wal_refuted",
    "C49_unlogged_refuted",
    "C49_rename_case_refuted"
   ],
   "note": "FALSE of the code in read-only mode and when the log cannot be written: the client gets an error but the schema change stays in memory (session.c raises outside of error_catch and tr_free does not abort), so the state after a restart differs. Otherwise proved after any history of statements: a failed statement leaves the same catalog; a successful one has exactly its effect (30 operations, each with its own effect in DdlSpec.v) and is logged iff it has one; names stay unique. Multi-operation transactions abort exactly except for two operations whose undo record is inexact (SET [UN]LOGGED without change, RENAME DATABASE/STORAGE spelled with other letter case), refuted separately; the SQL front end only runs one operation per transaction. CREATE INDEX is not modelled here."
  },
  {
   "property": "C50",
   "status": "partial",
   "theorems": [
    "C50_decode_partial",
    "C50_valid_partial",
    "C50_unicode_accepted",
    "C50_ill_formed_refuted"
   ],
   "note": "the decoder is exactly the inverse of the encoding of code points of up to 21 bits (overlong and cut sequences are rejected, no read behind the end), counting agrees, every Unicode text is accepted. FALSE of the code for surrogates and code points above 10FFFF, which are accepted."
  },
  {
   "property": "C51",
   "status": "partial",
   "theorems": [
    "C51_refuted",
    "C51_lookup_sound_partial",
    "C51_no_removals_partial",
    "C51_growth_repairs_partial",
    "C51_end_of_run_partial"
   ],
   "note": "FALSE of the code: hashtable_delete leaves an empty slot, and a lookup stops at an empty slot, so an entry that collided with the removed one is not found (C51_refuted; the comment in hashtable_get suspects it). Proved: for every history nothing runs forever, no assertion fails and lookups return only entries of the table; lookups are exact without removals, after every growth of the table, and after the removal of the last entry of a run. Not modelled: int overflow of the number of slots (above 2^30)."
  },
  {
   "property": "C52",
   "status": "partial",
   "theorems": [
    "C52_prefix_partial",
    "C52_caught_up_partial",
    "C52_can_catch_up",
    "C52_two_connections_refuted",
    "C52_gc_refuted",
    "C52_replica_ahead_refuted",
    "C52_new_replica_refuted",
    "C52_outdated_refuted"
   ],
   "note": "FALSE of the code: a request sent again after a lost connection is executed twice when the first is still being executed (the LSN is compared under a shared lock); removal of log files ignores a slow replica's slot (the largest slot is taken), the cursor skips the gap; a replica ahead of its primary is accepted and diverges; a new replica of a primary without its first file waits forever; the bound of wal_in_range is off by one. Proved for every other history (lost connections, late or lost messages, restarts of either server, replica losing a tail, file rotation and removal): the replica has executed a prefix; a quiet connection means all was executed; from every such state it can catch up. A failed record leaves the replica unchanged (C09, C19 are about its execution)."
  },
  {
   "property": "C53",
   "status": "proved",
   "theorems": [
    "C53_index_balanced"
   ],
   "note": "height of the red-black tree of pages"
  },
  {
   "property": "C54",
   "status": "proved",
   "theorems": [
    "C54_any_all_three_valued"
   ],
   "note": "values without NaN; equality and order are those of C56"
  },
  {
   "property": "C55",
   "status": "partial",
   "theorems": [
    "C55_logic_partial",
    "C55_not",
    "C55_null_refuted",
    "C55_compiled_partial",
    "C55_compiled_refuted"
   ],
   "note": "FALSE of the code: NULL AND FALSE is NULL, NULL OR FALSE is FALSE, and the truth of an INTERVAL dereferences its bytes as a vector. Proved for operands that are not NULL and not intervals; NOT proved for every value that is not an interval."
  },
  {
   "property": "C56",
   "status": "partial",
   "theorems": [
    "C56_value_order",
    "C56_row_order",
    "C56_nan_refuted"
   ],
   "note": "proved for every pair of values and rows without NaN; with NaN (equal to every number) it is FALSE of the code. JSON and AVG values are not in the model of values"
  },
  {
   "property": "C57",
   "status": "partial",
   "theorems": [
    "C57_distributed_aggregates_partial",
    "C57_partitioning_invisible_partial",
    "C57_distinct_out_of_bounds_refuted"
   ],
   "note": "proved for integer arguments, fewer than 2^31 rows, keys without NaN/-0.0/JSON, with at most 3 aggregates if one is DISTINCT; SUM and AVG are modulo 2^64. FALSE of the code with four or more aggregates including DISTINCT: the merge frees values outside of the distinct set."
  },
  {
   "property": "C58",
   "status": "partial",
   "theorems": [
    "C58_avg_int_partial",
    "C58_negative_refuted"
   ],
   "note": "proved for sums that are not negative. FALSE of the code for negative sums: int64 / uint64 is an unsigned division."
  },
  {
   "property": "C59",
   "status": "proved",
   "theorems": [
    "C59_truncate"
   ],
   "note": ""
  },
  {
   "property": "C60",
   "status": "proved",
   "theorems": [
    "C60_implementations_agree",
    "C60_chunks"
   ],
   "note": "the CRC32 instruction is modelled as in the Intel manual"
  },
  {
   "property": "C61",
   "status": "partial",
   "theorems": [
    "C61_unmixed_partial",
    "C61_all_locked_partial",
    "C61_mixed_refuted",
    "C61_sessions_refuted"
   ],
   "note": "FALSE of the code for a statement that writes a table and reads it in a subquery: the larger enum value, exclusive read-only, replaces shared read-write, and two such statements run at once. Proved for statements that do not mix these two."
  },
  {
   "property": "C62",
   "status": "partial",
   "theorems": [
    "C62_length",
    "C62_substr_partial",
    "C62_substr_refuted",
    "C62_strpos",
    "C62_replace",
    "C62_trim",
    "C62_case"
   ],
   "note": "proved for every valid text; SUBSTR for positions of at least 1 and counts below 2^31. FALSE of the code for a negative position (reads behind the end) and larger counts (cut to 32 bits)."
  },
  {
   "property": "C63",
   "status": "partial",
   "theorems": [
    "C63_near_partial",
    "C63_fixed_partial",
    "C63_search_refuted"
   ],
   "note": "FALSE of the code: the binary search can end at the transition before the one in force, and reads behind the table after the last transition for some numbers of transitions. Proved: between the first and the last transition the offset is the one in force or the one before it (no read outside of the table)"
  },
  {
   "property": "C64",
   "status": "partial",
   "theorems": [
    "C64_trunc_partial",
    "C64_extract",
    "C64_bin_partial",
    "C64_zone_refuted",
    "C64_bin_refuted"
   ],
   "note": "DATE_TRUNC proved in UTC; FALSE of the code in other zones (the fields of UTC are cut, then the offset is subtracted); DATE_BIN proved for spans below 2^63 us, larger ones wrap; EXTRACT proved"
  },
  {
   "property": "C65",
   "status": "partial",
   "theorems": [
    "C65_add_sub_partial",
    "C65_difference",
    "C65_months_partial",
    "C65_date_partial",
    "C65_overflow_refuted"
   ],
   "note": "proved for intervals of up to 10^7 days, 10^4 years and 7*10^18 us; FALSE of the code for larger ones (silent wrap, int overflow) and for some results within the first second of 1970 (an error)"
  },
  {
   "property": "C66",
   "status": "partial",
   "theorems": [
    "C66_parse_partial",
    "C66_sound",
    "C66_accepted_partial",
    "C66_safe_partial",
    "C66_escape_refuted",
    "C66_int_min_refuted",
    "C66_garbage_refuted"
   ],
   "note": "every standard text without \\\\/ and \\\\u escapes, fractions and exponents; soundness of what is stored for every accepted text. FALSE of the code for the escapes \\\\u and \\\\/ (unwritten byte), -2^63 (error) and text behind the value (accepted). strtod is a parameter that stays inside of the text, the code's call can read behind it"
  },
  {
   "property": "C67",
   "status": "proved",
   "theorems": [
    "C67_search_key"
   ],
   "note": "timestamps are not negative (TIMESTAMP_MIN)"
  },
  {
   "property": "C68",
   "status": "partial",
   "theorems": [
    "C68_refuted",
    "C68_untrusted_token_refuted",
    "C68_accepted_partial",
    "C68_valid_token_is_accepted",
    "C68_token_required"
   ],
   "note": "FALSE of the code: the cache is searched by the digest of the token alone, before the signature is checked, so a token with other claims and a digest that was accepted before is accepted (C68_refuted; the sender must know the digest, that is, the other token); and a byte above 127 in a token reads outside of the 128 entries of base64url_decode_table before authentication (C68_untrusted_token_refuted). Proved for every history: an accepted request has the digest of a token that was valid for that user since the last change of users and has not expired; a valid token is accepted as its user unless another token with the same digest was presented. Trusted: HMAC, the hash function and the JSON decoding of the claims are arbitrary functions."
  },
  {
   "property": "C69",
   "status": "partial",
   "theorems": [
    "C69_catalog_file",
    "C69_restart_partial",
    "C69_dropped_column_refuted",
    "C69_function_order_refuted",
    "C69_not_utf8_refuted"
   ],
   "note": "FALSE of the code as stated: dropped columns are back after a restart (column_copy drops the flag); a function replaced by one that calls a later-created function makes the start fail (functions are compiled in creation order); a function text with a non-UTF-8 byte in a comment makes the catalog file unreadable. Proved for every other catalog: the exact text of the file is parsed and restored to the same catalog (C69_catalog_file says what happens to dropped columns too). Integers of configurations must fit 32 bits (the copies cut them), the least 64-bit integer is excluded (C29). Not modelled: opening the partitions' files during restore (C21)."
  },
  {
   "property": "C70",
   "status": "partial",
   "theorems": [
    "C70_old_or_new_partial",
    "C70_written",
    "C70_restart_partial",
    "C70_bootstrap_refuted",
    "C70_no_sync_refuted"
   ],
   "note": "FALSE of the code for the very first catalog of a server (the directory exists, so it is not set up again: missing or torn file) and, with catalog_sync off, when the machine loses unsynced bytes. Proved: with an existing file and every crash point (each byte of the text, each system call), process crash with any setting or power loss with catalog_sync on, the next start reads the old or new catalog; the state is again one to which the theorem applies. Assumes directory changes reach the disk in order."
  },
  {
   "property": "C71",
   "status": "partial",
   "theorems": [
    "C71_restart_partial",
    "C71_running_partial",
    "C71_no_drop_partial",
    "C71_truncate_back_refuted",
    "C71_truncate_lost_refuted",
    "C71_drop_refuted",
    "C71_drop_crash_refuted",
    "C71_gc_refuted"
   ],
   "note": "FALSE of the code: TRUNCATE leaves the rows in the heap and does not change the lsn of the partition, so after a restart truncated rows are back or later rows are lost; DROP TABLE removes the files before the catalog file knows, the replay of an earlier delete then fails and the server does not start; the same for a crash between the removal of two files; log files are removed with an lsn computed before the last statements, which are lost. Proved without these: C71_no_drop_partial (any crash point, no DROP/TRUNCATE, log removal keeps statements logged after it began), C71_restart_partial (with DROP TABLE, when the catalog file does not have a dropped table and no table has only part of its files). One statement is logged at once (C15), refresh (C21) and catalog write (C70) are single steps, log removal at any record."
  },
  {
   "property": "C72",
   "status": "partial",
   "theorems": [
    "C72_create_index",
    "C72_restart_partial",
    "C72_restart_refuted",
    "C72_dangling_refuted"
   ],
   "note": "FALSE of the code after a crash between the catalog file and the partition files of one checkpoint: the catalog already has the index, the old partition file and the log are then replayed with it; a log record written before the index existed keeps only the key columns of its time, so rows can be missing from a unique index (duplicates are then accepted) or an index keeps an entry of a released row. Proved: C72_create_index (both directions, no concurrent writes), C72_restart_partial (any history with no rows written between the partition file and an index of the catalog file)."
  },
  {
   "property": "C73",
   "status": "partial",
   "theorems": [
    "C73_create_index_partial",
    "C73_deleted_row_refuted",
    "C73_updated_row_refuted",
    "C73_failed_index_refuted"
   ],
   "note": "FALSE of the code: a row deleted while the index is built stays in the new index although it is released; a row updated meanwhile makes CREATE INDEX fail with a violation that does not exist; a failed CREATE INDEX leaves the second heap in use, so rows committed later are missing from the file of the next checkpoint, and releasing one of them later uses a null heap. Proved for every set of concurrent transactions that leave the rows of the start in place: success iff keys are unique, then all indexes agree with the rows."
  },
  {
   "property": "C74",
   "status": "proved",
   "theorems": [
    "C74_checkpoint"
   ],
   "note": "For every settled partition and every list of concurrent transactions. Heaps are lists of rows here (their chunks are the subject of C23 and C24); the shadow heap is the empty one of refresh_begin. A refresh that fails (write error) is not covered: it leaves the second heap in use like a failed CREATE INDEX (C73)."
  },
  {
   "property": "C75",
   "status": "partial",
   "theorems": [
    "C75_partial",
    "C75_index_partial",
    "C75_inner_partial",
    "C75_double_refuted",
    "C75_int32_refuted",
    "C75_null_refuted",
    "C75_between_refuted",
    "C75_hash_refuted",
    "C75_shadow_refuted",
    "C75_types_refuted",
    "C75_inner_refuted"
   ],
   "note": "FALSE of the code: (1) an int key compared with a double uses the bits of the double as the key, rows are missed; (2) an int32 key compared with a larger int uses the lower 32 bits; (3) primary key = NULL or = 1.0 aborts the server in value_hash; (4) key BETWEEN own_column AND y reads the column before there is a row; (5) an upper bound on the first column of a hash index makes the compiler write to a random code position; (6) a name that is a column of both this and an outer table is read before there is a row; (7) key > 'a' AND key > 5 dereferences an int as a string in the compiler; (8) a join or subquery by a UNIQUE index without the primary key columns reads a NULL column of the key row. Proved for all other conditions (where_ok) and all tables: the result is exactly the rows for which WHERE is true, each once. The rows of an index in order are an assumption here (C01, C03, C06); the merge of partitions is C04, C05; errors of expressions, LIMIT and ORDER BY are not modelled."
  },
  {
   "property": "C76",
   "status": "partial",
   "theorems": [
    "C76_set_partial",
    "C76_set_error",
    "C76_path_error",
    "C76_set_refuted",
    "C76_unset_partial",
    "C76_unset_error",
    "C76_unset_refuted",
    "C76_arrays",
    "C76_put_partial",
    "C76_remove_partial",
    "C76_index_refuted"
   ],
   "note": "FALSE of the code: (1) set with a path of two or more keys whose last key does not exist: if the field is added to an inner object the outer objects get one more field (update_set_next does not set found after it appended): set({\"a\":{\"b\":1},\"c\":true}, \"a.c\", 2) is {\"a\":{\"b\":1,\"c\":2},\"c\":true,\"a\":2}; (2) unset by a path of two or more keys in an object with a name used twice drops the second field; (3) the index of put and remove is cut to 32 bits: 4294967296 is item 0. Proved for all other paths, all documents, all indexes of 32 bits and, for append, push, pop and pop_back, without restriction."
  },
  {
   "property": "C77",
   "status": "partial",
   "theorems": [
    "C77_precedence_partial",
    "C77_read_is_standard",
    "C77_read_unambiguous",
    "C77_binary",
    "C77_alias_partial",
    "C77_alias_refuted",
    "C77_case_error",
    "C77_not_refuted",
    "C77_not_is_refuted",
    "C77_like_refuted",
    "C77_between_refuted",
    "C77_minus_refuted",
    "C77_refused_refuted"
   ],
   "note": "FALSE of the code also for a name behind an expression without AS (SELECT a + b c reads a, then b + c). FALSE of the code: (1) NOT binds tighter than every binary operator: NOT a = b is (NOT a) = b, NOT a IS NULL is (NOT a) IS NULL; (2) the right side of LIKE and AT TIMEZONE is a whole expression: a LIKE p AND b is a LIKE (p AND b); (3) the upper bound of BETWEEN takes comparisons: a BETWEEN b AND c = d is a BETWEEN b AND (c = d); (4) -5::f is (-5)::f but -x::f is -(x::f); (5) refused: an operator after ANY (...) or ALL (...), - - a, NOT NOT a, NOT [...], AND or OR in parentheses inside of BETWEEN. Proved for the grammar without these forms (ExprSpec.v Sup), which is shown to be part of the standard grammar (Std) and to cover every pair of binary operators. Not modelled: subqueries, aggregates, lambdas, EXTRACT, CAST, literals of time and vectors."
  },
  {
   "property": "C78",
   "status": "partial",
   "theorems": [
    "C78_compiled_expression_partial",
    "C78_run_unique",
    "C78_like_refuted",
    "C78_interval_truth_refuted"
   ],
   "note": "FALSE of the code for two kinds of expression: (1) the compiler takes the result of LIKE for a string (cast.c): ('a' LIKE 'b') = 'x' compiles and compares a truth value as a string (wild pointer), ('a' LIKE 'b') = true is refused; (2) an interval used as a truth value (NOT, AND, CASE WHEN) is read as a pointer to a vector. Proved for all other expressions the compiler accepts, at any place of a statement, with any registers in use, all primitive operations (arithmetic, comparisons of strings, functions) being parameters. Not modelled: subqueries, ANY/ALL/EXISTS, ::casts, buffers and reference counts."
  },
  {
   "property": "C79",
   "status": "partial",
   "theorems": [
    "C79_delivered_partial",
    "C79_self_partial",
    "C79_events",
    "C79_self_refuted"
   ],
   "note": "FALSE of the code when a thread sends to itself: event_signal of an event of the own thread (lock_mgr.h:214) goes through the ring, and if the ring is full the thread waits for itself (C79_self_refuted, for every ring size). Proved for every interleaving when the receiver does not send to itself, and when it does but all messages fit in the ring: exactly once, in the order of the sender, every run ends (a bound on its length), at the end nothing is left and every signaled event ran after its last signal. The 64 bit counters are unbounded in the model, memory is sequentially consistent, epoll returns for other reasons a limited number of times."
  },
  {
   "property": "C80",
   "status": "partial",
   "theorems": [
    "C80_wakes_once",
    "C80_due",
    "C80_not_late",
    "C80_not_early_partial",
    "C80_time_partial",
    "C80_early_refuted",
    "C80_time_refuted",
    "C80_argument_refuted"
   ],
   "note": "FALSE of the code: while a timer waits the time is cached before epoll_wait and not dropped after it (task.c:114-145), so a sleep that begins in that round ends early (C80_early_refuted: sleep(1000) returns at once) and a statement reads an old time (C80_time_refuted). sleep() converts its argument to int: sleep(2^31) waits forever, sleep(2^32) does not wait (C80_argument_refuted). Proved of every run: each sleep is woken up, cancelled or waiting exactly once; a round wakes up exactly the due ones in order; the thread does not wait past the next end; and a sleep that begins when the time of the thread is that of the clock does not end early."
  },
  {
   "property": "C81",
   "status": "partial",
   "theorems": [
    "C81_requests",
    "C81_cut",
    "C81_limit",
    "C81_arrival_partial",
    "C81_safe",
    "C81_long_header",
    "C81_client_partial",
    "C81_reply",
    "C81_arrival_refuted",
    "C81_length_refuted",
    "C81_token_refuted"
   ],
   "note": "FALSE of the code: a header of 513 to 767 bytes is read or refused depending on the pieces (http.c:113, C81_arrival_refuted); with a raised limit_recv a Content-Length of 2^32 is taken as 0 and the body is run as requests, 2^31 is undefined behaviour (int left, C81_length_refuted); the client writes \"Authorization: Bearer\" without the space behind it, so every request of this client with a token is refused (http.c:314, C81_token_refuted, proved for all tokens). Proved: every sequence of requests with headers up to 512 bytes is read exactly in every arrival; no stream is undefined (limit up to 2^31); 768 bytes and more are always refused; requests without a token and all replies make the round trip."
  },
  {
   "property": "C82",
   "status": "partial",
   "theorems": [
    "C82_insert_partial",
    "C82_prefix_partial",
    "C82_accepts_partial",
    "C82_not_null",
    "C82_variable_refuted",
    "C82_generated_variable_refuted",
    "C82_again_refuted",
    "C82_identity_refuted",
    "C82_second_identity_refuted"
   ],
   "note": "FALSE of the code: cupdate_store leaves its pairs on the stack (command.c:540-554), so for a table with a stored generated column csend_shard takes them for the references and every variable of the INSERT is replaced (C82_variable_refuted: x is inserted as NULL for all x); a generated column that reads a column given as a variable reads the number of the reference (C82_generated_variable_refuted); the set of rows belongs to the program and is overwritten in place, so the next execution starts from the generated values, and a late thread inserts the values of a later execution (C82_again_refuted); a generated column reads NULL for a generated identity (C82_identity_refuted); a second identity column (ALTER TABLE ADD COLUMN serial) always gets the number of the first (C82_second_identity_refuted). Proved for every number of executions and every interleaving: tables without stored columns with any variables, and stored columns that read ordinary columns with no variable; there the statement also fails only for NOT NULL."
  },
  {
   "property": "C83",
   "status": "partial",
   "theorems": [
    "C83_upsert_partial",
    "C83_upsert_sent_partial",
    "C83_table_after",
    "C83_accepted",
    "C83_values",
    "C83_hash_cursor_partial",
    "C83_hash_enlarged_cursor",
    "C83_excluded_refuted",
    "C83_identity_column_refuted",
    "C83_hash_returning_refuted"
   ],
   "note": "FALSE of the code: EXCLUDED is the list of values as sent, not the proposed row, so EXCLUDED.s of a smallint is 70000 (C83_excluded_refuted); SET of an identity column added by ALTER TABLE reads through NULL (C83_identity_column_refuted); with a hash primary key the insert that starts an enlargement leaves the cursor at the position of the old store in the new one, so RETURNING of the 129th row reads a NULL row (C83_hash_returning_refuted; C83_hash_enlarged_cursor for every hash function and table). Proved: the emitted program equals the row by row meaning, errors included, for every statement that reads from EXCLUDED what the proposed rows hold, and for every statement with EXCLUDED read as the sent values; the consequences for the table and for RETURNING; which statements are accepted; the cursor of a hash that is not enlarged. Simplified: columns are integers, indexes are lists of rows, the expressions are one instruction."
  },
  {
   "property": "C84",
   "status": "partial",
   "theorems": [
    "C84_select_partial",
    "C84_subquery_partial",
    "C84_subquery_order_exact",
    "C84_subquery_order_refuted",
    "C84_limit_overflow_refuted",
    "C84_result_is_final"
   ],
   "note": "FALSE of the code: in a subquery over one table whose ORDER BY is the key of its tree index plan_main scans without a sort, the set has no keys but on_match pushes them, so every row holds the last values of 'selected, then keys' and the others stay on the stack of the outer statement (C84_subquery_order_exact says which, for every query; C84_subquery_order_refuted: SELECT 7, (SELECT data FROM t ORDER BY id LIMIT 1) returns the id); LIMIT + OFFSET above INT64_MAX fails with an overflow (C84_limit_overflow_refuted). Proved: every SELECT of a table over any number of partitions (LIMIT + OFFSET an int64) and every other subquery returns an answer, the emitted program run instruction by instruction, the stack unchanged. Hypotheses: comparison of values is an order with results -1, 0, 1 (for strings C05 refutes it), qsort sorts, an index returns its rows in order, for DISTINCT by an index its keys are unique. Simplified: one target, WHERE and expressions are one instruction; GROUP BY is C40."
  },
  {
   "property": "C85",
   "status": "partial",
   "theorems": [
    "C85_read_partial",
    "C85_position_partial",
    "C85_sound",
    "C85_safe",
    "C85_string_partial",
    "C85_push_back",
    "C85_quote_refuted",
    "C85_int_min_refuted",
    "C85_long_real_refuted"
   ],
   "note": "FALSE of the code: '\\'' between single quotes has an undefined byte (unescape_str has no case for the single quote, C85_quote_refuted); the smallest integer can not be written (C85_int_min_refuted); a real of more than 19 integer digits is refused (C85_long_real_refuted). Proved: every text of tokens (integer digits up to 9223372036854775807) is read as these tokens, what is read is what the text spells for any bytes, no bad read, string values without that escape, push back."
  },
  {
   "property": "C86",
   "status": "partial",
   "theorems": [
    "C86_answer_partial",
    "C86_reals_partial",
    "C86_read_back_partial",
    "C86_expression_partial",
    "C86_error_partial",
    "C86_names",
    "C86_inf_refuted",
    "C86_control_refuted",
    "C86_int_min_refuted",
    "C86_error_refuted"
   ],
   "note": "FALSE of the code: infinities and NaN are written as printf does (C86_inf_refuted); control characters other than the five escaped ones are written as they are (C86_control_refuted); the smallest integer is not read back by the parser of amelie (C86_int_min_refuted); a message of more than 512 bytes is cut within a character, which leaves a text that is not UTF-8 (C86_error_refuted). Proved: for rows without these (strings in UTF-8, reals outside of JSON values with printf as a parameter) the answer is the JSON text of exactly the rows, in all formats, or an error if the limit is reached; names found by the scanner (C85) need no escapes (C86_names). Missing: reals within JSON values, and that reals are read back."
  },
  {
   "property": "C87",
   "status": "partial",
   "theorems": [
    "C87_restore_partial",
    "C87_goes_on_partial",
    "C87_fails_only_partial",
    "C87_possible_partial",
    "C87_checkpoint_refuted",
    "C87_drop_refuted"
   ],
   "note": "FALSE of the code in its last sentence: a checkpoint removes log files that the backup has listed and not sent yet (wal_slots takes the maximum, the slot of the backup has lsn 0 and holds nothing back: C87_checkpoint_refuted), and DROP TABLE removes the directory with the hard links (C87_drop_refuted); the client then reports an error. Proved: a backup that completes restores exactly the moment it was taken, for every history and interleaving, and it fails only through removal of log files, DROP TABLE or a restart. Missing: TRUNCATE and removal of log files beyond its start (both break restarts already, C71), objects of tiers, two backups at a time (the second one fails, its hard links have the same names)."
  },
  {
   "property": "C88",
   "status": "partial",
   "theorems": [
    "C88_request_partial",
    "C88_safe_partial",
    "C88_history",
    "C88_any_name",
    "C88_client_partial",
    "C88_client_service",
    "C88_path_refuted",
    "C88_service_refuted",
    "C88_uri_refuted",
    "C88_nul_refuted",
    "C88_client_refuted"
   ],
   "note": "FALSE of the code: parts of the path are not percent-decoded (C88_path_refuted); an argument service= or db= of a database URI starts a service or goes to another database (C88_service_refuted); an argument uri= frees the text while it is parsed (C88_uri_refuted); what follows a NUL is ignored (C88_nul_refuted); the client does not escape its values (C88_client_refuted). Proved: acceptance and meaning for every URI without NUL as an iff with the grammar, history independence, any name can be written as an argument, safety without an argument uri, the client's requests for values without '%' and '&'."
  },
  {
   "property": "C89",
   "status": "partial",
   "theorems": [
    "C89_statement_partial",
    "C89_console_partial",
    "C89_whole_partial",
    "C89_nothing_lost",
    "C89_more_input",
    "C89_case_refuted",
    "C89_backquote_refuted",
    "C89_if_not_refuted",
    "C89_comment_refuted"
   ],
   "note": "FALSE of the code: the END of a CASE before a comma or bracket is not seen within a block, which then has no end (C89_case_refuted); a semicolon in a name in backquotes ends the statement (C89_backquote_refuted); IF NOT is taken for IF NOT EXISTS and the block is cut at the inner END (C89_if_not_refuted); a comment between IF and EXISTS (C89_comment_refuted). Proved: for statements without these (keywords of blocks have spaces or semicolons around them), with any nesting, strings and comments, in any lines: the statements are executed each once, in order, when they are complete, only whole ones at any line; for every input without exception: what is executed is the input, cut into pieces, without only the blanks between; and a block that has been read does not change with more input."
  },
  {
   "property": "C90",
   "status": "partial",
   "theorems": [
    "C90_safe",
    "C90_order",
    "C90_once",
    "C90_no_lost_wakeup",
    "C90_settles",
    "C90_all_done_partial",
    "C90_stop_partial",
    "C90_jobs_refuted"
   ],
   "note": "FALSE of the code in its last sentence: only 0 is refused as the number of jobs; with a negative one no thread is started and whoever gives a job waits forever (C90_jobs_refuted). Proved for every run of any number of threads: order, each once, no lost wakeup, all jobs finished when the threads are at rest (which they reach, unless woken without a reason forever), and a stop that ends all threads after all jobs, for at least one thread."
  }
 ]
}