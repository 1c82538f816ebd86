{"claims": [
 {"property": "C01", "status": "proved", "theorems": ["C01_fixnum_roundtrip", "C01_fixnum_width_and_truncation", "C01_varnum_roundtrip", "C01_varnum_truncated_rejected", "C01_bytes"], "note": "Full statement for widths of any size and all uint64 numbers."},
 {"property": "C02", "status": "proved", "theorems": ["C02_record_roundtrip", "C02_record_size", "C02_child_rewrite", "C02_long_key_refuted"], "note": "Byte level encoder and parser, all widths, alignments and CRC modes. The documented key limit is not enforced on writing: C02_long_key_refuted."},
 {"property": "C03", "status": "proved", "theorems": ["C03_in_place_map", "C03_capacity_refuted"], "note": "within the size limits of the format and the offset range; the code does not check the range (refuted part)"},
 {"property": "C04", "status": "proved", "theorems": ["C04_appending_map", "C04_modes_agree", "C04_mode_switch"], "note": ""},
 {"property": "C05", "status": "partial", "theorems": ["C05_crash_keeps_prefix_partial", "C05_crash_within_alignment", "C05_phantom_refuted"], "note": "Full claim is false: a key containing record images makes restore invent records (C05_phantom_refuted). Proved when no position inside the torn record looks like a record; unconditional when less than one alignment unit of the torn record was written. Crash = prefix of the record log; header parameters assumed readable."},
 {"property": "C06", "status": "proved", "theorems": ["C06_import_directions_agree", "C06_import_history"], "note": "The on-disk set of dead keys is modelled as a set; compressors not modelled."},
 {"property": "C07", "status": "proved", "theorems": ["C07_fetch_best_fit", "C07_fetch_fails_only_if_none", "C07_insert_drops_smallest", "C07_never_handed_out_twice", "C07_insert_defined", "C07_zero_capacity_refuted", "C07_save_load"], "note": "zero capacity set by Rebuild makes insertion undefined (refuted part)"},
 {"property": "C08", "status": "proved", "theorems": ["C08_header_round_trip", "C08_torn_header", "C08_torn_any_version", "C08_torn_not_healthy"], "note": "Header at byte level; counters advance by one modulo 255 skipping nothing else, wrap-around case shown."},
 {"property": "C09", "status": "proved", "theorems": ["C09_get", "C09_set", "C09_remove", "C09_append", "C09_compare_exchange", "C09_increment", "C09_rekey", "C09_pop_first", "C09_push_last", "C09_push_last_ends", "C09_set_multi", "C09_remove_multi", "C09_append_multi", "C09_get_multi"], "note": "For any database whose Process/ProcessMulti/ProcessFirst act as on a map (record dbm); std_tree is an instance. Failures of Process itself are a separate outcome."},
 {"property": "C10", "status": "proved", "theorems": ["C10_compare_exchange_multi"], "note": "DBM::CompareExchangeMulti on any such database; ShardDBM's own version is under C35."},
 {"property": "C11", "status": "proved", "theorems": ["C11_history", "C11_count", "C11_get", "C11_first_found", "C11_iterate", "C11_jump", "C11_library"], "note": "Block-level model of TinyRecord and the bucket chains (realloc may or may not move; any access outside a live block is undefined behaviour). For every history of Process, ProcessMulti, Append, ProcessFirst, ProcessEach, Clear and Rebuild with any hash function and bucket count there is no undefined behaviour and the processors see exactly what a map gives them; Count is exact; iterator loops visit each record once even while writing and removing. Precondition: no record block reaches 2^31 bytes."},
 {"property": "C12", "status": "proved", "theorems": ["C12_lru", "C12_latest", "C12_rebuild_refuted", "C12_memory_refuted"], "note": "Every history of Process, ProcessMulti, ProcessFirst, ProcessEach, Clear and Rebuild over arbitrary processors, on the slots with their pointers. Refuted companions: Rebuild with a smaller capacity keeps the least recently used records, and the memory capacity is not a bound when values are overwritten."},
 {"property": "C13", "status": "partial", "theorems": ["C13_history_partial", "C13_step_partial", "C13_reading", "C13_map_partial", "C13_each_refuted", "C13_first_refuted"], "note": "Any history of calls from the empty database matches an ordered map (statuses, what processors see, records, iterator positions, exact count), for any total preorder of keys. Missing: histories whose tree exceeds 20 inner levels (path array overflow) are excluded as an outcome; removing the last record of a leaf reads front() of an empty vector (C13_each_refuted); ProcessFirst(writable=false) writes (C13_first_refuted)."},
 {"property": "C14", "status": "partial", "theorems": ["C14_scan", "C14_tree_scan", "C14_previous_refuted", "C13_reading", "C15_reading"], "note": "Every iterator move stands at the record the key order requires and scans are complete and ordered, for BabyDBM and TreeDBM. False of the code: Previous after Jump to an absent key past the end of its leaf skips that leaf (C14_previous_refuted)."},
 {"property": "C15", "status": "partial", "theorems": ["C15_history_partial", "C15_step_partial", "C15_reading", "C15_map_partial", "C15_evictions", "C15_pages_in_file", "C15_cached_partial", "C15_on_file_partial", "C15_clear_partial", "C16_pages", "C15_remove_refuted"], "note": "As C13 for every page size and branch limit. Evictions, saves and loads of pages are invisible: for nodes (C15_evictions, C15_pages_in_file), and for whole sessions of calls on the tree whose nodes are in a cache of pages over a map (C15_cached_partial) or over a hash database file of any format (C15_on_file_partial), with any pages saved or evicted before every operation on a node; with Clear too (C15_clear_partial). Missing: trees deeper than 32 inner levels; front() of an emptied leaf is undefined (C15_remove_refuted)."},
 {"property": "C16", "status": "partial", "theorems": ["C16_leaf_page", "C16_inner_page", "C16_page_size", "C16_leaf_saved", "C16_metadata_partial", "C16_metadata_one_leaf", "C16_pages", "C16_session_pages", "C16_reopen_image", "C16_reopen_partial", "C16_reopen_one_leaf_partial", "C16_last_refuted", "C16_reopen_refuted", "C16_damaged_refuted", "C16_page_limit_refuted"], "note": "Pages are read back in full. All metadata are, except the last leaf, which ParseMetadata reads from the offset of the first one; so after reopening Last and JumpLower are wrong (C16_reopen_refuted) and all other calls are right (C16_reopen_partial). After any session of calls with any evictions, the stored pages are the nodes of the tree (C16_session_pages)."},
 {"property": "C17", "status": "proved", "theorems": ["C17_skip_search", "C17_lower_refuted", "C17_unsynchronized_refuted"], "note": "All parameters, ordered record lists (duplicates allowed), caches and call sequences; JumpLower with duplicates and Last before synchronization are refuted against the documentation"},
 {"property": "C18", "status": "partial", "theorems": ["C18_skip_history_partial", "C18_merged", "C18_merged_all", "C18_removal", "C18_reducers", "C18_removing_value_refuted", "C18_inorder_removal_refuted", "C18_merge_order_refuted"], "note": "Stable merge under any history; the unconditional statement is false (values equal to the removal mark, in-order removals into an empty database, merged files come first)"},
 {"property": "C19", "status": "partial", "theorems": ["C19_skip_set_partial", "C19_skip_set_refuted"], "note": "False of the code when old_value is given and the key exists: proved for every history"},
 {"property": "C20", "status": "proved", "theorems": ["C20_decode", "C20_injective", "C20_logger_ids", "C20_buffer", "C20_parse_inside", "C20_filter", "C20_history", "C20_replay", "C20_rebuild", "C20_mirror", "C20_buffer_refuted", "C20_parse_any_refuted", "C20_apply_status_refuted", "C20_text_injective_refuted", "C20_replay_empty_refuted", "C20_replay_unsynced_refuted", "C20_replay_hang_refuted"], "note": "Replay of a closed queue after any execution of it; messages of at most 2^30 bytes and every queue file with at least one message. The refuted theorems show what goes wrong outside: one-byte overrun for ids and sizes all >= 2^28, INFEASIBLE_ERROR on a file without messages, endless loop on a zero-filled tail, lost status of the target, negative sizes in forged messages."},
 {"property": "C21", "status": "proved", "theorems": ["C21_fifo", "C21_read_turn", "C21_reads_all", "C21_write_succeeds", "C21_reopen", "C21_remove_old", "C21_remove_old_latest_refuted"], "note": "Executions of one queue and one reader at a time, with rotation, reopening and crashes; preconditions: messages below 2^32-1 bytes, file ids of at most ten digits, size limit at most 2^47. RemoveOldFiles without exclude_latest can remove newer messages (refuted)."},
 {"property": "C22", "status": "partial", "theorems": ["C22_recovery_partial", "C22_zero_tail", "C22_torn_metadata_refuted", "C22_short_file_refuted", "C22_timestamp_refuted", "C22_message_missed_refuted", "C22_new_file_refuted", "C22_zero_fill_refuted", "C22_torn_body_refuted"], "note": "Whole messages survive a crash at every byte of the data part when the cut is at a message boundary, in its header with IGNORE_BROKEN, or followed by zeros. False as stated: a torn message makes Open fail without IGNORE_BROKEN, torn metadata makes it fail in both modes, and the timestamp restarts from the last synchronization."},
 {"property": "C23", "status": "partial", "theorems": ["C23_reader_partial", "C23_reader_refuted", "C23_direct", "C23_import_partial", "C23_import_refuted", "C23_save_partial", "C23_save_refuted", "C23_keys_partial", "C23_reader_any_file", "C23_import_any_file"], "note": "Exact round trip for every sequence not ending in an empty record, any buffer size; the property as stated is false of the code: a trailing empty record is not read back (the reader treats two remaining bytes as the end), so an exported database whose last value is empty cannot be imported or reopened (refuted theorems, for all such inputs). On arbitrary bytes the reader and the import end, and what is read are the consecutive records at the start of the file."},
 {"property": "C24", "status": "proved", "theorems": ["C24_tsv", "C24_tsv_contents", "C24_lines", "C24_tsv_plain", "C24_tsv_plain_refuted"], "note": "Export with escaping followed by import with unescaping sets every record byte for byte, whatever the alignment with the reader buffer; without escaping only bytes >= 32 other than 127 (and tabs in values) survive."},
 {"property": "C25", "status": "partial", "theorems": ["C25_lexical", "C25_lexical_case", "C25_decimal", "C25_hexadecimal", "C25_hexadecimal_value", "C25_signed_big_endian", "C25_float_big_endian", "C25_real_number_partial", "C25_pair", "C25_real_number_refuted", "C25_decimal_overflow_refuted", "C25_hexadecimal_order_refuted", "C25_signed_three_bytes_refuted", "C25_real_number_exponent_refuted", "C25_pair_out_of_bounds_refuted"], "note": "Proved for every comparator except RealNumberKeyComparator, which is a preorder only away from NaN and refuted on all keys. Float arithmetic is abstract."},
 {"property": "C26", "status": "proved", "theorems": ["C26_pair", "C26_pair_injective", "C26_vector", "C26_map", "C26_map_any", "C26_basic_vector", "C26_delta_vector", "C26_delta_zigzag_vector", "C26_int_delta", "C26_int_big_endian", "C26_zigzag_int32_overflow_refuted", "C26_zigzag_uint32_refuted", "C26_malformed_never_returns_refuted", "C26_malformed_pair_refuted", "C26_large_vector_refuted"], "note": "Refuted outside of the stated ranges: zigzag overflow/wrap, serializations from 2^31 bytes read as empty, malformed input loops forever or reaches out of bounds."},
 {"property": "C27", "status": "proved", "theorems": ["C27_escape", "C27_base64", "C27_url", "C27_utf8", "C27_utf8_large_dropped", "C27_decimal", "C26_int_delta", "C26_int_big_endian"], "note": "All byte strings; UTF-8 for code points below 2^31 (larger ones are silently dropped: C27_utf8_large_dropped); decimal for |v| <= 2^63-49 as in the code's range handling."},
 {"property": "C28", "status": "partial", "theorems": ["C28_first", "C28_first_BM_partial", "C28_BM_byte_255_refuted", "C28_first_Z_exact", "C28_first_Z_partial", "C28_Z_NUL_refuted", "C28_whole", "C28_whole_BM_partial", "C28_batch", "C28_batch_RK_empty_refuted"], "note": "Fully proved for StrSearch, DoubleLoop, Memchr, KMP, RK and the whole/batch variants. False of the code for BM with byte 255 (table of 255 entries accessed at 255), for Z with a NUL after a match or empty text, and for StrSearchBatchRK with an empty pattern (limit ignored): refuted theorems and exact conditions given."},
 {"property": "C29", "status": "proved", "theorems": ["C29_checksum_is_sum", "C29_magic_detects_byte_change", "C29_crc_sliced_is_bitwise", "C29_crc_continuous", "C29_crc32_detects_burst", "C29_crc_detects_byte_change"], "note": "Checksum and CRC functions at byte level."},
 {"property": "C30", "status": "proved", "theorems": ["C30_is_prime", "C30_bucket_size", "C30_monotone"], "note": "std::sqrt is any function between the integer square root and the number; that a prime exists below 2^63-1 is a premise (Bertrand's postulate is not proved)"},
 {"property": "C31", "status": "partial", "theorems": ["C31_exclusion_partial", "C31_free_lock", "C31_shared_lock", "C31_upgrade", "C31_exclusion_refuted", "C31_spin_mutex"], "note": "Both reader-writer locks and SpinMutex as interleavings of any number (below 2^31-1) of threads with sequentially consistent atomics. Exclusion holds while the 32-bit counter does not wrap; C31_exclusion_refuted shows an interleaving of about 2^33 steps in which it wraps and a reader enters beside a writer."},
 {"property": "C32", "status": "proved", "theorems": ["C32_index", "C32_exclusion", "C32_no_deadlock", "C32_calls_progress", "C32_terminates", "C32_ascending", "C32_rehash_doc_refuted"], "note": "All interleavings of any number of threads over all methods, with slot mutexes abstracted to reader-writer locks (C31) and Rehash called under LockAll. With the weaker precondition documented for Rehash (LockOne) the index can go stale: C32_rehash_doc_refuted."},
 {"property": "C33", "status": "proved", "theorems": ["C33_history", "C33_get_order", "C33_subscript_refuted", "C33_rehash_zero"], "note": "Pointer-level model; every history of operations on two maps (with migrations) refines ordered lists, with no null or freed pointer used. operator[] is shown to overwrite an existing value, contrary to its documentation."},
 {"property": "C34", "status": "proved", "theorems": ["C34_lru", "C34_double", "C34_double_contents", "C34_zero_capacity_refuted", "C34_give_back_refuted"], "note": "Add returns the entry already kept if there is one; Get of an absent id with promotion still demotes; hot capacity 0 and giving back a hot id are refuted cases"},
 {"property": "C35", "status": "proved", "theorems": ["C35_process", "C35_process_multi", "C35_process_first", "C35_forwarded", "C35_same_results", "C35_compare_exchange_multi", "C35_compare_exchange_multi_total", "C35_count", "C35_one_list", "C35_iterator", "C35_scan_up", "C35_scan_down", "C35_each", "C35_remove_down_refuted", "C35_process_stale_refuted"], "note": "Any number of shards, any hash to them, any kind of database in the shards for the operations on records; ordered maps under a total comparator for the iterator. Removal through the iterator after a descending move is undefined in the code (C35_remove_down_refuted), and Get after Process gives the old value (C35_process_stale_refuted): both are excluded from C35_iterator by name."},
 {"property": "C36", "status": "partial", "theorems": ["C36_exactly_once", "C36_stop", "C36_all_run", "C36_order", "C36_stop_returns_partial", "C36_stop_returns_refuted", "C36_wait_result", "C36_wait_terminates_refuted"], "note": "All interleavings of workers, producers and Stop. Exactly-once, FIFO with one worker, all tasks run when Stop is not called: proved. Termination of Stop and WaitCounter::Wait is refuted (lost wake-ups); Stop returns when no worker is in that window. Restarting a stopped queue is not modelled; the tasks of AsyncDBM are in C52."},
 {"property": "C37", "status": "proved", "theorems": ["C37_database", "C37_get_values", "C37_check_count", "C37_std", "C37_std_get_values", "C37_std_str", "C37_std_str_get_values", "C37_case_order_refuted", "C37_std_negative_refuted"], "note": "Over any history of calls of the index and of any number of iterators. FileIndex, MemIndex and PolyIndex over any database acting as the ordered map of OmapHist.v (which C13-C16 prove of BabyDBM and TreeDBM), with a comparator telling keys apart; StdIndex and StdIndexStr over a std::set. Refuted for PairLexicalCaseKeyComparator (GetValues loses values) and for StdIndex with values below VALUETYPE(). Mutexes are left out."},
 {"property": "C38", "status": "proved", "theorems": ["C38_disjoint", "C38_data", "C38_all", "C38_mapping_stable", "C38_sync_map_refuted", "C38_sync_pos_refuted"], "note": "Append of the memory-mapped and positional parallel files as a transition system over any number of threads with byte-wise copying; regions disjoint, data intact, no access outside the mapping, mapping never moved during a copy. The two _refuted theorems show that the documented restriction (Synchronize is not thread-safe) is needed. Head buffer, page cache, block alignment and failing mremap are not modelled."},
 {"property": "C39", "status": "proved", "theorems": ["C39_history", "C39_flat", "C39_flush", "C39_clear", "C39_request_room", "C39_readonly_tail_refuted", "C39_append_refuted"], "note": "One call at a time (mutexes left out); writes to the file and allocation do not fail. Refuted strengthenings: a read starting inside the unaligned last page of a read-only file fails although the bytes exist; an unaligned write beyond the end of the file fails."},
 {"property": "C40", "status": "proved", "theorems": ["C40_cheapest_unique", "C40_topk", "C40_capacity_zero_refuted", "C40_edit_distance", "C40_edit_distance_overflow_refuted", "C40_metric"], "note": "For every conforming push_heap/pop_heap, capacity > 0; capacity 0 is undefined behaviour, tables of 2^31 cells overflow int32_t. Costs are integers."},
 {"property": "C41", "status": "partial", "theorems": ["C41_merge", "C41_merge_keeps_failure", "C41_copy", "C41_order_partial", "C41_order_refuted"], "note": "Merging is proved in full. operator< is not an order: two statuses of one code and different messages are each below the other (C41_order_refuted)."},
 {"property": "C42", "status": "partial", "theorems": ["C42_rebuild_keeps_contents_partial", "C42_rebuild_reopened_partial", "C42_tree_rebuild", "C42_tree_contents", "C42_tree_tuning_partial", "C49_skip_sessions_partial", "C11_history", "C12_rebuild_refuted"], "note": "HashDBM: copying with any updates running meanwhile, closing, renaming, reopening and any later history. TreeDBM: its pages are records of such a hash database, so the nodes are the same during and after the rebuilding and the metadata are kept (C42_tree_rebuild, C42_tree_contents), and the tree goes on as an ordered map with other limits of pages (C42_tree_tuning_partial; trees deeper than 32 levels and front() of an emptied leaf are excluded as in C15). SkipDBM: Rebuild is one of the calls of C49_skip_sessions_partial. TinyDBM: in C11_history. False for CacheDBM, which drops records if its capacity is reduced (C12_rebuild_refuted)."},
 {"property": "C43", "status": "proved", "theorems": ["C43_scan", "C43_interleaved", "C43_jump", "C43_removed_ends_scan_refuted"], "note": "Scan without updates is exact; with arbitrary interleaved updates keys are passed at most once and kept keys are not missed. A record removed under the iterator makes Get report NOT_FOUND although records follow (refuted part)."},
 {"property": "C44", "status": "proved", "theorems": ["C44_split", "C44_split_skip_empty", "C44_idempotent", "C44_components", "C44_same_place", "C44_canonical", "C44_join", "C44_join_absolute", "C44_join_empty_refuted", "C44_dir_base", "C44_dir_name", "C44_base_name", "C44_extension"], "note": "POSIX branch of the path functions. JoinPath with an empty base gives an absolute path."},
 {"property": "C45", "status": "partial", "theorems": ["C08_stale_free_blocks_refuted", "C08_stale_free_blocks_loop_refuted"], "note": "The claim is false of the code: the free block section is written only by Close, so a copy taken by Synchronize (or a crash inside Close) opens as healthy with a stale free block list; the next Set then overwrites a live record or makes a bucket chain loop. Both outcomes are exhibited."},
 {"property": "C46", "status": "proved", "theorems": ["C08_reopen", "C08_sessions", "C08_unclosed_not_healthy"], "note": "In-place and appending mode; restore of unhealthy files is C05."},
 {"property": "C47", "status": "proved", "theorems": ["C47_word_search", "C47_case_search", "C47_case_word_search", "C47_modal", "C47_edit_distance", "C47_order", "C47_order_ends", "C47_order_capacity_zero_refuted", "C47_forward_match", "C47_forward_match_other_order_refuted"], "note": "The regular-expression mode is not modelled (std::regex). Ordered databases are taken by their specification in OmapHist. The order modes with capacity 0 (documented as unlimited) return nothing."},
 {"property": "C48", "status": "proved", "theorems": ["C48_mmap", "C48_mmap_synchronized", "C48_positional", "C48_positional_cached", "C48_positional_synchronized", "C48_positional_cached_synchronized", "C48_std", "C48_null_codes_refuted", "C48_fake_size_refuted", "C48_mmap_fault_refuted", "C48_no_growth_refuted", "C48_std_differs_refuted", "C48_head_readonly_refuted", "C48_cache_fake_refuted"], "note": "Refinement of a nondeterministic array of bytes (FioSpec) by the three models, for all call sequences. The page cache needs files opened for writing and no TruncateFakely; block sizes must divide max(page, block). The refuted theorems show where the interface comments promise more than the code does: null codes after shrinking, the bound of TruncateFakely, growth factors <= 0."},
 {"property": "C49", "status": "partial", "theorems": ["C49_skip_sessions_partial", "C49_reopen", "C49_crash", "C49_torn", "C49_checked", "C49_clear_close_refuted", "C49_restore_refuted"], "note": "All histories of calls, sessions, kills and cuts of the file; parameters out of range are refused (C49_checked). The last sentence is false of the code after Clear (refuted); restoring a file with damaged magic bytes makes up records (refuted)."},
 {"property": "C50", "status": "partial", "theorems": ["C50_aes_is_fips197", "C50_dummy_round_trip", "C50_rc4_round_trip", "C50_aes_round_trip", "C50_rc4_format", "C50_aes_format", "C50_dummy_detects", "C50_refuses_short", "C50_hash_transparent", "C50_codecs", "C50_aes_counter_refuted", "C50_aes_key32_refuted", "C50_rc4_long_key_refuted", "C50_aes_repeat_refuted"], "note": "All but the last sentence is proved. The last is false of the code: AES ignores the second half of a key of exactly 32 bytes and RC4 ignores the vector with keys of 256 bytes or more (refuted); equal neighbouring blocks show under AES, and from 2^35 bytes on its block counter overflows (refuted)."},
 {"property": "C51", "status": "partial", "theorems": ["C51_history", "C51_order", "C51_no_dangling", "C51_log", "C51_iteration", "C51_interface", "C51_reopen_partial", "C51_reopen_refuted", "C51_crash", "C51_disk_full_refuted", "C51_failed_open_refuted", "C51_readonly_refuted", "C51_open_hangs_refuted", "C51_open_returns", "C51_timestamp_refuted", "C51_timestamp", "C51_open_first_partial", "C51_open_outcomes"], "note": "In memory: a refinement over all calls and iterators, any placement of the hash container, every dangling use undefined in the model and proved unreachable. With the file: the round trip for databases whose last record has a value, crashes of the saving, and that only malformed metadata keep Open from returning. The rest of the file sentences is false of the code (refuted theorems): empty last value, incomplete file replacing the good one, records left by a refused file, updates on read-only databases, hanging on malformed metadata, uninitialized timestamp."},
 {"property": "C52", "status": "partial", "theorems": ["C52_serial", "C52_defined", "C52_one_worker", "C52_real_time", "C52_destructor", "C52_ready", "C52_arguments", "C52_future", "C52_destructor_returns_refuted", "C52_post_refuted", "C52_post_name_refuted", "C52_set_post_refuted", "C52_wait_refuted", "C52_methods", "C52_names"], "note": "All interleavings of the task queue of C36 with tasks that hold copies of the arguments; views of a reallocated vector, a replaced postprocessor and an overflow of Increment are undefined in the model. Proved: serial execution, order, real-time order, results before the destructor returns, bounded progress. False of the code (refuted theorems): the destructor returns, the postprocessor is told of every call by its name, it may be replaced at any time, Wait after Get. A database method is one atomic step; PushLast, Clear, Rebuild, Synchronize, CopyFileData, Export, flat records, SearchModal and Process* are any functions of the database."},
 {"property": "C53", "status": "partial", "theorems": ["C53_linearizable", "C53_defined", "C53_no_race", "C53_writes", "C53_reads", "C53_count", "C53_no_deadlock", "C53_library", "C53_each_refuted", "C53_first_refuted", "C53_count_refuted"], "note": "All interleavings of single accesses for Process, Append, ProcessMulti, Count, Clear, Rebuild and writing ProcessFirst/ProcessEach: linearizability, no use of freed memory, no race, no deadlock, for any number of threads. False of the code: ProcessFirst and ProcessEach as readers use records freed by other threads; Count during ProcessMulti is not the number of any moment. The update log, the iterators and the files are not in the concurrent model."},
 {"property": "C54", "status": "partial", "theorems": ["C54_wait", "C54_send", "C54_asleep", "C54_wakes", "C54_locks", "C54_no_deadlock", "C54_pattern_refuted", "C54_one_refuted", "C54_all_refuted", "C54_timeout_true_refuted", "C54_timeout_lost_refuted"], "note": "All interleavings for any number of threads and keys. Partial because the documented use (Waiter constructed before the check), notification of one, time limits, and the waking of all waiting threads are false of the code, with executions; Wait returning true is proved for executions without time limits. Assumed: a thread has at most one Waiter and does not Send while it has one."},
 {"property": "C55", "status": "partial", "theorems": ["C55_split", "C55_split_join", "C55_split_skip", "C55_split_char", "C55_split_empty", "C55_split_any", "C55_split_any_skip", "C55_join", "C55_join_refuted", "C55_join_split", "C55_into_map", "C55_case", "C55_replace", "C55_replace_none", "C55_replace_chars", "C55_strip", "C55_strip_only", "C55_strip_idem", "C55_strip_line", "C55_squeeze", "C55_words", "C55_tsv", "C55_oct", "C55_bool"], "note": "All functions named are proved to meet the relation in the statement for all byte strings. Refuted for StrJoin: empty elements at the front lose their delimiters, so the round trip through StrSplit is proved for a first element that is not empty."},
 {"property": "C56", "status": "partial", "theorems": ["C56_linearizable", "C56_defined", "C56_race", "C56_no_race", "C56_writes", "C56_reads", "C56_no_deadlock", "C56_serial", "C56_first_refuted", "C56_each_refuted", "C56_count_refuted"], "note": "Proved for all interleavings: sections are atomic, Process and ProcessMulti as a whole, no undefined behaviour, no deadlock, no race for calls other than ProcessEach as writer. Refuted with executions: ProcessFirst as writer can be told its record is missing though the database is never empty; ProcessEach as writer reads a counter without its lock; Count can give a number the database never had. Iterators, update log and files are not in the concurrent model."},
 {"property": "C57", "status": "partial", "theorems": ["C57_linearizable", "C57_defined", "C57_no_race", "C57_writes", "C57_reads", "C57_no_deadlock", "C57_alone", "C57_first_refuted", "C57_count_refuted"], "note": "Proved for all interleavings and any number of threads, for calls of ProcessFirst that pass writable=true or a processor which asks for no change: linearizability, no undefined behaviour other than that of one thread (C13), no race, no deadlock, calls that do not overlap are those of one thread. Refuted with executions: ProcessFirst with writable=false and a writing processor races; Count sees the middle of a ProcessMulti. Iterators, update log and files are not in the concurrent model."},
 {"property": "C58", "status": "partial", "theorems": ["C58_calendar", "C58_day_of_week_partial", "C58_day_of_week_refuted", "C58_w3cdtf_partial", "C58_simple_partial", "C58_simple_refuted", "C58_rfc1123_partial", "C58_rfc1123_refuted", "C58_w3cdtf_frac_partial", "C58_w3cdtf_frac_refuted", "C58_string_inside", "C58_view_refuted", "C58_buffer", "C58_buffer_refuted"], "note": "Proved for the years 0 to 9999 (four digits), zones of whole minutes of less than 100 hours, RFC 1123 from 1970 on, fractions that do not round up to 1 in twelve digits, and GetDayOfWeek from the year 1 on; refuted beyond: FormatDateRFC1123 takes the current time for any negative one and ParseDateStr adds 1900 to years before 1969, a fraction rounded up to 1 makes a malformed text, 48 bytes do not hold every text with twelve digits of fraction, FormatDateSimple returns the size of a text it cut, and ParseDateStr reads memory after a string_view (one byte after a number with a unit of one letter; a C string at the fraction, with the length as default)."},
 {"property": "C59", "status": "partial", "theorems": ["C59_documented_partial", "C59_extension", "C59_unknown_params", "C59_unknown_comparator", "C59_close_partial", "C59_case_comparator_refuted", "C59_tree_comparator_refuted", "C59_rejected_refuted", "C59_default_file_refuted", "C59_reducer_partial", "C59_reducer_refuted", "C59_rebuild", "C59_rebuild_comparator_refuted", "C59_synchronize", "C59_synchronize_refuted", "C59_restore"], "note": "Documented arguments open the database they ask for; unknown parameters are rejected before anything is opened, and so are unknown comparators of BabyDBM; Close reports what the database does. False, and refuted: the comparators that ignore case are not found by their documented names; TreeDBM takes any unknown comparator for the default; a wrong parameter of the update log is rejected after the database was opened, and leaves a wrong flag; the default file class is not the documented one. RebuildAdvanced rejects unknown parameters and does nothing; SynchronizeAdvanced merges databases before it rejects a parameter (C59_synchronize_refuted)."}
]}
