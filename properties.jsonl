{"id": "C01", "title": "Integer codecs round-trip", "statement": "Every unsigned 64-bit number that fits the chosen width is read back unchanged by ReadFixNum after WriteFixNum; every unsigned 64-bit number is read back unchanged by ReadVarNum after WriteVarNum, consuming exactly SizeVarNum bytes whatever bytes follow, and a strict prefix of an encoding is rejected (0 is returned) instead of being misread.", "quantifier": "all numbers, all widths 1..8, all following bytes, all truncation points", "why_tests_cant": "2^64 values times all suffixes and truncations; the encoders use byte tricks whose boundary cases (2^7k) are a vanishing share of samples", "anchors": ["tkrzw_sys_config.h: WriteFixNum, ReadFixNum, WriteVarNum, ReadVarNum, SizeVarNum"]}
{"id": "C02", "title": "HashDBM record format round-trips", "statement": "A record written to a HashDBM file with any key, value, operation type, child offset, checksum mode and padding is read back with exactly the same key, value, type, child offset and whole size, independent of what follows in the file, and the whole size is a multiple of the alignment and at least the needed size.", "quantifier": "all keys, values, offsets, CRC widths, offset widths 3..6, alignment powers 0..16, padding requests and following bytes within the documented size limits", "why_tests_cant": "format has five interacting variable-width fields; tests use a few short strings", "anchors": ["tkrzw_dbm_hash_impl.cc: HashRecord::SetData, HashRecord::Write, HashRecord::ReadMetadataKey, HashRecord::ReadBody"]}
{"id": "C03", "title": "HashDBM (in-place mode) is a map", "statement": "After any sequence of Set/Remove/Process operations, Get of any key returns the value of the latest update of this key, absent keys are reported NOT_FOUND, and Count is the number of live keys, whatever the hash collisions, record sizes, reuse of free blocks and alignment.", "quantifier": "all operation histories, keys, values, bucket counts, hash functions", "why_tests_cant": "bugs hide in particular orders of chain relinking and free block reuse; state space is infinite", "anchors": ["tkrzw_dbm_hash.cc: HashDBMImpl::ProcessImpl, HashDBMImpl::WriteChildOffset..., tkrzw_dbm_hash_impl.cc: FreeBlockPool"]}
{"id": "C04", "title": "HashDBM (appending mode) is a map", "statement": "In the appending update mode any history of operations gives the same observable map as the in-place mode although removed and replaced records stay in the file.", "quantifier": "all operation histories, keys, values, bucket counts, hash functions", "why_tests_cant": "same as above; the appending relink logic (child = old child or old top) differs per chain position", "anchors": ["tkrzw_dbm_hash.cc: HashDBMImpl::ProcessImpl"]}
{"id": "C05", "title": "Crash in appending mode loses only a suffix of updates", "statement": "If a process stops after any number of bytes of the append log reached the file, restoring the database gives exactly the map produced by some prefix of the executed updates, containing at least all updates wholly written.", "quantifier": "all histories and all crash points (byte granularity of the log)", "why_tests_cant": "crash points cannot be enumerated by unit tests", "anchors": ["tkrzw_dbm_hash.cc: HashDBM::RestoreDatabase, HashDBM::ImportFromFileForward/Backward", "tkrzw_dbm_hash_impl.cc: ReplayOperations"]}
{"id": "C06", "title": "Backward and forward import agree", "statement": "Restoring a database file by scanning records forward and applying them, and by scanning backward keeping the newest operation of each key, give the same map.", "quantifier": "all record sequences of all lengths, with any number of in-memory and on-disk dead/live marks", "why_tests_cant": "equivalence of two algorithms over all inputs", "anchors": ["tkrzw_dbm_hash.cc: HashDBM::ImportFromFileForward, HashDBM::ImportFromFileBackward"]}
{"id": "C07", "title": "Free blocks are never handed out twice", "statement": "The free block pool returns a block of at least the requested size, chooses the smallest sufficient one, removes it from the pool, never exceeds its capacity, drops only smaller blocks than those it keeps, and survives being saved in and loaded from the file as the largest blocks that fit.", "quantifier": "all insertion/fetch histories, capacities and alignments", "why_tests_cant": "a double allocation corrupts unrelated records only in rare histories", "anchors": ["tkrzw_dbm_hash_impl.cc: FreeBlockPool::InsertFreeBlock, FetchFreeBlock, Serialize, Deserialize"]}
{"id": "C08", "title": "HashDBM metadata survive reopening and torn headers are detected", "statement": "Saving and loading the HashDBM header gives back every field; a header of which only a part was overwritten by a newer version is reported as broken (front and back counters differ) unless the counters coincide modulo 255.", "quantifier": "all field values in range, all cut points of a torn header write", "why_tests_cant": "needs every torn-write point", "anchors": ["tkrzw_dbm_hash.cc: HashDBMImpl::SaveMetadata, LoadMetadata, HashDBM::ReadMetadata"]}
{"id": "C09", "title": "Every record operation of the DBM interface has its documented effect", "statement": "Set (with and without overwrite), Remove, Append, CompareExchange, Increment, CompareExchangeMulti, Rekey, PopFirst and PushLast, defined through record processors, change and report exactly what their documentation says on any map, also when several keys coincide.", "quantifier": "all maps, keys, values, expected/desired combinations, including aliasing keys", "why_tests_cant": "case explosion of null/any expectations and aliasing keys", "anchors": ["tkrzw_dbm.h: DBM::RecordProcessor*, DBM::Set, Remove, Append, CompareExchange, Increment, CompareExchangeMulti, Rekey, PopFirst, PushLast"]}
{"id": "C10", "title": "CompareExchangeMulti is all-or-nothing", "statement": "Either every expected condition holds in the state before the call and all desired updates are applied in order, or nothing changes and INFEASIBLE_ERROR is returned.", "quantifier": "all maps, all lists of conditions and updates (with duplicates)", "why_tests_cant": "lists of any length with repeated keys", "anchors": ["tkrzw_dbm.h: DBM::CompareExchangeMulti", "tkrzw_dbm_shard.cc: ShardDBM::CompareExchangeMulti"]}
{"id": "C11", "title": "TinyDBM is a map", "statement": "TinyDBM behaves as a finite map under any history of operations including rebuilds that change the bucket count, and Count is exact.", "quantifier": "all histories, bucket counts, hash functions", "why_tests_cant": "chain surgery on colliding keys in all positions", "anchors": ["tkrzw_dbm_tiny.cc: TinyDBMImpl::ProcessImpl, RebuildImpl/AppendImpl"]}
{"id": "C12", "title": "CacheDBM bounds and LRU order", "statement": "CacheDBM never holds more records per slot than its capacity, a lookup returns the latest value written for the key or NOT_FOUND, and when a record is evicted it is the least recently used one of its slot.", "quantifier": "all histories of reads and writes", "why_tests_cant": "LRU bugs need specific access orders", "anchors": ["tkrzw_dbm_cache.cc: CacheSlot::Process, RemoveLRU, Rebuild"]}
{"id": "C13", "title": "BabyDBM is an ordered map", "statement": "BabyDBM behaves as a finite map under any history of operations, with tree splits and merges invisible to lookups, and Count is exact.", "quantifier": "all histories, all key comparators that are total preorders, any tree size", "why_tests_cant": "multi-level splits and merges need more than 65536 records", "anchors": ["tkrzw_dbm_baby.cc: BabyDBMImpl::SearchTree, ProcessImpl, ReorganizeTree, DivideNodes, MergeNodes"]}
{"id": "C14", "title": "Ordered iteration of BabyDBM/TreeDBM", "statement": "First, Last, Jump, JumpLower, JumpUpper, Next and Previous visit exactly the record required by the key order, and a full scan visits every record once in ascending order.", "quantifier": "all tree shapes (including empty leaves), all keys", "why_tests_cant": "boundary leaf positions", "anchors": ["tkrzw_dbm_baby.cc: BabyDBMIteratorImpl", "tkrzw_dbm_tree.cc: TreeDBMIteratorImpl"]}
{"id": "C15", "title": "TreeDBM is an ordered map", "statement": "TreeDBM behaves as a finite ordered map under any history of operations, page sizes, branch limits and page cache evictions.", "quantifier": "all histories, page sizes, branch limits", "why_tests_cant": "multi-level splits/merges and cache eviction interleavings", "anchors": ["tkrzw_dbm_tree.cc: TreeDBMImpl::ProcessImpl, DivideNodes, MergeNodes, SaveLeafNodeImpl, LoadLeafNode"]}
{"id": "C16", "title": "TreeDBM pages and metadata survive reopening", "statement": "Leaf and inner pages and the tree metadata (record count, root, first and last leaf, limits, comparator) are read back as they were written, so a reopened database iterates as before closing.", "quantifier": "all pages, ids and metadata values", "why_tests_cant": "all record contents and sizes", "anchors": ["tkrzw_dbm_tree.cc: SaveMetadata, LoadMetadata, ParseMetadata, SaveLeafNodeImpl, DeserializeLeafNode, SaveInnerNode, DeserializeInnerNode"]}
{"id": "C17", "title": "SkipDBM search finds the first matching record", "statement": "Lookup by key returns the first record having the key (or, for Jump, the first one not less than it) and lookup by index returns the record at that index, for any step unit, level limit and number of records, with or without cached records.", "quantifier": "all sorted record sequences, step units >= 2, level limits, keys and indices", "why_tests_cant": "skip pointers of all levels; off-by-one at the end of file", "anchors": ["tkrzw_dbm_skip_impl.cc: SkipRecord::Search, SearchByIndex, UpdatePastRecords, SkipRecordCache"]}
{"id": "C18", "title": "SkipDBM synchronization is a stable merge", "statement": "After Synchronize the database holds the sorted multiset union of the former records and the inserted ones, equal keys in order of insertion, with removals and the reducer applied to the values of each key.", "quantifier": "all histories of insertions/removals, flush points of the sorter and reducers", "why_tests_cant": "flush boundaries and equal keys over many temporary files", "anchors": ["tkrzw_dbm_skip.cc: SkipDBMImpl::FinishStorage, UpdateRecord, SkipDBM::ReduceRemove", "tkrzw_dbm_skip_impl.cc: RecordSorter"]}
{"id": "C19", "title": "SkipDBM Set honours its arguments", "statement": "SkipDBM::Set with overwrite enabled stores the value whether or not the old value is requested, as documented in DBM::Set.", "quantifier": "all databases, keys and values", "why_tests_cant": "depends on a combination of arguments and existing keys", "anchors": ["tkrzw_dbm_skip.cc: SkipDBM::Set"]}
{"id": "C20", "title": "Replaying an update log rebuilds the database", "statement": "Writing the update log of any history of updates and applying the log to an empty database gives the same contents; each log message decodes to the logged operation; filters by server id and dbm index select exactly the intended operations.", "quantifier": "all histories, keys, values, ids", "why_tests_cant": "binary codec over unbounded strings and histories", "anchors": ["tkrzw_dbm_ulog.cc: DBMUpdateLoggerMQ, ParseUpdateLog, ApplyUpdateLog, ApplyUpdateLogFromFiles"]}
{"id": "C21", "title": "MessageQueue is a FIFO with ordered timestamps", "statement": "A reader starting at timestamp t receives exactly the written messages whose effective timestamp is >= t, in the order they were written, across file rotations; timestamps never decrease.", "quantifier": "all sequences of writes (messages, timestamps), file size limits and reader start times", "why_tests_cant": "rotation boundaries and equal timestamps", "anchors": ["tkrzw_message_queue.cc: MessageQueueImpl::Write, MessageQueueReaderImpl::Read, MessageQueue::ReadNextMessage"]}
{"id": "C22", "title": "MessageQueue recovers after a crash", "statement": "After a crash at any byte, reopening the queue keeps all wholly written messages and continues with timestamps not lower than those already delivered.", "quantifier": "all write sequences and all crash points", "why_tests_cant": "byte-granular crash points", "anchors": ["tkrzw_message_queue.cc: MessageQueueImpl::Open"]}
{"id": "C23", "title": "Flat record files return what was written", "statement": "Reading a file of flat records returns exactly the written sequence of byte strings, for any reader buffer size; exporting any database to flat records and importing it gives the same contents, so the on-memory databases can be reopened after saving.", "quantifier": "all sequences of byte strings (including empty ones), buffer sizes", "why_tests_cant": "buffer boundary alignment and empty trailing records", "anchors": ["tkrzw_file_util.cc: FlatRecord, FlatRecordReader::Read", "tkrzw_dbm_common_impl.cc: ExportDBMToFlatRecords, ImportDBMFromFlatRecords", "tkrzw_dbm_tiny.cc: ImportRecords, ExportRecords"]}
{"id": "C24", "title": "TSV export/import keeps records", "statement": "Exporting with escaping and importing with escaping gives back every key and value byte for byte.", "quantifier": "all byte strings", "why_tests_cant": "all special bytes in all neighbourhoods (octal/hex escapes followed by digits)", "anchors": ["tkrzw_dbm_common_impl.cc: ExportDBMToTSV, ImportTSVToDBM", "tkrzw_str_util.cc: StrEscapeC, StrUnescapeC"]}
{"id": "C25", "title": "Key comparators are total preorders", "statement": "Each built-in key comparator is antisymmetric in sign and transitive on the keys it is meant for, and the lexical one is zero only for equal keys, as required by the ordered databases.", "quantifier": "all triples of keys", "why_tests_cant": "triples of arbitrary strings", "anchors": ["tkrzw_key_comparators.h: LexicalKeyComparator, LexicalCaseKeyComparator, DecimalKeyComparator, HexadecimalKeyComparator, RealNumberKeyComparator, SignedBigEndianKeyComparator, FloatBigEndianKeyComparator, Pair*KeyComparator"]}
{"id": "C26", "title": "Serialized pairs, lists, maps and integer vectors round-trip", "statement": "Deserializing a serialized string pair, string vector, string map or integer vector gives back the input, as long as the serialized vector or map is below 2^31 bytes and, with zigzag, the integers are in the half range of their 32-bit or 64-bit type.", "quantifier": "all strings and integers, all lengths", "why_tests_cant": "varnum size boundaries and integer extremes", "anchors": ["tkrzw_str_util.cc: SerializeStrPair, DeserializeStrPair, SerializeStrVector, SerializeStrMap; tkrzw_str_util.h: SerializeBasicVector, SerializeIntVectorDelta"]}
{"id": "C27", "title": "Text encodings round-trip", "statement": "C-style escaping, Base64, URL encoding, UTF-8 (code points below 2^31) and the decimal, big-endian and delta integer encodings decode to the original.", "quantifier": "all byte strings; all sequences of code points below 2^31; all integers of the documented ranges (decimal: |v| <= 2^63-49)", "why_tests_cant": "all lengths modulo block size and all byte values", "anchors": ["tkrzw_str_util.cc: StrEscapeC, StrUnescapeC, StrEncodeBase64, StrDecodeBase64, StrEncodeURL, StrDecodeURL, ConvertUTF8ToUCS4, ConvertUCS4ToUTF8, IntToStrBigEndian, StrToIntBigEndian"]}
{"id": "C28", "title": "All string search functions agree", "statement": "StrSearch, StrSearchDoubleLoop, StrSearchMemchr, StrSearchKMP, StrSearchBM, StrSearchRK and StrSearchZ return the index of the first occurrence of the pattern, or -1; the StrSearchWhole* and StrSearchBatch* functions return the first max_results occurrences in order (all of them for 0).", "quantifier": "all texts and patterns", "why_tests_cant": "algorithmic equivalence over all strings", "anchors": ["tkrzw_str_util.cc: StrSearch*"]}
{"id": "C29", "title": "Record checksums detect corruption", "statement": "The record checksum of a key/value pair does not depend on where the key ends being computed in pieces, and a change of any single byte (by an amount not divisible by the modulus) is always detected; the table-sliced CRC equals the bitwise CRC for any split of the data.", "quantifier": "all byte strings, split points and single-byte corruptions", "why_tests_cant": "all positions and byte values", "anchors": ["tkrzw_hash_util.cc: HashChecksum6Pair, HashChecksum8Pair, HashCRC8/16/32, HashCRC8Continuous..."]}
{"id": "C30", "title": "Bucket counts are usable primes", "statement": "GetHashBucketSize returns a number not smaller than the request, prime up to the primality limit, and shrinking requests never grow the result.", "quantifier": "all 64-bit requests", "why_tests_cant": "unbounded arithmetic domain", "anchors": ["tkrzw_dbm_common_impl.cc: IsPrimeNumber, GetHashBucketSize"]}
{"id": "C31", "title": "Spin reader-writer lock gives mutual exclusion", "statement": "With SpinSharedMutex a writer never coexists with another writer or a reader, including upgrade and downgrade, and a free lock can be acquired again.", "quantifier": "all interleavings of any number of threads", "why_tests_cant": "schedules", "anchors": ["tkrzw_thread_util.h: SpinSharedMutex, SpinWPSharedMutex, SpinMutex"]}
{"id": "C32", "title": "Bucket locks stay consistent under rehash and cannot deadlock", "statement": "LockOne returns the bucket index of the key under the bucket count in force while the lock is held; LockMulti acquires distinct slots in ascending order so that concurrent callers never deadlock.", "quantifier": "all interleavings with Rehash, all key sets", "why_tests_cant": "schedules", "anchors": ["tkrzw_thread_util.h: HashMutex::LockOne, UnlockOne, LockMulti, UnlockMulti, Rehash"]}
{"id": "C33", "title": "LinkedHashMap behaves as an insertion/usage ordered dictionary", "statement": "Get, Set, Remove and Migrate keep the dictionary semantics for any history with any collisions and rehashes, and the order list is a permutation of the entries changed only as the move mode says.", "quantifier": "all histories, hash functions, bucket counts", "why_tests_cant": "pointer surgery on double linked list and chains", "anchors": ["tkrzw_containers.h: LinkedHashMap"]}
{"id": "C34", "title": "LRU page caches keep the most recent entries", "statement": "LRUCache and DoubleLRUCache return what was last added for an id, and remove entries in least recently used order; no entry is lost except by removal.", "quantifier": "all histories, capacities", "why_tests_cant": "access orders", "anchors": ["tkrzw_containers.h: LRUCache, DoubleLRUCache"]}
{"id": "C35", "title": "ShardDBM equals one database", "statement": "For any number of shards ShardDBM gives the same results as a single database for record operations and counts, and its ordered iterator over sorted shards yields the global order.", "quantifier": "all histories, shard counts, hash functions", "why_tests_cant": "hash distribution of arbitrary keys", "anchors": ["tkrzw_dbm_shard.cc: ShardDBM::Process, ProcessMulti, Count, Iterator"]}
{"id": "C36", "title": "Every asynchronous task runs exactly once", "statement": "Tasks added to the queue before Stop are executed exactly once, in order with one worker, and waiting for them terminates.", "quantifier": "all interleavings of producers, workers, Stop and Wait", "why_tests_cant": "schedules", "anchors": ["tkrzw_thread_util.h: TaskQueue, WaitCounter", "tkrzw_dbm_async.cc"]}
{"id": "C37", "title": "Secondary index behaves as a multimap", "statement": "After any history of Add and Remove, GetValues of a key returns exactly the values paired with it in ascending order (up to the limit), and Check agrees.", "quantifier": "all histories, keys (also with keys being prefixes of others), values", "why_tests_cant": "prefix relations between arbitrary keys", "anchors": ["tkrzw_index.h: FileIndex, MemIndex, StdIndex, SerializeStrPair"]}
{"id": "C38", "title": "Concurrent appends never overlap", "statement": "Append calls from any number of threads return disjoint regions, and each appended region holds its data, whatever expansions or truncations of the allocated space happen in between.", "quantifier": "all interleavings of appends, sizes, allocation parameters", "why_tests_cant": "schedules", "anchors": ["tkrzw_file_mmap.cc: MemoryMapParallelFileImpl::Append, AllocateSpace", "tkrzw_file_pos.cc: PositionalParallelFileImpl::Append"]}
{"id": "C39", "title": "Page cache is transparent", "statement": "Through the page cache, a read that succeeds returns the bytes of the latest writes for any offsets and sizes, and it does succeed when the pages it touches lie inside of the file; a write that succeeds changes exactly its bytes; flushing a region makes the file equal to this view there, and destroying the cache makes it equal everywhere. No list of pages outgrows its capacity, and no call copies out of bounds or lets unset memory reach the file. (Two natural strengthenings are false: see the _refuted theorems.)", "quantifier": "all histories of reads, writes, flushes and changes of the region size; all page sizes, capacities, files, offsets and data", "why_tests_cant": "page boundary and eviction combinations", "anchors": ["tkrzw_file_util.cc: PageCache::Read, PageCache::Write, PageCache::Flush, PageCache::Clear, PageCache::~PageCache, MakePageRequest, PreparePage, ReduceCache, WritePages", "tkrzw_file_util.h: PageCache", "tkrzw_file_pos.cc: callbacks given to PageCache"]}
{"id": "C40", "title": "Top-k and edit distance utilities are exact", "statement": "HeapByCost keeps the k cheapest entries of any sequence; EditDistanceLev equals the Levenshtein recurrence, is symmetric and satisfies the identity law.", "quantifier": "all sequences and capacities; all pairs of strings", "why_tests_cant": "optimal substructure over all strings", "anchors": ["tkrzw_dbm_common_impl.cc: SearchDBMOrder; tkrzw_str_util.h: EditDistanceLev; tkrzw_containers.h: HeapByCostAdd"]}
{"id": "C41", "title": "Status merging keeps the first failure", "statement": "Combining statuses with |= yields SUCCESS only if all are SUCCESS and otherwise the first failure; the comparison operators form a consistent order.", "quantifier": "all sequences of statuses", "why_tests_cant": "all combinations of codes and messages", "anchors": ["tkrzw_lib_common.h: Status"]}
{"id": "C42", "title": "Rebuilding preserves contents", "statement": "Rebuild of any database keeps exactly its live records while changing tuning parameters.", "quantifier": "all databases and parameters, including updates made while the rebuild copies", "why_tests_cant": "concurrent updates during copying", "anchors": ["tkrzw_dbm_hash.cc: HashDBMImpl::RebuildImpl"]}
{"id": "C43", "title": "HashDBM iterator visits every record once", "statement": "Iterating from First with Next until NOT_FOUND visits every live record exactly once when no update intervenes, and never returns a removed record.", "quantifier": "all database states", "why_tests_cant": "all chain shapes and void/duplicate records in chains", "anchors": ["tkrzw_dbm_hash.cc: HashDBMIteratorImpl::First, ReadNextBucketRecords, Next"]}
{"id": "C44", "title": "Path normalization is idempotent and stays inside the root", "statement": "NormalizePath of a normalized path is itself and contains no empty, '.' or inner '..' components.", "quantifier": "all strings", "why_tests_cant": "all component sequences", "anchors": ["tkrzw_file_util.cc: NormalizePath"]}
{"id": "C45", "title": "A copy taken with Synchronize or CopyFileData is a usable backup", "statement": "A file copied by Synchronize with a copying file processor, or by CopyFileData, opens as a healthy database holding the records of that moment, and every later Set/Remove on the copy keeps behaving like a map.", "quantifier": "all histories before the copy, all operations on the opened copy", "why_tests_cant": "depends on which free blocks were recorded at the previous close, for every history", "anchors": ["tkrzw_dbm_hash.cc: HashDBMImpl::SynchronizeImpl, SaveMetadata, SaveFBP, LoadFBP", "tkrzw_dbm.h: DBM::CopyFileData"]}
{"id": "C46", "title": "HashDBM sessions compose", "statement": "Create, then any number of sessions of open, any operations, close, leaves a database that contains exactly what the concatenated operations leave in a map; a file that was not closed never opens as healthy.", "quantifier": "all sequences of sessions, each with any operation sequence, all crash points between operations", "why_tests_cant": "unbounded histories across reopening, free block section and header counters carried over", "anchors": ["tkrzw_dbm_hash.cc: HashDBMImpl::Open, OpenImpl, Close, CloseImpl, LoadFBP, SaveFBP"]}
{"id": "C47", "title": "Key searches by mode return exactly the matching keys", "statement": "SearchDBMModal with a containment, prefix, suffix, case-insensitive, word or multi-pattern mode returns exactly the keys of the database that match the pattern in the sense of the mode, in the order in which the database visits its records, and no more than the capacity unless it is zero; word search never reads outside of the text and finds the first occurrence whose ends do not cut a run of letters and digits. The edit-distance modes return the keys of least Levenshtein distance to the pattern. On an ordered database the order modes return the keys on the wanted side of the boundary, nearest first, and the prefix search by iterator agrees with filtering all keys when keys are in lexical order.", "quantifier": "all databases, all patterns (including empty and multi-line ones), all modes, all capacities, all key comparators that are total preorders", "why_tests_cant": "Word boundaries, letter case, overlapping occurrences and capacities interact with every position of every key; tests try a few patterns on a few keys.", "anchors": ["tkrzw_dbm_common_impl.cc:SearchDBM", "tkrzw_dbm_common_impl.cc:SearchDBMLambda", "tkrzw_dbm_common_impl.cc:SearchDBMOrder", "tkrzw_dbm_common_impl.cc:SearchDBMForwardMatch", "tkrzw_dbm_common_impl.cc:SearchDBMEditDistance", "tkrzw_dbm_common_impl.cc:SearchDBMModal", "tkrzw_str_util.cc:StrWordSearch", "tkrzw_str_util.cc:StrCaseSearch", "tkrzw_str_util.cc:StrCaseWordSearch"]}
{"id": "C48", "title": "Every file class is an array of bytes", "statement": "For any sequence of calls on a file object (Open with any options, Close, Read, Write, Append, Expand, Truncate, TruncateFakely, Synchronize, GetSize and, for positional files, SetHeadBuffer), the memory mapping, positional (with or without blocks, page cache, padding and head buffer) and stream classes return what an array of bytes would: a read gives the bytes last written, bytes never written are zero until the array is made shorter, reads beyond the size fail, writing without the right to write fails, and the file left at the path by Close, or on disk by Synchronize, holds exactly the contents (padded to a block where that is asked for). With the page cache this is claimed for files opened for writing and without TruncateFakely. No call is undefined, except reading a read-only memory mapping of an empty file that was fakely extended.", "quantifier": "all sequences of calls, all offsets, sizes and data, all page, block and initial sizes, all growth policies with a positive factor, all earlier files at the path", "why_tests_cant": "Allocation in advance, block alignment, the head buffer and the page cache interact with every offset and every order of calls; a wrong boundary shows only for particular combinations.", "anchors": ["tkrzw_file.h:File", "tkrzw_file_mmap.cc:MemoryMapParallelFileImpl", "tkrzw_file_pos.cc:PositionalParallelFileImpl", "tkrzw_file_std.cc:StdFileImpl"]}
{"id": "C49", "title": "SkipDBM sessions compose", "statement": "For any history of calls on a SkipDBM file (updates, Synchronize with any reducer, Clear, Rebuild with any parameters, SetDatabaseType, SetOpaqueMetadata, Close and Open again in any mode, the process being killed between two calls, and the file being cut anywhere after its metadata), every call answers as a list of synchronized records and a list of pending events does: closing and opening keeps all records, the database type and the first 64 bytes of the opaque metadata; being killed loses exactly what was not synchronized, and a later Open for writing reports the restoration while one for reading reports that the database is not healthy; opening a cut file restores exactly the records that are whole in what is left; updates fail with PRECONDITION_ERROR on a database that is not writable or not healthy. A file that was closed properly is healthy afterwards.", "quantifier": "all histories of calls, all tuning parameters, all keys and values (other than the removal mark), all cuts of the file, zeros appended by the system", "why_tests_cant": "Metadata, counters, the closing flag and the sorter carry over between sessions; the reachable combinations of cuts and histories are unbounded.", "anchors": ["tkrzw_dbm_skip.cc: SkipDBMImpl::Open, Close, Clear, Rebuild, Synchronize, SaveMetadata, LoadMetadata, CheckZeroRegion, FinishStorage, DiscardStorage", "tkrzw_dbm_skip.cc: SkipDBM::ReadMetadata, RestoreDatabase"]}
{"id": "C50", "title": "Compressors give back what they were given, and values stay what they were under one", "statement": "The AES functions behind AESCompressor compute the cipher of FIPS 197 and its inverse for every key of 128, 192 or 256 bits. For DummyCompressor, RC4Compressor and AESCompressor with any key and any initialization vector, Decompress of what Compress gave returns the data, and the output has the documented size and never exceeds its buffer. RC4Compressor writes the vector and RC4 of the data under the key followed by the vector; AESCompressor writes the enciphered vector and chained blocks. DummyCompressor with a checksum refuses every change within four consecutive bytes; the ciphers refuse data too short to hold a vector or not made of blocks. A HashDBM with a record compressor cannot be told from one without: every processor sees the plain values. The whole key and the vector always have an influence on the output.", "quantifier": "all keys, all initialization vectors, all data (for AES below 2^35 - 16 bytes), all histories of operations on a hash database", "why_tests_cant": "Tests compare a few strings with themselves after a round trip, which two matching mistakes would pass; they cannot check a cipher on all keys and blocks, nor every length of the last block.", "anchors": ["tkrzw_compress.cc: DummyCompressor, RC4Compressor, AESCompressor", "tkrzw_sys_compress_aes.h: AESKeySetupEnc, AESKeySetupDec, AESEncrypt, AESDecrypt", "tkrzw_dbm_hash_impl.cc: CallRecordProcessFull, CallRecordProcessEmpty"]}
{"id": "C51", "title": "The databases on the standard containers keep records, order, iterators and file", "statement": "StdHashDBM and StdTreeDBM answer any sequence of calls of the database and of any number of its iterators as a list of records with distinct keys: every processor sees the value of its key, StdTreeDBM keeps the keys in lexical order, Jump, JumpLower and JumpUpper find the record they name, an iterator whose record is removed stands on the following one and none is ever left on freed memory, and replaying the update log gives the records. An iterator that only moves on passes every record that is there throughout exactly once. Closing a database opened as writable and opening the file again, as either class, gives the same records and the time of the closing. A crash while saving leaves the old file or the new one; a failure to write is reported and keeps the old file. A file that cannot be read is refused and leaves the object empty. A read-only database takes no updates. Opening any file returns.", "quantifier": "all sequences of calls, all processors, any number of iterators, all placements of the hash container, all records, all file contents, all moments of a crash, all patterns of failing writes", "why_tests_cant": "Tests see one placement of one standard library's hash table and no iterator at the moment its record is removed by another call; they do not fail writes, interrupt the saving or read an uninitialized member.", "anchors": ["tkrzw_dbm_std.cc: StdDBMImpl, StdIteratorImpl, ImportRecords, ExportRecords", "tkrzw_dbm_std.h: StdHashDBM, StdTreeDBM"]}
{"id": "C52", "title": "Asynchronous calls have the effect of direct calls one after the other", "statement": "Whatever the order in which the threads run, and whatever the caller does with the memory of the arguments after the call returns, the database and the results in the futures of AsyncDBM are those of the same calls made directly on the database one after the other, each done once with the arguments at the time of the call; a future is ready only when its call has been done. With one worker that order is the order in which the calls were queued; with more, a call made after the future of another was ready comes after it. Nothing undefined is done unless a direct call were undefined. Every queued call is done after a bounded number of steps unless the destructor is called, and the destructor returns only after all calls queued before it have results; it returns. The common postprocessor is told the name and the status of every call in that order, and may be replaced at any time. A future gives its result once, refuses further and mistyped calls with an error, and can be waited for at any time.", "quantifier": "all databases meeting the DBM contract, all numbers of workers and callers, all interleavings, all methods and arguments, all changes of the caller's memory", "why_tests_cant": "Tests see few schedules and do not overwrite the arguments at every moment before the task runs; a view into a reallocated vector or a deleted postprocessor usually still shows the old bytes.", "anchors": ["tkrzw_dbm_async.cc: AsyncDBM::Get, GetMulti, Set, SetMulti, Remove, RemoveMulti, Append, AppendMulti, CompareExchange, CompareExchangeMulti, Increment, Rekey, PopFirst, SetCommonPostprocessor", "tkrzw_dbm_async.h: AsyncDBM::Process, StatusFuture", "tkrzw_thread_util.h: TaskQueue"]}
{"id": "C53", "title": "TinyDBM under concurrent threads", "statement": "Any number of threads may call Process, Append, ProcessMulti, ProcessFirst, ProcessEach, Count, Clear and Rebuild of one TinyDBM at the same time. Every call takes effect at one moment between its start and its return: what the processors are shown and what is returned could have come from a database doing the calls one at a time. Whenever no call is running, the memory holds exactly the records of those calls in that order and their number. No thread uses freed memory, no two threads access the same memory at the same time with one of them writing, and no set of calls blocks for ever.", "quantifier": "all numbers of threads, all calls, keys and processors, all interleavings of single memory accesses and lock operations, all placements of reallocated blocks, all numbers of buckets and of record locks", "why_tests_cant": "A test runs few of the interleavings, and a read of a record freed a moment before usually still finds the old bytes.", "anchors": ["tkrzw_dbm_tiny.cc: TinyDBMImpl::Process, Append, ProcessMulti, ProcessFirst, ProcessEach, Count, Clear, Rebuild, ProcessImpl, AppendImpl", "tkrzw_thread_util.h: HashMutex, ScopedHashLock, ScopedHashLockMulti"]}
{"id": "C54", "title": "Signal brokers pass signals between threads", "statement": "A thread that calls Wait of a Waiter without a time limit returns true only if a Send for its key was running at some moment of that Wait; Send returns true only if a Wait for its key was running at some moment of that Send. While all Waits are without limit and all Sends notify all, a thread asleep is either found by the next Send for its key, which returns true and lets the Wait return, or about to be woken by a Send that is running. Calls do not deadlock: if a call is running and not asleep, some thread can go on, unless a Send waits for a thread that holds a Waiter without waiting.", "quantifier": "all numbers of threads, all key types with an equality test, all sequences of Waiter constructions, Waits with and without limits and Sends, all interleavings of single lock operations and updates, all spurious wakeups", "why_tests_cant": "A lost wakeup needs one exact interleaving of a few instructions; a test sleeps between the calls and never meets it.", "anchors": ["tkrzw_thread_util.h: SignalBroker, KeySignalBroker, SlottedKeySignalBroker, Waiter::Wait, Send"]}
{"id": "C55", "title": "Strings are split, joined, replaced and trimmed as described", "statement": "StrSplit gives the parts of the string between the occurrences of the delimiter found from left to right, and joining them with the delimiter gives the string back; StrSplitAny cuts at every character of the set; with skip_empty exactly the empty parts are left out. StrJoin puts the delimiter between the elements, so that splitting gives them back. StrSplitIntoMap has for each key the value of the first record of that key. StrReplace replaces every occurrence found from left to right and nothing else; StrReplaceCharacters translates each character on its own and drops those without a counterpart, without leaving the buffer. StrStripSpace, StrStripLine, StrSqueezeAndStripSpace and StrTrimForTSV remove exactly the spaces, line ends or control characters they name, and keep the words; stripping again changes nothing. The case functions change only ASCII letters. StrToIntOct and StrToBool give the value written or the default.", "quantifier": "all byte strings, delimiters and sets of any length, including empty ones, overlapping occurrences and bytes above 127", "why_tests_cant": "Overlapping delimiters, empty elements at the ends and in-place rewriting behave alike on the usual samples; the laws range over all strings.", "anchors": ["tkrzw_str_util.h: StrJoin, StrSplit, StrSplitAny, StrReplace", "tkrzw_str_util.cc: StrSplit, StrSplitAny, StrSplitIntoMap, StrReplace, StrReplaceCharacters, StrUpperCase, StrStripSpace, StrStripLine, StrSqueezeAndStripSpace, StrTrimForTSV, StrToIntOct, StrToBool"]}
{"id": "C56", "title": "CacheDBM calls of concurrent threads are atomic per section and free of races", "statement": "Whatever the interleaving, the calls of concurrent threads on one CacheDBM and their results are those of an execution in which Process and ProcessMulti each take effect as a whole at one moment between call and return, on a least-recently-used cache as in C12; Clear and Rebuild take effect while no other call runs; ProcessFirst, ProcessEach, Count and GetEffectiveDataSize take effect slot by slot, and as a whole if no other call comes between. When no call runs, the records, their order, Count and the data size are those of that cache, and no slot holds more than its capacity. There is no use of freed memory, no two threads access the same memory with one of them writing, and no deadlock.", "quantifier": "all numbers of threads, all sequences of the calls with any keys and processors, any capacities, all interleavings of single lock operations and of what is done to one slot under its lock", "why_tests_cant": "The number of interleavings is exponential; reads too move records in the order of use, so a race shows only as a corrupted list much later.", "anchors": ["tkrzw_dbm_cache.cc: CacheSlot::Process, ProcessFirst, ProcessEach, Count, GetEffectiveDataSize, Lock, Unlock; CacheDBMImpl::Process, ProcessMulti, ProcessFirst, ProcessEach, Count, GetEffectiveDataSize, Clear, Rebuild"]}
{"id": "C57", "title": "BabyDBM calls of concurrent threads are linearizable, free of races and of deadlock", "statement": "Whatever the interleaving, the calls of concurrent threads on one BabyDBM and their results are those of an execution on an ordered map in which Process, Append and ProcessMulti each take effect as a whole at one moment between call and return, Clear while no iteration runs, and ProcessFirst and ProcessEach go through the keys upwards, range by range, each range at one moment. Reorganizations of the tree, by whichever thread, are not observable. Calls that do not overlap do what a single thread's calls do. When no call holds the lock, walking the leaves, the counter and the search for any key agree with that map. No two threads access the same memory with one of them writing, and there is no deadlock.", "quantifier": "all numbers of threads, all sequences of the calls with any keys and processors, any total preorder as comparator, any placement of the leaves in memory, all interleavings of single lock operations and of what is done to one record under the lock of its leaf", "why_tests_cant": "The number of interleavings is exponential, and a leaf must be divided or merged by one thread at the moment another goes past it.", "anchors": ["tkrzw_dbm_baby.cc: BabyDBMImpl::Process, Append, ProcessMulti, ProcessFirst, ProcessEach, Count, Clear, SearchTree, ProcessImpl, AppendImpl, ReorganizeTree"]}
{"id": "C58", "title": "Dates written as strings are read back as the same time", "statement": "A time written by FormatDateW3CDTF, FormatDateW3CDTFWithFrac, FormatDateRFC1123 or FormatDateSimple with any zone is read back by ParseDateStr (FormatDateSimple: as the time of the zone; with ParseDateStrYYYYMMDD and the zone: as the time), fractions up to the digits written; the texts with their null code fit the documented buffer of 48 bytes and their size is returned; GetDayOfWeek is the day of week of any date; and ParseDateStr depends on its argument only.", "quantifier": "all times, zones and fractions, all dates, all strings given to ParseDateStr and all contents of the memory after them", "why_tests_cant": "The calendar has special cases every 4, 100 and 400 years, zones cross days and years, and a read after the end of a string_view goes unnoticed where a null code follows.", "anchors": ["tkrzw_time_util.cc: GetDayOfWeek, FormatDateSimple, FormatDateW3CDTF, FormatDateW3CDTFWithFrac, FormatDateRFC1123, ParseDateStr, ParseDateStrYYYYMMDD"]}
{"id": "C59", "title": "PolyDBM opens the database that the path and the parameters name", "statement": "OpenAdvanced of PolyDBM opens a database of the class of the parameter \"dbm\" or else of the extension of the path, with the file class and the key comparator that the parameters name, each name in any letter case; every documented parameter is accepted, an unknown one or an unknown comparator is rejected with an error and no effect, and no database is open after an error; Close reports what closing the database reports; RebuildAdvanced, SynchronizeAdvanced and RestoreDatabase act on the database by documented parameters, and a rejected call has no effect.", "quantifier": "all paths, all maps of parameters, all answers of the database and of the message queue, all histories of opening and closing", "why_tests_cant": "Names, parameters and classes combine freely, letters may have any case, and the flags left by a rejected call show only in a later one.", "anchors": ["tkrzw_dbm_poly.cc: GuessClassNameFromPath, GetKeyComparatorByName, GetReducerByName, SetHashTuningParams, SetTreeTuningParams, SetSkipTuningParams, MakeOwnedUpdateLogger, PolyDBM::OpenAdvanced, PolyDBM::Close, PolyDBM::RebuildAdvanced, PolyDBM::SynchronizeAdvanced, PolyDBM::RestoreDatabase", "tkrzw_file_poly.cc: PolyFile::MakeFileInstance"]}
