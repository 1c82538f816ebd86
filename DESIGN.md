# Formal model of tkrzw: design

This document says what of /repo is modelled, how each property of `properties.jsonl` is stated and proved, what has to be
trusted, which code is not modelled, and what was found in the code on the way.  `MANIFEST.json` lists the theorems of each
property by name.  All of it is Coq 8.16.1, in `rocq/theories`; nothing is in Lean.

## Conventions

* `XModel.v` holds definitions, each with a comment citing file and lines of /repo and naming every simplification.
  `XSpec.v` and `XProofs.v` hold specifications and lemmas.  `XProps.v` (and TreeReopen.v) holds the theorems named after the properties, with
  concrete cases (`Example`) that meet their hypotheses, and `Print Assumptions` commands.
* Bytes are numbers of type `N`, strings are lists of them; that a byte is below 256 is an explicit hypothesis where it matters.
* C++ integers are unbounded `N`, `Z` or `nat`, unless the header of the file says otherwise.  Where a property depends on wrap-around or on
  an overflow (codecs, comparators, zigzag, checksums, spin locks, sizes of records in memory), the model computes modulo 2^n or has
  overflow as an outcome.
* Undefined behaviour (access out of bounds, null or freed pointers, `front()` of an empty vector, signed overflow, division by zero,
  unset memory that is used) is an outcome of its own: `None`, `SUb`, `PUb`, `Undefined` or `ub = true`.  A theorem that says
  `exists ..., f x = Some ...` therefore says that there is none.
* Loops are structural recursion, or take fuel; running out of it is a distinct outcome which the theorems exclude (or exhibit, where the
  code does loop forever: C20, C26, C45).
* Specifications do not use the helpers of the models.  The ones used most: `amap` (Bytes.v: a function from keys to optional values, with
  `aset`, `adel`), `OmapSpec.v`/`OmapHist.v` (ordered map as a sorted list, with iterators as positions), `MapSpec.v`, lists of records,
  and byte arrays (`nat -> N`).  Transition systems (locks, queues, files) are inductive step relations over all interleavings.
* A theorem `..._partial` proves a part of its property; what is missing is said in MANIFEST.json and below.  A theorem `..._refuted` gives a
  concrete execution of the model in which the documented behaviour (or a natural strengthening of another theorem) fails.

## Trusted base

1. The kernel of Coq 8.16.1 (with its `vm_compute` machine, used mostly in examples and refutations), the parser and `coq_makefile`.
2. **Axioms: no theorem depends on any.**  `Print Assumptions`, run on each of the theorems named in MANIFEST.json, answers "Closed under
   the global context" for all of them.  No file imports classical logic, functional extensionality, the reals or proof irrelevance; the
   only libraries imported are List, Arith, NArith, ZArith, QArith (meaning of floating-point keys), Znumtheory, Bool, Lia, Permutation, Sorted,
   and Ascii and String (names of methods, C52).
   A checker that looks at everything loaded rather than at what a theorem uses also lists seven names of the standard library's module
   `Coq.ssr.ssrunder.Under_rel` (`Under_rel`, `Under_rel_from_rel`, `Under_relE`, `under_rel_done`, `Over_rel`, `over_rel`, `over_rel_done`).
   They are fields of a sealed module of that library, loaded indirectly, and no theorem here refers to them.
3. That the models say what the C++ says.  The models were written from the source text, function by function, with citations; nothing was
   executed.  `seeded/LOG.jsonl` records experiments in which a model was given a realistic bug and the theorems were rebuilt.
4. The semantics given to the environment: files are byte arrays whose operations fail only where a model says so; memory allocation
   succeeds; atomics are sequentially consistent; the standard library containers and algorithms used by the code follow their
   documentation (`std::map`, `std::set`, `lower_bound`, `push_heap`, ...).

## What is modelled

| Code | Model | Properties |
|---|---|---|
| tkrzw_sys_config.h (number codecs, alignment) | CodecModel | C01 |
| tkrzw_lib_common.h (Status) | StatusModel | C41 |
| tkrzw_hash_util.cc (Murmur, FNV, checksums, CRC) | HashUtilModel | C29 |
| tkrzw_str_util.{h,cc} (search, escapes, Base64, URL, UTF-8, serialization, numbers, edit distance, word search, splitting, joining, replacing, trimming) | StrSearchModel, TextCodecModel, StrSerialModel, ComparatorModel, TopkModel, SearchModel, PathModel, StrUtilModel | C24-C28, C40, C44, C47, C55 |
| tkrzw_key_comparators.h | ComparatorModel | C25 |
| tkrzw_file_util.{h,cc} (paths, page cache, line and record readers) | PathModel, PcacheModel, FlatModel | C23, C24, C39, C44 |
| tkrzw_file_mmap.cc, tkrzw_file_pos.cc, tkrzw_file_std.cc | FioModel (all methods, one call at a time), AppendModel (concurrent appends), FileModel, PcacheModel | C38, C39, C48 |
| tkrzw_thread_util.h (spin locks, HashMutex, TaskQueue, WaitCounter) | SpinModel, HashMutexModel, TaskModel | C31, C32, C36 |
| tkrzw_containers.h (LinkedHashMap, LRU caches, top-k heap) | LinkedModel, LruModel, TopkModel | C33, C34, C40 |
| tkrzw_dbm.h (all operations through record processors) | DbmModel | C09, C10 |
| tkrzw_dbm_common_impl.cc (primes, exports, imports, key searches) | PrimeModel, FlatModel, SearchModel | C23, C24, C30, C47 |
| tkrzw_dbm_hash_impl.{h,cc}, tkrzw_dbm_hash.cc | HashRecModel, FbpModel, HashDbModel, HashIterModel, HashMetaModel, HashRestoreModel, HashRebuildModel | C02-C08, C42, C43, C45, C46 |
| tkrzw_dbm_tree.cc, tkrzw_dbm_tree_impl.cc | BtreeModel, TreePageModel, TreeFileModel, TreeRunModel | C14-C16, C42 |
| tkrzw_dbm_skip_impl.cc, tkrzw_dbm_skip.cc | SkipModel, SkipMetaModel | C17-C19, C42, C49 |
| tkrzw_dbm_tiny.cc, tkrzw_dbm_baby.cc, tkrzw_dbm_cache.cc | TinyModel, BtreeModel, CacheModel | C11-C14 |
| tkrzw_dbm_shard.cc | ShardModel | C35 |
| tkrzw_dbm_ulog.cc, tkrzw_message_queue.cc | UlogModel, MqModel | C20-C22 |
| tkrzw_index.h | IndexModel | C37 |
| tkrzw_sys_compress_aes.h, tkrzw_compress.cc (Dummy, RC4, AES), CallRecordProcess* | AesTables, AesModel, CompressModel | C50 |
| tkrzw_dbm_std.cc | StdModel, StdFileModel | C51 |
| tkrzw_dbm_async.h, tkrzw_dbm_async.cc | AsyncModel (on TaskModel and DbmModel) | C52 |
| tkrzw_dbm_tiny.cc with several threads | TinyConcModel (on TinyModel and HashMutexModel) | C53 |
| tkrzw_dbm_cache.cc with several threads | CacheConcModel (on CacheModel and HashMutexModel) | C56 |
| tkrzw_dbm_baby.cc with several threads | BabyConcModel (on BtreeModel and HashMutexModel) | C57 |
| tkrzw_thread_util.h: SignalBroker, KeySignalBroker, SlottedKeySignalBroker | SignalModel | C54 |
| tkrzw_time_util.{h,cc} (formats, parsing, day of week; gmtime_r and timegm as the proleptic Gregorian calendar) | TimeModel | C58 |
| tkrzw_dbm_poly.cc (OpenAdvanced, Close, RebuildAdvanced, SynchronizeAdvanced, RestoreDatabase and the names), tkrzw_file_poly.cc (MakeFileInstance) | PolyModel, PolyAdminProps | C59 |

## What is not modelled

* The compressors of tkrzw_compress.cc that call an external library (ZLib, ZStd, LZ4, LZMA), MakeRelativeTimeExpr and FormatDateSimpleWithFrac of tkrzw_time_util.cc, tkrzw_logger.h,
  tkrzw_langc.cc (the C interface), the command line tools and the performance tests, and everything specific to Windows.
* The rest of tkrzw_dbm_poly.cc and tkrzw_file_poly.cc (forwarding of calls; the values of the tuning parameters). Of tkrzw_dbm_async.cc: the methods on whole databases and the Process family are any functions of the database (C52).
* Failures of the operating system (I/O errors, full disks, failing `mmap` or `malloc`), except reading past the end of a file; durability
  (`fsync`) beyond "a prefix of the written bytes survives" (C05, C22); file locks, direct I/O.
* Locks inside the databases other than TinyDBM (C53), CacheDBM (C56) and BabyDBM (C57): their operations are modelled as running one at a time.  The locks themselves are C31 and C32,
  and the concurrent append that the hash database relies on is C38.  Of these three, the iterators, the update log and the files are not in the concurrent models.
* Regular expressions (`std::regex`) and the exact values of floating-point arithmetic.

## The properties

**C01 Integer codecs.** CodecModel, CodecProps.  The writers and readers byte by byte, the eight-byte and the variable-length loops with their
wrap-around.  Round trip for every number and every suffix, and rejection of every strict prefix, by induction on the groups of seven bits.

**C02 HashDBM records.** HashRecModel, HashRecProps.  Writer and parser of a record at byte level for every offset width, alignment and checksum mode.
Parsing what was written, before any other bytes, gives it back; the documented key limit is not enforced (refuted).

**C03, C04 HashDBM is a map.** HashDbModel, HashDbLayout, HashDbAppend, HashDbInPlace, HashDbProofs, HashDbProps.  ProcessImpl on the bytes of the file: buckets, chains, free blocks,
in-place overwriting, padding.  The invariant says that the chains of the buckets hold disjoint well-formed records, the free blocks are disjoint from
them and from each other, and the counters fit; each call preserves it and acts as on an `amap`; induction over histories.

**C05 Crash in the appending mode, C06 import directions, C42 Rebuild.** HashRestoreModel, HashRebuildModel, HashRestoreProps.  The log of records cut at
any byte, scanned as ReadRecord and FindNextOffset do.  C05 is partial because a torn record may contain the image of another one inside its key or
value (C05_phantom_refuted); it is proved when no position inside the torn record looks like a record.  C42 is
proved for HashDBM (HashRebuildProps: copying with updates meanwhile, closing, reopening, later histories), for SkipDBM (C49_skip_sessions_partial has
Rebuild in its histories), for TinyDBM (C11_history) and for TreeDBM (TreeFileModel, TreeFileProofs, TreeFileProps: the cache of nodes of TreePageModel
runs over the hash database instead of a map of pages, one call on the file for each page loaded, saved or removed; a run over the file tracks the run
over the map, before, during and after the rebuilding; TreeReopen: the tree goes on with other limits).  It is partial because CacheDBM drops records when its
capacity is reduced (C12_rebuild_refuted).

**C07 Free blocks.** FbpModel, FbpProps.  The set as an ascending list.  Invariants by induction over operations.

**C08 Header, C46 sessions, C45 copies.** HashMetaModel, HashMetaProofs, HashMetaProps.  The 128 bytes of the header; a header mixing old and new bytes at any
point is reported broken unless the counters coincide.  Sessions compose with C03 and C04.  C45 is false: the free block section is written only by Close
(two refuted theorems).

**C09, C10 Operations of the DBM interface.** DbmModel, DbmProps.  Each operation of tkrzw_dbm.h is transcribed through its processors, over a record `dbm` of any
database whose Process, ProcessMulti and ProcessFirst act as on a map; specifications are written on `amap`.

**C11 TinyDBM.** TinyModel, TinyProofs, TinyOps, TinyProps.  Blocks of memory with addresses, chains through their first bytes, realloc that may move.  Any history.

**C12 CacheDBM.** CacheModel, CacheProofs, CacheProps.  Slots with hash chains and the usage list through pointers, against a list from the least to the most recently used
record and a capacity.

**C13 BabyDBM, C15 TreeDBM.** BtreeModel; BtreeTree, BtreeSort, BtreeUp, BtreeInv, BtreeMerge, BtreeOps, BtreeRun, BtreeIter, BtreeHist (proofs); BabyProps, TreeProps.  One heap of leaf and inner nodes; splitting and merging rules are parameters.
The invariant relates the heap to a tree of sorted leaves linked in both directions; each call preserves it and acts as on the ordered map of OmapSpec.
Partial: histories in which the tree exceeds the fixed path array (20 or 32 inner levels) are excluded as an outcome; `front()` of an emptied leaf is undefined (refuted);
For TreeDBM the cache of pages is proved transparent for nodes (C15_evictions, and C15_pages_in_file with the pages in a hash database file).  TreeRunModel, TreeRunHeap,
TreeRunProofs and TreeRunProps compose the tree, the cache and the file in one state: every function of the tree is a program of operations on nodes (load, change,
create, remove), a machine runs the programs on the cache with any pages saved or evicted before every operation, and page ids are numbered as in the code.
The programs on a plain heap are proved equal to the functions of BtreeModel, and the machine equal to the programs, so that a session on pages acts as on the ordered map
(C15_cached_partial; C15_on_file_partial with the pages in a hash database file), and after closing the stored pages are the nodes of the tree (C16_session_pages).
TreeClearProps adds Clear, which starts a new tree on an empty file: any number of sessions, one after each Clear, with the positions of iterators lost (C15_clear_partial).
Hypotheses: each page written fits its format (ids of six bytes, pages below 2^31 bytes), and the file does not outgrow its format.

**C14 Iterators.** Same models.  Every move stands where the order of keys requires; Previous after a Jump to an absent key beyond the end of a leaf skips that leaf
(refuted), otherwise proved.

**C16 Pages and metadata of TreeDBM.** TreePageModel, TreePageProps, TreeReopen.  Serialization of pages and metadata at byte level.  The last leaf is read from the offset of the first
one, so reopening breaks Last and JumpLower (refuted); all other calls are proved to behave as before.

**C17-C19 SkipDBM.** SkipModel; SkipLayout, SkipWrite, SkipSearch, SkipIter, SkipMerge, SkipSync, SkipDb (proofs); SkipProps.  Records with skip pointers at byte level, searches, the sorter with its temporary files, and synchronization, against lists of records.
C18 and C19 are partial: values equal to the removal mark, in-order removals and merged files break the documented merge, and Set with an old value does
not overwrite (refuted).

**C20 Update logs.** UlogModel, UlogProps over MqModel.  Messages at byte level, filters, replay from the files of a queue into any database.

**C21, C22 Message queue.** MqModel, MqProps.  Files as byte lists, executions with rotation, reopening, crashes and one reader.  C22 is partial: torn messages or metadata make
Open fail, and timestamps restart from the last synchronization (seven refuted theorems).

**C23, C24 Flat records and TSV.** FlatModel, FlatProps.  Readers with their buffers.  C23 is partial: a trailing empty record is not read back (refuted for all such inputs).
FlatTotal: on files of any bytes the reader ends and what it returns are the records at the start of the file.

**C25 Comparators.** ComparatorModel, ComparatorProps.  Partial: RealNumberKeyComparator is no preorder on NaN; overflow in the decimal one, and out-of-bounds reads
in the pair ones, are outcomes.  Floating-point numbers are abstract rationals with infinities and NaN.

**C26, C27 Serialization and text encodings.** StrSerialModel, TextCodecModel and their Props.  Round trips for all inputs in the stated ranges; outside them refuted.

**C28 String search.** StrSearchModel, StrSearchProps.  Every algorithm with its tables against "the first position where the pattern is".  Partial: Boyer-Moore reads its table of 255
entries at 255, the Z algorithm takes NUL as a separator, StrSearchBatchRK ignores the limit for an empty pattern (refuted; exact conditions proved).

**C29 Checksums.** HashUtilModel, HashUtilProps.  Byte tables against bitwise definitions; detection of single-byte changes.

**C30 Bucket counts.** PrimeModel, PrimeProps.  `std::sqrt` is any function between the integer square root and its argument.  That there is a prime between the request and 2^63 - 1 is a premise.

**C31, C32 Locks.** SpinModel, HashMutexModel and their Props.  Every atomic operation is a transition of one thread; invariants over all interleavings of any number of threads.
C31 is partial: after 2^32 acquisitions in one spinning phase the counter wraps (refuted).  Deadlock freedom of C32 is a progress theorem over all reachable states.

**C33, C34 LinkedHashMap and LRU caches.** LinkedModel, LruModel and their Props.  Pointers in a heap, against ordered lists.

**C35 ShardDBM.** ShardModel, ShardSpec, ShardIter, ShardProps.  Any number of shards and any hash.  Operations on records over any database of C09; the iterator as a heap of per-shard
iterators, where push_heap and pop_heap are any functions meeting their documentation, against one ordered list.  Removal through the iterator in
descending mode is undefined and Get after Process is stale (refuted, and excluded by name in C35_iterator).

**C36 Task queue.** TaskModel, TaskProps.  Workers, producers and Stop over all interleavings.  Partial: Stop and WaitCounter::Wait can miss a wake-up (refuted).

**C37 Indices.** IndexModel, IndexProps.  Any history on the index and any number of iterators, over any database acting as an ordered map, against a set of pairs.

**C38 Concurrent appends.** AppendModel, AppendProps.  Memory-mapped and positional files, all interleavings, byte-wise copying.

**C39 Page cache.** PcacheModel, PcacheProofs, PcacheProps.  Pages with unset bytes, batches, evictions and write-back, against one byte array.

**C40 Top-k and edit distance.** TopkModel, TopkProps.  **C41 Status.** StatusModel, StatusProps (partial: operator< is no order, refuted).

**C43 HashDBM iterator.** HashIterModel, HashIterProps.  **C44 Paths.** PathModel, PathProps.  **C47 Key searches.** SearchModel, SearchProps.

**C48 File classes.** FioSpec (an array of bytes, as a relation between calls, results and contents), FioModel, FioProofs, PcachePages, FioPosProofs, FioProps.  Memory mapping, positional (blocks, head buffer, page
cache, padding) and stream files at the level of bytes on disk, the size, the allocated size and the head buffer; every call sequence from every file at the path.  Bytes read after
shrinking and growing in one session are left open by the specification, because the code does not clear them (refuted against the interface comment).
Not covered: Lock/paths, direct I/O, concurrent calls (C38 has the appends), system call failures.

**C49 SkipDBM sessions.** SkipMetaModel (metadata bytes, Open, Close, Clear, Rebuild, RestoreDatabase), SkipMetaSpec (the calls, the specification: what is on disk, and a session as
for C18), SkipMetaProofs (metadata read back, opening), SkipMetaScan (a cut file gives its whole records), SkipMetaSteps (each call), SkipMetaProps.  A simulation: the file holds the
records of the specification under metadata that say so, possibly followed by zeros.  Partial: the last sentence of the claim is false after Clear (C49_clear_close_refuted).  The choice
of parameters that Rebuild estimates with logarithms is left open: any is considered.  Clear and Rebuild are not covered on a database that is writable but not healthy.

**C50 Compressors.** AesSpec (FIPS 197 on lists of bytes, with the vectors of its appendix C), AesTables (the tables of the code, copied by a script), AesModel (the functions on 32 bit words), AesProofs,
AesRounds, AesKeys, AesInverse; CompressSpec (textbook RC4, the chaining), CompressModel, CompressProofs, CompressProps.  The tables are proved equal to the S-box times the columns of MixColumns for all 256 entries
by computation, a round on words equal to a round of the standard for all words, and the key schedules by induction on their loops.  The round trips are inductions on the blocks or bytes.  The
database theorem (C50_hash_transparent) composes with C03 and C04: it holds for any compression that is undone by its decompression, and C50_codecs shows that the three are.  Partial: the last sentence of the
claim is false of the code.  Not expressible here: that a cipher hides anything.

**C51 StdHashDBM and StdTreeDBM.** StdModel (the container as a list of elements with identities in its iteration order, iterators as identities, every use of an identity that is not in the list undefined), StdSpec (lists of
records, positions as keys), StdProofs, StdProps: a refinement by an invariant over all calls; StdFileModel (Open, Close, Synchronize, ImportRecords, ExportRecords with the temporary file and failing appends), StdFileProps.  A hash container is any
function that says where a new element is put and any permutation for a rehash.  Assumed of the standard containers: `emplace` does not rehash or move
the other elements in the iteration order (the maximum load factor is set to the largest float), `erase` keeps the order of the rest and the iterators to them, `end()` stays valid.
Partial: six sentences on the file are false of the code, see the refuted theorems.

**C52 AsyncDBM.** AsyncModel: the system of TaskModel (C36) whose tasks hold copies of the arguments in a vector of strings with views of them (a view dangles after a reallocation), the database (any `dbm` of DbmModel), results, the postprocessor as a numbered object that is deleted when replaced, the memory of the callers that changes at any moment, and a flag for anything undefined. Two ghosts: the calls with the bytes of their arguments, and the order of execution of TaskModel. AsyncProofs: every task built from a call reads back as that call (`build_ok`), by induction over the argument lists with the room left in the vector; ANY_DATA as a desired value is copied as a string of its bytes, which the comparison of the database treats alike (`norm_do`). AsyncProps: an invariant over `areach` (ids are fresh and distinct, every task reads as its call, the state is `run_all` of the calls in the order of execution) gives C52_serial and C52_defined; C52_one_worker, C52_destructor and C52_ready add C36_order, C36_stop and C36_all_run; C52_real_time by monotonicity of the order. Refuted with executions: C52_destructor_returns_refuted (the lost wake-up of C36), C52_post_refuted and C52_post_name_refuted (the postprocessor is not called after Process*, and is given other names for the flat-record methods), C52_set_post_refuted (tasks keep the raw pointer), C52_wait_refuted (Wait on a future that is no longer valid). Not modelled: timeouts of Wait, GetMulti's and SearchModal's containers, ProcessStatus. C52_methods says for each call what the direct call does to the records and returns, on a database that does not fail; C52_names compares the reported names with the names of the methods.

**C53 TinyDBM with several threads.** TinyConcModel: any number of threads, each at a program point of Process, Append, ProcessMulti, Count, ProcessFirst, ProcessEach or a call under the exclusive
lock; a transition is one lock or unlock operation, one read of a bucket, one visit of a record with the call of the processor, one free, one writing of a record, one relinking, or one update of the
counter, on the heap of TinyModel.  Locks are taken when no other thread holds them in a clashing mode (C31, C32 say that the lock classes do this).  Use of null or freed pointers is an outcome of its own, as is a record
of 2^31 bytes.  Specification (TinyConcProofs): threads that call, let `does` change the map at one moment, and return.  Invariant: the chain of every bucket is well formed except for the
link a thread under the exclusive record lock is about to write; the map of the specification agrees with the memory on all keys whose lock is not held exclusively by a call on its way; threads with clashing
locks do not exist; the counter differs by what threads have still to add.  TinyConcSteps proves it for each transition, TinyConcProps concludes: linearizability, no undefined behaviour, no race, exact Count at rest, no deadlock (the slots are taken in ascending order).
C53_writes and C53_reads tie the list of accesses used in the race theorem to the transitions: nothing else is written, and nothing else decides what a thread does next.
Assumed of a call under the exclusive lock: it makes no record of 2^31 bytes.  ProcessFirst and ProcessEach as readers are excluded from these theorems and refuted with executions.  Processors are functions of their arguments and of the
state of the call; they do not call the database.

**C54 Signal brokers.** SignalModel: any number of threads at program points of the constructor of Waiter, Wait and Send; a transition is one lock or unlock operation, one update of the count, one sleep, wakeup (also spurious) or timeout, or one
notification.  One model for any type of keys; with one key it is SignalBroker.  Specification (SignalProps, first section): a history of calls and returns, and "a Wait (Send) for k was running at some moment of this Send (Wait)" said of the history only.
Invariant: the locks exclude each other; the count of a key is at most the number of threads in Wait for it; without limits, a thread in Wait is still counted or has met a Send; without limits and with notification of all, a thread asleep is counted or a Send is about to notify.
Proved by induction over executions: C54_wait, C54_send, C54_asleep, C54_wakes, C54_locks, C54_no_deadlock.  The refutations are executions found by an interpreter that is proved to make only steps of the model.
A thread has at most one Waiter and sends only without one; a limit of UINT32MAX seconds is taken as none; counts do not overflow.

**C55 Strings.** StrUtilModel: the functions on lists of bytes; the `find` of string_view is that of C28, and in-place rewriting (StrReplaceCharacters, StrStripLine) is modelled with an outcome for access outside the string, proved impossible.
The specification is a relation: a list of parts is a split if each part but the last is followed by the leftmost occurrence of the delimiter (`is_split`), shown to have one solution, so C55_split is an equivalence; the words of a string are a relation too.
StrJoin is proved to join what remains after dropping the empty elements at the front (C55_join), so the round trip needs a first element that is not empty (C55_join_split, C55_join_refuted).  Not modelled: StrToIntMetric, the numbers of C26, the printf family.

**C56 CacheDBM with several threads.** CacheConcModel: a call is a program of sections, each with the locks of its slots, local computations and reads without a lock; a transition is one lock or unlock operation, or what is
done to one slot under its lock, by the functions of CacheModel on the memory of that slot.  Use of null or freed pointers is an outcome of its own.  Specification (CacheConcProofs): threads whose sections take effect at one
moment (`does_sec`, by `s_call` and `in_slot` of C12), Clear and Rebuild while no other call runs.  Invariant: a cache that represents the records of the specification and differs from the memory only in the slots of sections under way,
where running the rest of the section gives it; the locks exclude each other.  From it: C56_linearizable, C56_defined, C56_race (the only access without its lock is the read of num_records_ in ProcessEach as writer), C56_no_race,
C56_no_deadlock (slots in ascending order).  C56_writes and C56_reads tie the accesses of the race theorem to the transitions.  C56_linearizable ends in the specification `lrun`, in which Process and ProcessMulti take effect in one step each and the other calls slot by slot.  C56_serial: a program whose sections follow each other is the call of C12, and its Count and data size are exact.
What is false is refuted with executions found by an interpreter proved to make only steps of the model: C56_first_refuted, C56_each_refuted, C56_count_refuted.  Not modelled: update log, iterators, files, timestamp; processors do not call the database.

**C57 BabyDBM with several threads.** BabyConcModel: a call checks reorg_nodes_ without a lock (either answer is allowed), reorganizes under the exclusive lock of the object, or runs under its shared lock; it locks the leaves of its keys in the order of
their addresses, processes one record per transition, and unlocks.  ProcessFirst and ProcessEach go from leaf to leaf with one leaf locked at a time.  The specification BabyConcSpec has neither leaves nor locks: Process, Append and ProcessMulti take effect at one
moment, ProcessFirst and ProcessEach range of keys by range of keys, upwards, each range at one moment.  BabyPages: the records of the tree as a shape (order of the leaves) and a content per leaf, and what a call does to the leaf its key leads to is what it does to
the whole map.  BabyConcProofs: the invariant relates, for every thread at every program point, the content to the content in which the open sections have already run to their end (`m` and `g`).  C57_linearizable, C57_defined, C57_no_race, C57_no_deadlock
(leaves in ascending order of addresses); C57_writes and C57_reads tie the accesses of the race theorem to the transitions; C57_alone: calls that do not overlap are those of one thread (C13).  C57_first_refuted: ProcessFirst with writable=false and a processor that writes.
C57_count_refuted: Count in the middle of a ProcessMulti.  Not modelled here: update log, iterators, files, timestamp; num_records_ (atomic) and reorg_nodes_ (own lock) change in the transition of the leaf; processors do not call the database.

**C58 Dates.** TimeModel: gmtime_r and timegm of the C library are the proleptic Gregorian calendar (trusted; C58_calendar: each date has one time and each time one date); the format
functions as lists of bytes, with overflow and a throw as outcomes; ParseDateStr on its argument and the memory after it, with a read outside of both as an outcome.  TimeCal: the calendar, and
Zeller's formula; TimeProofs, TimeFrac: what the fields of fixed width are read as (numbers of two and four digits by computing all of them, the rest by induction).  C58_w3cdtf_partial,
C58_simple_partial, C58_rfc1123_partial, C58_w3cdtf_frac_partial: round trips for the years of four digits; C58_string_inside: nothing outside is read if a null code follows; C58_buffer: 48
bytes suffice for any time and zone without a fraction.  Refuted: C58_view_refuted, C58_rfc1123_refuted, C58_w3cdtf_frac_refuted, C58_buffer_refuted, C58_simple_refuted,
C58_day_of_week_refuted.  Simplified: results are exact sums, not rounded to double (whole seconds of these years are exact); "%.12f" is exact rounding of a rational number; the conversion of
digits by StrToDouble is a parameter, as in C25.

**C59 PolyDBM.** PolyModel: OpenAdvanced as a function of the path, the parameters, the object and what the database and the queue answer; the result has the status, the object
and the list of databases and logs that were opened.  PolyProofs: maps of parameters and extensions of paths.  PolyProps: the tables of the documentation are the specification.
C59_extension and C59_documented_partial: documented arguments open what they ask for; C59_unknown_params: what is opened or successful has known parameters only; C59_unknown_comparator (BabyDBM); C59_close_partial.
Partial: the comparators that ignore case (C59_case_comparator_refuted), unknown comparators of TreeDBM (C59_tree_comparator_refuted), errors of the update log
(C59_rejected_refuted), the default file (C59_default_file_refuted), a short name of a reducer (C59_reducer_refuted).  Simplified: values of numbers and modes are not in the model.
PolyAdminProps: RebuildAdvanced, SynchronizeAdvanced and RestoreDatabase as functions to the acts on the database (C59_rebuild, C59_synchronize, C59_restore); refuted:
C59_rebuild_comparator_refuted, C59_synchronize_refuted.

## Experiments with wrong programs

`seeded/LOG.jsonl` has one line per experiment: the definition, the edit, the claim it breaks, `first_failures` (the lemmas or theorems at which the
rebuild stopped), `theorems_failed` (theorems that had no proof any more), `theorems_tightened`, and `how`.  `how` matters for reading the rest: mostly the build stops
in a lemma, and then the theorems of all files depending on it are listed because they were not rebuilt.  Such a line says that the proof does not go through for
the wrong program; it does not by itself say that each listed theorem is false of it.

## Findings

Behaviour of the code that differs from its documentation, or is undefined, found while stating and proving the properties.  They come from reading the source and
from the models; none was run.  Where a theorem exhibits one, its name is given; the others are observations without a theorem.

*HashDBM.*
- Free blocks are saved only by Close; a copy taken with Synchronize opens as healthy with a stale list, and a later Set overwrites a live record or makes a chain loop (C08_stale_free_blocks_refuted, C08_stale_free_blocks_loop_refuted).
- A torn record whose key or value contains the image of a record makes restoration invent that record (C05_phantom_refuted).  A tail of zeros is not noticed.
- Offsets are not checked against the offset width (C03_capacity_refuted), nor the key limit on writing (C02_long_key_refuted).
- A free block pool of capacity 0 is undefined on insertion (C07_zero_capacity_refuted).
- A record removed under an iterator makes Get report NOT_FOUND although records follow (C43_removed_ends_scan_refuted).
- Without a theorem: a crash during an in-place update may leave both or neither version; Open's shortcut for the appending mode updates the count but not the data size; ValidateRecords subtracts the wrong size for REMOVE; a failed Rebuild leaves the update mode appending; ImportFromFileForward ignores import_status.

*TreeDBM and BabyDBM.*
- The last leaf is read from the offset of the first one: after reopening, Last and JumpLower are wrong (C16_last_refuted, C16_reopen_refuted).  A damaged page size leads to reads out of bounds (C16_damaged_refuted); a page size of 2^24 or more is truncated (C16_page_limit_refuted).
- Removing the last record of a leaf reads `front()` of an empty vector (C13_each_refuted, C15_remove_refuted).  ProcessFirst with writable = false writes (C13_first_refuted).
- Previous after Jump to an absent key beyond its leaf skips that leaf (C14_previous_refuted).

*SkipDBM.*
- JumpLower (inclusive) with duplicates stands at the first equal record (C17_lower_refuted); unsynchronized in-order records are counted, which breaks Last and JumpUpper (C17_unsynchronized_refuted).
- Values equal to the removal mark count as removals; removals into an empty database in order are kept; merged files come before existing records (the C18 refuted theorems).  Set with overwrite and an old value gives DUPLICATION_ERROR (C19_skip_set_refuted).
- Clear and then Close leaves a file that says it was not closed (C49_clear_close_refuted); RestoreDatabase of a file with damaged magic bytes succeeds and may make up a record (C49_restore_refuted).
- Without a theorem: removed_ is never reset; file sizes are not checked against the offset width; int32_t overflow in SetData; RestoreDatabase with a step unit of 0 divides by zero; MergeSkipDatabase changes the database under a shared lock.

*TinyDBM, CacheDBM, flat files.*
- The memory capacity of CacheDBM is not enforced on overwriting (C12_memory_refuted); Rebuild with a smaller capacity keeps the least recently used records (C12_rebuild_refuted).
- A trailing empty record is not read back, so a saved database whose last value is empty does not open again (C23_reader_refuted, C23_import_refuted, C23_save_refuted).  TSV without escaping loses bytes (C24_tsv_plain_refuted).
- Without a theorem: TinyDBM's import at Open is written to the update logger; records reaching 2^31 bytes overflow; evictions are not logged; a write failure in ExportRecords still renames the file.

*Update logs and message queue.*
- The buffer of a message is one byte short when ids and sizes are all at least 2^28 (C20_buffer_refuted); forged sizes are undefined (C20_parse_any_refuted); a log without messages gives INFEASIBLE_ERROR (C20_replay_empty_refuted); a tail of zeros makes replay loop (C20_replay_hang_refuted); the status of the target is lost (C20_apply_status_refuted); unsynchronized messages are skipped (C20_replay_unsynced_refuted).
- RemoveOldFiles without exclude_latest may remove newer messages (C21_remove_old_latest_refuted).  Open fails after torn writes, and timestamps restart (the C22 refuted theorems).
- Without a theorem: a message of 2^32 bytes or more is truncated; the regular expression of FindFiles is not anchored.

*Strings, comparators, paths, searches.*
- NaN and exponents in RealNumberKeyComparator, overflow in the decimal one, three-byte keys, hexadecimal keys, and short pairs (the C25 refuted theorems).
- Boyer-Moore reads out of bounds for byte 255 (C28_BM_byte_255_refuted); the Z algorithm takes NUL as a separator (C28_Z_NUL_refuted); StrSearchBatchRK ignores the limit (C28_batch_RK_empty_refuted).
- Malformed serializations loop or read out of bounds; zigzag overflows (the C26 refuted theorems).  EditDistanceLev overflows int32_t on large tables (C40_edit_distance_overflow_refuted); HeapByCostAdd with capacity 0 is undefined (C40_capacity_zero_refuted).
- StrJoin leaves out the delimiters after empty elements at the front, so splitting does not give them back (C55_join_refuted).
- JoinPath with an empty base gives an absolute path (C44_join_empty_refuted).  SearchDBMOrder with capacity 0 returns nothing (C47_order_capacity_zero_refuted); SearchDBMForwardMatch is wrong under other comparators (C47_forward_match_other_order_refuted).
- Status::operator< is not an order (C41_order_refuted).

*Files.*
- Truncate does not discard data nor fill null codes within a session, except in StdFile (C48_null_codes_refuted); TruncateFakely is limited by the allocated, not the actual size (C48_fake_size_refuted), and reading what it grants on an empty read-only mapping is a bus error (C48_mmap_fault_refuted).
- A positional file with a growth factor of zero or less cannot read back what Expand adds, and with blocks an unaligned write stores unset memory (C48_no_growth_refuted).
- SetHeadBuffer twice on a read-only file fails and may change what is read (C48_head_readonly_refuted); the page cache keeps stale pages after TruncateFakely (C48_cache_fake_refuted); StdFile::Expand(0) leaves the old size unset and its Synchronize succeeds on a read-only file (C48_std_differs_refuted).

*Threads and containers.*
- The counter of the spin lock wraps after about 2^32 attempts and lets a reader in beside a writer (C31_exclusion_refuted).  The precondition documented for HashMutex::Rehash is too weak (C32_rehash_doc_refuted).
- TaskQueue::Stop and WaitCounter::Wait can miss a wake-up (C36_stop_returns_refuted, C36_wait_terminates_refuted).
- LinkedHashMap's operator[] overwrites (C33_subscript_refuted); DoubleLRUCache with hot capacity 0, or given back a hot id (C34_zero_capacity_refuted, C34_give_back_refuted).

*ShardDBM, indices, files.*
- ShardDBM's iterator: removal after a descending move uses the heap with the wrong comparator (C35_remove_down_refuted); Get after Process is stale (C35_process_stale_refuted).  Without a theorem: a direction change passes a view of a string that is overwritten meanwhile; reopening with another number of shards loses records.
- GetValues loses values with the case-insensitive pair comparator (C37_case_order_refuted) and, in StdIndex, values below VALUETYPE() (C37_std_negative_refuted).
- Synchronize beside Append loses data, as documented (C38_sync_map_refuted, C38_sync_pos_refuted).  With the page cache, a read inside the unaligned last page of a read-only file fails (C39_readonly_tail_refuted), and so does an unaligned write beyond the end (C39_append_refuted).
- Without a theorem: shrinking a memory-mapped or positional file and growing it again in one session shows the old bytes.
- AESCompressor uses only the first 16 bytes of a key of exactly 32 bytes, and AES-192 never (C50_aes_key32_refuted); RC4Compressor ignores the vector with keys of 256 bytes or more (C50_rc4_long_key_refuted).
- AESCompressor chains with the plain text, so equal neighbouring blocks are written as the cipher of zeros (C50_aes_repeat_refuted); its `int32_t` counter of blocks overflows at 2^35 bytes (C50_aes_counter_refuted).
- StdHashDBM and StdTreeDBM: a database whose last record has an empty value cannot be opened again (C51_reopen_refuted); a failing write lets the incomplete temporary file replace the good one, and Synchronize still says SUCCESS (C51_disk_full_refuted); a refused file leaves its records in the object, to be saved to the next one (C51_failed_open_refuted); read-only databases take updates (C51_readonly_refuted); a file with malformed metadata makes Open hang (C51_open_hangs_refuted); StdHashDBM reads an uninitialized timestamp (C51_timestamp_refuted).
- TinyDBM: ProcessFirst and ProcessEach called with writable = false take only the shared lock of the object, which Process, Append and ProcessMulti hold
  in shared mode too while they free and move records under a record lock: the readers use freed memory (C53_first_refuted, C53_each_refuted).
  Count during a ProcessMulti may give a number that no moment between whole calls has (C53_count_refuted).
- CacheDBM: ProcessFirst as writer (so PopFirst) finds the first key under the lock of its slot and processes it under a second one; if another thread removes the record in between, the processor is told that the record
  is missing and the call succeeds, though the database was never empty (C56_first_refuted).  ProcessEach as writer reads the number of records of a slot without its lock, a data race (C56_each_refuted).  Count adds up
  the slots one at a time, so it may return a number the database never had (C56_count_refuted).
- BabyDBM::ProcessFirst with writable=false locks the leaf in shared mode but lets the processor write (`ProcessImpl(leaf_node, key, proc, true)`, tkrzw_dbm_baby.cc:500): two threads race (C57_first_refuted).  Count may see the middle of
  a ProcessMulti (C57_count_refuted).
- Signal brokers: a Send between the construction of a Waiter and its Wait is lost, though the documentation says to construct the Waiter before checking the resource (C54_pattern_refuted); Send(false) ends the counts of all but wakes one, and the others are
  found by no later Send (C54_one_refuted); a thread woken by Send(true) goes back to sleep if another one has begun to wait since (C54_all_refuted); a timeout of such a thread takes away the count of the other, which then returns true with no Send (C54_timeout_true_refuted)
  or is found by no later Send (C54_timeout_lost_refuted).
- ParseDateStr reads `pv[1]` although only one byte may be left, and calls `StrToDouble(rp, len)`, which takes the pointer as a C string and the length as the default: the result depends on the
  memory after a string_view, and "...:00." is one second more than "...:00" (C58_view_refuted).  FormatDateRFC1123 takes the current time for any negative one, not just INT64MIN as documented,
  and ParseDateStr reads the year 1950 of RFC 1123 as 3850 (C58_rfc1123_refuted).  FormatDateW3CDTFWithFrac writes a malformed text for a fraction that rounds up to 1
  (C58_w3cdtf_frac_refuted) and can write 49 bytes to the documented 48 (C58_buffer_refuted).  FormatDateSimple returns 20 after writing 19 bytes (C58_simple_refuted).
- PolyDBM compares lowered names with "lexicalCasekeycomparator" and "pairlexicalCasekeycomparator", so the documented "LexicalCaseKeyComparator" is never found: BabyDBM rejects it, and TreeDBM
  orders by the lexical comparator without an error (C59_case_comparator_refuted), as it does for any unknown comparator, since the name is erased before the check (C59_tree_comparator_refuted).
  OpenAdvanced with a wrong parameter of the update log opens (and may create or truncate) the database before it is rejected, and leaves a flag with which a later Close of a database that
  is in memory only fails (C59_rejected_refuted).  The default file is not the documented one (C59_default_file_refuted).  "Remove" as a reducer must be in small letters (C59_reducer_refuted).
  SynchronizeAdvanced merges the databases of "merge" before it rejects a wrong reducer or parameter (C59_synchronize_refuted).
- AsyncDBM: SetCommonPostprocessor deletes the object that waiting tasks are going to call (C52_set_post_refuted); Process, ProcessFirst, ProcessEach and ProcessMulti never call it (C52_post_refuted); ExportToFlatRecords and ImportFromFlatRecords report themselves under other names (C52_post_name_refuted); Wait after Get is undefined (C52_wait_refuted).
- Seen while reading, not modelled: with a compressor, a processor that returns a view of the old value it was given leaves `new_value_orig` pointing to freed memory in CallRecordProcessFull, which the update logger then reads.
