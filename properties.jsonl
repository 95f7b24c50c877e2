{"id": "C01", "title": "Events are totally ordered by (id, key)", "statement": "For events whose ids lie within 2^63 of each other, the engine's comparison is a total order: equal exactly when id and key are equal, antisymmetric and transitive, ordering first by id and then by key bytes with a shorter prefix first. The searches inside memory pages and file regions narrow the result to 32 bits: they agree with that order when the ids of one partition differ by less than 2^31, and without that bound two distinct ids (0 and 2^32) compare as equal, so one overwrites the other.", "quantifier": "all pairs and triples of events with arbitrary 64-bit ids and keys up to 255 bytes", "why_tests_cant": "the input space is 2^64 ids times 255-byte keys; failures sit at integer-width boundaries that tests with small ids never reach", "anchors": ["monotone/engine/io/comparator.h:compare", "monotone/engine/io/memtable.c:memtable_compare,memtable_search", "monotone/engine/io/region_iterator.h:region_iterator_compare"]}
{"id": "C02", "title": "In-memory writes to a partition have last-write-wins map semantics (one page)", "statement": "While a partition holds at most 512 distinct (id,key) pairs in memory and its ids span less than 2^31, any sequence of writes, replacements and deletes leaves it holding exactly one event per key written, the last one, in ascending order, and a read of any key finds exactly that event.", "quantifier": "all sequences of writes of any length over any keys", "why_tests_cant": "the number of orders in which keys may arrive is factorial; tests insert a handful of small ids in a partition of width 10", "anchors": ["monotone/engine/io/memtable.c:memtable_set,memtable_search_page,memtable_search,memtable_insert"]}
{"id": "C03", "title": "Append-order writes are never lost or reordered, for any number of events", "statement": "If every event written to a partition is greater than all those before it (ids spanning less than 2^31), then for any number of events the in-memory table holds all of them, a scan from the start returns all of them in order, and the number of events per page stays within the page capacity.", "quantifier": "all strictly increasing write sequences of unbounded length", "why_tests_cant": "page splits and tree rebalancing happen only after hundreds of events and their shape depends on the whole history", "anchors": ["monotone/engine/io/memtable.c:memtable_set,memtable_insert", "monotone/runtime/lib/rbtree.c:rbtree_set"]}
{"id": "C04", "title": "Out-of-order writes and reads keep working past one page", "statement": "The statement 'after any writes, a read of a key that was written finds it' is false once a partition holds more than one page (513 events) in memory: a cursor opened at an existing id below the last page starts at a later event, and an out-of-order write that splits an inner page drops the pages to its right. It holds when the search lands on the page that covers the key.", "quantifier": "all write histories and all keys", "why_tests_cant": "needs more than 512 events in one partition; the project's tests use partitions of ten ids", "anchors": ["monotone/engine/io/memtable.c:memtable_search_page,memtable_set"]}
{"id": "C05", "title": "A failed batch leaves the in-memory data unchanged", "statement": "If a batch of writes fails part way (key too large, WAL error, locking error), then undoing it restores, for every partition touched, exactly the events that were visible before the batch, including events the batch had replaced and duplicates of the same key inside the batch.", "quantifier": "all batches, all failure positions, all prior contents (one page per partition)", "why_tests_cant": "the failing position and the prior contents multiply; tests have no fault injection inside a batch", "anchors": ["monotone/engine/engine/write.c:engine_rollback,engine_write", "monotone/engine/io/memtable.c:memtable_unset"]}
{"id": "C06", "title": "An open cursor stays on its event while others write", "statement": "While a cursor is open on an in-memory page, writes of larger keys never move it, and writes of smaller keys never make it skip or repeat an event. Three cases break this: writing a new key immediately below the cursor's event moves the cursor back to the new event; rewriting an existing smaller key makes it skip one event; a write that splits the page makes it skip one event. In all other cases (new key above, rewrite at or above, new key below but not immediately below; no split) the cursor stays on its key and is followed by exactly the larger events.", "quantifier": "all page contents, cursor positions and written keys", "why_tests_cant": "depends on the relative position of cursor and insertion point for every page fill level", "anchors": ["monotone/engine/io/memtable_iterator.h:memtable_iterator_sync,memtable_iterator_next", "monotone/engine/io/memtable.c:memtable_sync"]}
{"id": "C07", "title": "Merging memory and file shows the newest version of each event exactly once, in order", "statement": "Given the new in-memory table, the previous in-memory table and the partition file, each in ascending order, the merged view lists every key present in any of them exactly once, in ascending order, and takes the version from the newest source that has it.", "quantifier": "all numbers of sources and all ascending contents", "why_tests_cant": "tie patterns across three sources are combinatorial", "anchors": ["monotone/engine/io/merge_iterator.h:merge_iterator_next", "monotone/engine/io/part_cursor.h:part_cursor_open"]}
{"id": "C08", "title": "A range scan returns exactly the live events from the start key on, in order, across partitions", "statement": "Opening a cursor at id k (no key part) and advancing it to the end returns every event with id >= k whose latest version is not a delete, once each, in ascending (id,key) order, over all partitions. This holds when each in-memory table has one page and the start and all ids lie within 2^31 of each other; a start id 2^31 or more below the stored ids misses events.", "quantifier": "all database states and all start ids", "why_tests_cant": "requires quantifying over the contents of every partition's two memory tables and file", "anchors": ["monotone/engine/engine/engine_cursor.h:engine_cursor_open,engine_cursor_next,engine_cursor_skip_deletes", "monotone/main/api/monotone.c:monotone_cursor,monotone_read,monotone_next"]}
{"id": "C09", "title": "A cursor opened between two stored events starts at the next stored event", "statement": "For a cursor opened with an id and a key, the partition file must yield the first event not smaller than it. This is true for cursors without a key part; with a key part it fails when the key sorts after every event of the last id of a region: the remaining regions of the partition are skipped. The same skip happens between two memory pages.", "quantifier": "all file layouts and all start keys", "why_tests_cant": "needs multi-region files with several keys per id and a start key at a region edge", "anchors": ["monotone/engine/io/part_iterator.h:part_iterator_open", "monotone/engine/io/memtable_iterator.h:memtable_iterator_open"]}
{"id": "C10", "title": "What a refresh writes into a partition file is what a reader gets back", "statement": "For every ascending list of events and every region size, writing a partition file and opening it again yields exactly the same events in the same order with the same id, key, value and flags, for any compression and encryption that round-trip, whatever bytes happen to follow an event in memory, provided sizes fit their 32-bit fields; a file above 4 GiB returns other events.", "quantifier": "all event lists, region sizes, compression/encryption settings", "why_tests_cant": "byte layouts depend on every event size and region boundary", "anchors": ["monotone/engine/io/writer.c:writer_add,writer_stop", "monotone/engine/io/region_writer.h", "monotone/engine/io/index_writer.h", "monotone/engine/io/index_op.c:index_open,index_read", "monotone/engine/io/reader.h:reader_execute", "monotone/engine/io/region.h:region_get"]}
{"id": "C11", "title": "The region index always points a lookup at the right region", "statement": "For every partition file and every id, the region chosen by the index is the first region whose largest id is not below the looked-up id, and none is chosen exactly when all are below. This holds when the looked-up id and the file's ids lie within 2^31 of each other; an id 2^31 or more below the file's ids finds no region.", "quantifier": "all indexes with ascending disjoint regions and all ids", "why_tests_cant": "binary search errors show only at particular sizes and positions", "anchors": ["monotone/engine/io/index_iterator.h:index_iterator_search,index_iterator_open"]}
{"id": "C12", "title": "Events that share an id are stored in one region", "statement": "For every ascending event list and region size, all events with equal id land in the same region of the file, every region except the last reached the configured size, regions are in ascending id order with disjoint id ranges, and each index entry records the true smallest and largest id and event count of its region.", "quantifier": "all ascending event lists and region sizes", "why_tests_cant": "region boundaries move with every event size", "anchors": ["monotone/engine/io/writer.c:writer_add,writer_is_region_limit", "monotone/engine/io/index_writer.h:index_writer_add"]}
{"id": "C13", "title": "A partition file that was damaged in its footer is rejected", "statement": "Opening a partition file succeeds only if magic, checksum, size and version of the footer agree, the footer written by the writer always passes, and any change confined to four consecutive bytes anywhere in the footer, its checksum field included, is detected.", "quantifier": "all footers and all small corruptions", "why_tests_cant": "all bit patterns", "anchors": ["monotone/engine/io/index_op.c:index_open", "monotone/engine/io/index_writer.h:index_writer_stop", "monotone/runtime/lib/crc.c"]}
{"id": "C14", "title": "The checksum is the same on every machine and buffer alignment", "statement": "The table-driven checksum gives, for every byte string, starting value and buffer alignment, the CRC-32C of the bytes computed bit by bit, the same value as folding the hardware CRC instruction; it is incremental over concatenation; leading zero bytes do not change a zero checksum.", "quantifier": "all byte strings, start values and alignments", "why_tests_cant": "infinitely many inputs; eight 256-entry tables", "anchors": ["monotone/runtime/lib/crc.c:crc32_sw,crc32_hw"]}
{"id": "C15", "title": "Small corruptions of a checksummed record are always detected", "statement": "Two byte strings of equal length that differ only within four consecutive bytes never have the same checksum.", "quantifier": "all strings, positions and changes", "why_tests_cant": "2^32 changes at each position of every string", "anchors": ["monotone/runtime/lib/crc.c", "monotone/engine/wal/wal_file.h:wal_file_pread"]}
{"id": "C16", "title": "Partitions never overlap and every write goes to the partition containing its id", "statement": "After any sequence of writes, CREATE PARTITION and DROP PARTITION, with the partitioning interval changed in any way in between, the partitions' id ranges are pairwise disjoint and ordered, and a write of id x lands in the unique partition whose range contains x, as long as all ids stay within 2^31 of each other; an automatically created partition starts at the multiple of the interval below x and is trimmed, never overlapping a neighbour.", "quantifier": "all histories of writes, creates, drops and interval changes", "why_tests_cant": "depends on the full history of intervals", "anchors": ["monotone/engine/engine/engine.c:engine_lock", "monotone/engine/engine/op.c:engine_create,engine_fill_nolock", "monotone/engine/io/mapping.h"]}
{"id": "C17", "title": "CREATE PARTITION covers exactly the requested range", "statement": "CREATE PARTITION min max makes every id in [min,max], and no id outside it that was not covered before, belong to a partition, changes no existing partition, creates nothing that overlaps, and is refused exactly when min > max.", "quantifier": "all existing partition layouts, intervals and ranges", "why_tests_cant": "layouts with gaps of every shape", "anchors": ["monotone/engine/engine/op.c:engine_fill,engine_fill_nolock", "monotone/main/command/parse_partition.c:parse_partition_create"]}
{"id": "C18", "title": "The end of the id space is handled", "statement": "Writing ids near 2^64-1 and scanning over them terminates and keeps partitions disjoint. False: with an interval that divides 2^64 the last partition ends at 2^64-1 and a scan that reaches it starts again at id 0 forever; with other intervals the ids of the last partial interval cannot be written.", "quantifier": "all intervals and ids", "why_tests_cant": "only the top of the 64-bit range is affected", "anchors": ["monotone/engine/engine/engine_cursor.h:engine_cursor_next", "monotone/engine/engine/op.c:engine_fill_nolock"]}
{"id": "C19", "title": "Partition range commands act on every partition in the range", "statement": "DROP/REFRESH/MOVE/UPLOAD/DOWNLOAD PARTITIONS BETWEEN a AND b act exactly once on every partition that lies in the range and on none outside. True when a is the start of a partition (or falls in a gap); when the first partition starts before a, nothing is done at all.", "quantifier": "all partition layouts and ranges", "why_tests_cant": "range edges relative to partition edges", "anchors": ["monotone/engine/engine/op.c:engine_foreach"]}
{"id": "C20", "title": "Partition lookup is balanced", "statement": "After any sequence of partition creations and removals the lookup structure keeps the partitions in order, finds the partition a lookup asks for, and a lookup inspects at most 2*log2(n+1) of n partitions.", "quantifier": "all insertion/removal sequences", "why_tests_cant": "rebalancing cases depend on the full history", "anchors": ["monotone/runtime/lib/rbtree.c:rbtree_set,rbtree_remove,rbtree_next,rbtree_prev", "monotone/engine/io/mapping.h:mapping_seek,mapping_gte,mapping_match"]}
{"id": "C21", "title": "Every WAL record can be read back as written", "statement": "Every batch logged is read back by recovery with the same sequence number, type and events (id, key, value, flags), whatever bytes follow an event in memory.", "quantifier": "all batches", "why_tests_cant": "all sizes and contents", "anchors": ["monotone/engine/wal/log.h", "monotone/engine/wal/log_write.h", "monotone/engine/wal/wal_file.h:wal_file_pread", "monotone/engine/engine/write.c:engine_write_replay"]}
{"id": "C22", "title": "A WAL cut at any byte is recovered up to the last complete record", "statement": "If a crash leaves the log cut at an arbitrary byte, recovery reads exactly the records that are complete before the cut and stops without error.", "quantifier": "all logs and all cut positions", "why_tests_cant": "every byte offset of every log", "anchors": ["monotone/engine/wal/wal_file.h:wal_file_eof,wal_file_pread", "monotone/engine/wal/wal_cursor.c:wal_cursor_next"]}
{"id": "C23", "title": "Writes acknowledged after a crash survive the next restart", "statement": "False for a crash that left a partial record at the end of the log: after restart new records are appended behind the partial one, and the following recovery misreads them, losing acknowledged writes. True when the log ended at a record boundary.", "quantifier": "all logs, cut positions and subsequent writes", "why_tests_cant": "needs two crashes with the first in the middle of a write", "anchors": ["monotone/engine/wal/wal.c:wal_open,wal_write", "monotone/engine/wal/wal_file.h:wal_file_pread"]}
{"id": "C24", "title": "Checksummed WAL records are accepted on recovery", "statement": "With wal_crc on, every record written is accepted by recovery. True for batches without keys and for single-event batches; false for a batch of two keyed events in one partition, because the checksum of the first event also covers memory that the second event overwrites before the record is written.", "quantifier": "all batches", "why_tests_cant": "depends on allocator adjacency of events in a batch", "anchors": ["monotone/engine/io/event.h:event_size", "monotone/engine/wal/log.h:log_add_event", "monotone/runtime/lib/heap.h:heap_allocate"]}
{"id": "C25", "title": "Removing old WAL files never removes data that is only in the log", "statement": "For every set of log files and every oldest sequence number still only in memory, the removed files contain only records older than it, the newest file is never removed, and the remaining files still cover every needed record contiguously.", "quantifier": "all rotation histories and in-memory states", "why_tests_cant": "file boundaries and partition ages vary independently", "anchors": ["monotone/engine/wal/wal_id.h:wal_id_gc_between", "monotone/engine/wal/wal.c:wal_gc,wal_rotate", "monotone/engine/engine/op.c:engine_gc"]}
{"id": "C26", "title": "WAL garbage collection is safe while writers run", "statement": "In every interleaving of a writer with rotation and garbage collection no file that holds an acknowledged, not yet refreshed write is removed. False: collection that runs after the log write and before the writer marks the partition can remove the file.", "quantifier": "all interleavings of writer, rotation and collection steps", "why_tests_cant": "a window of a few instructions between two threads", "anchors": ["monotone/engine/engine/write.c:engine_commit,engine_write", "monotone/engine/engine/op.c:engine_gc", "monotone/engine/io/memtable.c:memtable_follow"]}
{"id": "C27", "title": "Log sequence numbers strictly increase and order the log", "statement": "Sequence numbers of logged records strictly increase in file order, file names increase, and each file holds only records at or after its name, over any history of writes, rotations and restarts without DROP. False with DROP: after a restart its number is given to the next write. When all partitions were dropped and the older files collected, the numbers begin at 1 again below the name of the last file: an acknowledged write is overwritten by the next, or the log is read in another order than it was written.", "quantifier": "all histories", "why_tests_cant": "unbounded histories", "anchors": ["monotone/engine/wal/wal.c:wal_write,wal_rotate", "monotone/main/main/main.c:main_replay"]}
{"id": "C28", "title": "The list of WAL files stays sorted and duplicate-free", "statement": "For any sequence of additions and removals, also in the arbitrary order in which a directory is listed, the list of log files is sorted, duplicate-free and complete as long as no id is added twice; minimum, maximum and successor queries answer correctly. False when the first write to a file fails half way: rotation then adds the same id again.", "quantifier": "all sequences of additions and removals", "why_tests_cant": "unbounded sequences", "anchors": ["monotone/engine/wal/wal_id.h"]}
{"id": "C29", "title": "Acknowledged writes survive a crash and restart", "statement": "For every history of write batches and refreshes, with a crash after any acknowledged operation, the data visible after restart is exactly the data visible before the crash. (Log file complete, no DROP, one page per memory table.)", "quantifier": "all histories of batches and refreshes and all crash points between operations", "why_tests_cant": "unbounded histories times crash points", "anchors": ["monotone/engine/engine/write.c:engine_write_replay", "monotone/main/main/main.c:main_replay", "monotone/engine/engine/engine_recover.c:engine_recover"]}
{"id": "C30", "title": "A batch is atomic across a crash", "statement": "If the machine stops while a batch is being logged, then after restart either all events of the batch are visible or none, and all earlier batches are.", "quantifier": "all batches and all byte positions of the crash", "why_tests_cant": "every byte position", "anchors": ["monotone/engine/engine/write.c:engine_commit", "monotone/engine/wal/wal.c:wal_write"]}
{"id": "C31", "title": "Recovery can be repeated", "statement": "Restarting again without new writes (also after a crash during recovery) yields the same visible data, for every log and every set of partition files.", "quantifier": "all logs, files and restart counts", "why_tests_cant": "arbitrary numbers of restarts", "anchors": ["monotone/engine/engine/write.c:engine_write_replay", "monotone/main/main/main.c:main_replay"]}
{"id": "C32", "title": "Data written after DROP PARTITION survives restarts", "statement": "False: replaying a DROP appends a new DROP record to the log, so a write made after the DROP is lost by the second restart (by the first, if the log was rotated in between). Restarts lose nothing when no DROP is in the log.", "quantifier": "all histories of writes, drops and restarts", "why_tests_cant": "needs two restarts after a drop and a rewrite", "anchors": ["monotone/main/main/main.c:main_replay", "monotone/engine/engine/op.c:engine_drop_reference"]}
{"id": "C33", "title": "Refreshing a partition does not change what readers see", "statement": "For every partition content, a refresh (also moving it to another storage) leaves the visible events of the partition unchanged, also for events written while the refresh runs, and removes exactly the deleted events from the file.", "quantifier": "all contents and all interleavings of writes with the refresh stages", "why_tests_cant": "interleavings times contents", "anchors": ["monotone/engine/engine/refresh.c:refresh_begin,refresh_merge,refresh_apply,refresh_end", "monotone/engine/io/merger.c:merger_execute"]}
{"id": "C34", "title": "A crash at any point of a refresh loses nothing", "statement": "If the machine stops between any two file operations of a refresh on one storage, the next start finds a valid set of partition files and with the log restores exactly the data visible before the crash; leftovers are removed.", "quantifier": "all crash points between file operations, all contents", "why_tests_cant": "each file operation boundary with all combinations of file states", "anchors": ["monotone/engine/engine/refresh.c", "monotone/engine/engine/engine_recover.c:recover_storage,recover_validate"]}
{"id": "C35", "title": "A crash at any point of moving a partition to another storage loses nothing", "statement": "If the machine stops between any two file operations of a move between storages, the next start accepts the files it finds, keeps exactly one copy and restores exactly the data visible before.", "quantifier": "all crash points, all contents", "why_tests_cant": "each file operation boundary", "anchors": ["monotone/engine/engine/refresh.c:refresh_end", "monotone/engine/engine/engine_recover.c:recover_validate"]}
{"id": "C36", "title": "A failed refresh can be retried safely", "statement": "False: if writing the new file fails (disk full), the second attempt makes the older in-memory data active again, newer writes are shadowed by older ones and the older in-memory data is lost after restart. A refresh that fails before it switches the in-memory tables changes nothing.", "quantifier": "all contents and failure points", "why_tests_cant": "needs an I/O error in the middle of a refresh followed by another refresh", "anchors": ["monotone/engine/engine/refresh.c:refresh_begin,refresh_run", "monotone/engine/io/part.h:part_memtable_rotate"]}
{"id": "C37", "title": "A stale temporary file does not corrupt a later refresh", "statement": "Creating a partition file over a leftover temporary file gives exactly the new content if and only if the leftover is not longer. A longer leftover keeps its tail behind the new content: reads of the running process are not affected, but the next start judges the file by the footer of the leftover. An incomplete leftover makes the start fail, a complete one is opened as if nothing had happened, with the index of the leftover over partly overwritten regions.", "quantifier": "all leftover and new contents", "why_tests_cant": "needs leftovers of particular lengths", "anchors": ["monotone/runtime/runtime/file.h:file_create", "monotone/engine/io/part.c:part_create"]}
{"id": "C38", "title": "A crash while saving settings keeps the previous or the new settings", "statement": "False: after the old file is renamed and before the new one is complete, a crash leaves no configuration (the next start silently writes the defaults and forgets storages, clouds and pipeline) or a part of one (the next start fails); the previous text is still in config.json.old, which is never read. Before the rename the next start reads the previous settings, after the last byte the new ones, exactly.", "quantifier": "all tables of settings with values that have a JSON text, and all crash points", "why_tests_cant": "a small crash window", "anchors": ["monotone/runtime/config/config.c:config_save,config_open,config_set_data,config_list_persistent"]}
{"id": "C39", "title": "Automatic ids are unique and increasing across restarts", "statement": "In serial mode, ids handed out in one run are strictly increasing; after a restart they continue above every stored id. The second part is false when the last partition holds no events at restart (for example all deleted and refreshed): ids restart from 0 and overwrite earlier events.", "quantifier": "all histories of serial writes, refreshes and restarts", "why_tests_cant": "needs particular contents of the last partition at restart", "anchors": ["monotone/engine/engine/engine.c:engine_set_serial", "monotone/runtime/config/global.h:config_ssn_next", "monotone/engine/engine/write.c:engine_write"]}
{"id": "C40", "title": "A partition is never used by a writer and replaced by a refresh at the same time", "statement": "In every interleaving of any number of threads with batches, cursors, refreshes, drops and commands, while one thread holds a lock of a partition no other thread holds it, provided each thread takes it at most once at a time; a thread sleeps only while the lock has an owner, and an exclusive command runs while nobody else holds any lock. Without the proviso it is false: a lock taken n+2 times is free after n+1 releases, so two events of one batch in the same partition, or a write under an open cursor, release the lock of another thread, and a writer and a refresh are in the partition together.", "quantifier": "all interleavings of any number of threads", "why_tests_cant": "all schedules", "anchors": ["monotone/engine/engine/lockage.h", "monotone/engine/engine/ref.h", "monotone/engine/engine/engine.c:engine_lock,engine_unlock"]}
{"id": "C41", "title": "Background work: each request is in one place and done in order", "statement": "For every interleaving of producers and workers each request is in exactly one place: the queue, the hands of one worker, or ended; its actions are done once each and in order; a worker gets the oldest request of its kind and sleeps only when there is none; the counters are exact; and with a worker for every kind all requests can be brought to their end. Between two requests made because a partition is full it was replaced. But the same refresh can be queued twice (the previous head), a request whose action fails is dropped while its partition stays marked, so that it is never refreshed again however full it gets, and with workers = 0 refreshes stay in the queue.", "quantifier": "all interleavings of producers and workers", "why_tests_cant": "all schedules", "anchors": ["monotone/engine/engine/service.h", "monotone/engine/engine/service_req.h", "monotone/engine/engine/op.c:engine_service"]}
{"id": "C42", "title": "Events in one batch see themselves in order", "statement": "Within one batch, later events override earlier events with the same id and key, and after commit exactly the last one is visible; the log replays them in the same order.", "quantifier": "all batches", "why_tests_cant": "all duplicates patterns", "anchors": ["monotone/engine/engine/write.c:engine_write", "monotone/engine/wal/log.h"]}
{"id": "C43", "title": "Storages and clouds in use cannot be dropped, names stay unique", "statement": "After any sequence of CREATE/DROP/ALTER/RENAME of clouds and storages and ALTER PIPELINE, failing ones and restarts included, names are unique, the main storage exists, reference counts are the numbers of users, a linked cloud or storage exists, and the variables of the settings hold the settings. DROP of the main storage, of a storage that a tier uses or that has partitions, and of a cloud that a storage is linked to is refused; DROP of anything else succeeds. If no command failed after it changed something and no storage used by several tiers was renamed, every cloud and storage that is named exists. False otherwise: when attaching to the cloud fails the storage names a cloud it is not linked to, the cloud can be dropped, and the database cannot be opened any more.", "quantifier": "all command sequences, outcomes of the file system and of the cloud", "why_tests_cant": "unbounded command sequences", "anchors": ["monotone/engine/storage/storage_mgr.c", "monotone/engine/storage/pipeline.c", "monotone/cloud/cloud/cloud_mgr.c", "monotone/main/main/execute.c"]}
{"id": "C44", "title": "Saved settings can always be opened again", "statement": "After any sequence of catalog commands the saved catalog reopens, through config.json, to the same settings exactly when every cloud and storage that is named exists. False in general: after a rejected ALTER STORAGE SET (cloud 'missing') the bad reference is kept and saved by the next command, and the database cannot be opened any more. True without such a rejected command.", "quantifier": "all command sequences including failing ones", "why_tests_cant": "needs a failing command followed by another and a restart", "anchors": ["monotone/engine/storage/storage_mgr.c:storage_mgr_alter,storage_mgr_open", "monotone/cloud/cloud/cloud_mgr.c:cloud_mgr_open", "monotone/engine/storage/pipeline.c:pipeline_open", "monotone/main/main/main.c:main_start"]}
{"id": "C45", "title": "Renaming a storage keeps the pipeline consistent", "statement": "After renaming a storage every pipeline tier that used it uses the new name, nothing else changes. True when at most one tier uses it; ALTER PIPELINE accepts a storage that appears twice non-adjacently, and then only the first tier is renamed and the database cannot be opened any more.", "quantifier": "all pipelines and renames", "why_tests_cant": "pipelines of arbitrary length", "anchors": ["monotone/engine/storage/pipeline.c:pipeline_rename,pipeline_alter_validate"]}
{"id": "C46", "title": "Tiering moves the oldest partitions first and only as needed", "statement": "For every content, limits and time a round of the rebalance takes the oldest partition of the first tier over a limit (true counts and sums) whose oldest partition has no work waiting, and moves it to the next tier, or from the last tier drops it; it takes none only when every tier over a limit is waiting. If nothing fails, no work waits and tiers use different storages, the rounds end after at most tiers x partitions steps with no tier over its limits, and a limit on the number of partitions of a single tier drops exactly the oldest above it. Not so otherwise: a single tier over its limit of size or events loses all its partitions; while work is waiting for an earlier tier the partition of the last tier is moved to another tier instead of dropped, for ever or to where it is; a pipeline with one storage twice is rebalanced for ever; after the clock is set back a new partition counts as old.", "quantifier": "all contents and limits", "why_tests_cant": "combinations of four limits and contents", "anchors": ["monotone/engine/engine/op.c:rebalance_tier,rebalance_next,engine_rebalance"]}
{"id": "C47", "title": "Binary values survive encoding and decoding", "statement": "Every value built of null, booleans, 64-bit integers, strings, reals, arrays and maps decodes to itself, and skipping it advances exactly over its bytes, for all nestings and sizes; the space reserved for an encoding is the space it takes. Exception: a real in the range of a float is stored as a float, so exactly those reals change whose last 29 bits are not zero (0.1 is one of them).", "quantifier": "all values", "why_tests_cant": "infinite value space with boundaries at 31, 127, 32767, 2^31", "anchors": ["monotone/runtime/lib/data.h", "monotone/runtime/lib/encode.h", "monotone/runtime/lib/decode.h"]}
{"id": "C48", "title": "Settings survive being written as JSON and read back", "statement": "Every value of null, booleans, integers below 2^63 - 48 in size, strings, arrays and maps with string keys reads back from its JSON text, pretty or not, if its strings have no double quote outside of a backslash pair and no open backslash at the end. Every other string does not come back; a string with a double quote in a map makes the text unreadable, larger integers overflow the parser, a real whose digits take more than 31 characters is read beyond the array it is printed to, and an empty text is accepted as an empty result.", "quantifier": "all values", "why_tests_cant": "infinite value space", "anchors": ["monotone/runtime/lib/json.c:json_read,json_export_as"]}
{"id": "C49", "title": "UUIDs survive printing and parsing", "statement": "Every 128-bit uuid prints to 36 characters which parse back to the same uuid, and parsing accepts exactly the texts that begin with 8-4-4-4-12 hexadecimal groups; what follows the groups is ignored, so longer texts that are no uuid are accepted too.", "quantifier": "all 2^128 uuids", "why_tests_cant": "2^128 values", "anchors": ["monotone/runtime/lib/uuid.c"]}
{"id": "C50", "title": "Sizes and durations in commands mean what they say", "statement": "An integer followed by a unit denotes the integer times the unit. True for all units except: 'month' counts 210 days and 'year' 2520 days, 'min' is not recognised as minutes, and products above 2^64 wrap silently.", "quantifier": "all integers and units", "why_tests_cant": "all 64-bit values times all units", "anchors": ["monotone/main/command/lex.c:lex_integer_mod,keywords"]}
{"id": "C51", "title": "In-memory allocations never overlap", "statement": "Blocks handed out by the memory arenas of all partitions are pairwise disjoint, inside their page, and never on a page of the free list, for any requests of non-negative int size and any order of resets and collections. A request above the page size yields no block. The size of an event is narrowed to int: a value of 2 GiB - 14 bytes or more gives a negative size and later events overlap, one above 4 GiB gets a block of a few bytes.", "quantifier": "all request sequences", "why_tests_cant": "unbounded sequences", "anchors": ["monotone/runtime/lib/heap.h:heap_allocate", "monotone/engine/io/event.h:event_allocate"]}
{"id": "C52", "title": "Memory pages are accounted exactly", "statement": "After any sequence of page requests and returns, the pool's counters equal the number of free pages held and pages in use, the limit is exceeded by less than a page, and returned pages are reused while the cache has room; a call waiting for memory goes on when another arena returns pages into the cache. Two exceptions: a failed mmap stays counted, and when the cache is full or zero, returned pages go to the system and a waiting call is never woken.", "quantifier": "all request/return sequences", "why_tests_cant": "unbounded sequences", "anchors": ["monotone/runtime/lib/memory_mgr.h"]}
{"id": "C53", "title": "Compressed data is always read with the method it was written with", "statement": "A context taken from the pool for a method is of that method. False when two methods are in use: returning an lz4 context puts it into the zstd pool and it is sooner or later handed out for zstd. True for lz4 always, and for zstd while only one method is used.", "quantifier": "all sequences of takes and returns", "why_tests_cant": "needs both methods in one process", "anchors": ["monotone/runtime/lib/compression_mgr.c:compression_mgr_push"]}
{"id": "C54", "title": "Partial writes by the operating system do not corrupt files", "statement": "However the operating system splits, interrupts or fails a (vectored) write or read, the bytes at the position of the file are exactly the concatenation of the buffers when the call succeeds, and a prefix of it when it fails; the size the program keeps lies between the old size and what was written. Calls end when the system keeps writing at least one byte. A write of no bytes fails, a vectored write answered with 0 repeats forever, and seeking to the end of a file of 4 GiB - 1 bytes fails.", "quantifier": "all buffer vectors and all partial-write schedules", "why_tests_cant": "all schedules of short writes", "anchors": ["monotone/runtime/runtime/vfs.c:vfs_writev,vfs_write", "monotone/runtime/runtime/iov.h"]}
{"id": "C55", "title": "Reported statistics are the true sums", "statement": "The text of a list of SHOW commands is JSON that reads back as what was asked for: settings, and for storages and partitions counters that equal the sums over their partitions (events on disk and in memory, sizes, regions, numbers of local and cloud partitions; modulo 2^64), with min and max bounds that some partition meets. Asking for something that does not exist is refused. Numbers from 2^63 on are shown as negative: the ids of such partitions are reported wrongly.", "quantifier": "all databases, all lists of SHOW commands", "why_tests_cant": "all contents", "anchors": ["monotone/engine/io/stats.h", "monotone/engine/storage/storage.h:storage_show", "monotone/engine/engine/engine_show.c", "monotone/main/main/execute.c:execute_show"]}
{"id": "C56", "title": "Storage metrics used for tiering match the contents", "statement": "After every sequence of creating, dropping, refreshing, moving, uploading, downloading partitions, rebalances and restarts the number of partitions of each storage is right, and its counters of size and events are the sums over its partitions plus something never negative. They are exactly the sums after a start and as long as no partition loses its last file; DROP of a partition with a file leaves them unchanged, so they are too large until the next start.", "quantifier": "all sequences", "why_tests_cant": "unbounded sequences", "anchors": ["monotone/engine/storage/storage.h:storage_add,storage_remove", "monotone/engine/engine/refresh.c:refresh_apply", "monotone/engine/engine/op.c"]}
{"id": "C57", "title": "Cloud upload and download never lose the last copy", "statement": "If the machine stops between any two operations, or inside a write, of an upload, download, refresh or drop of a local or cloud copy, the next start opens the database and finds the contents of before or of after that operation; at every such point there is a complete copy unless the last one was to be dropped. Histories of requests, each cut anywhere, keep this with a cloud that replaces objects. The mock cloud writes over an object that was left and spoils the next upload; an object whose removal was cut stays in the cloud for ever.", "quantifier": "all contents, states, crash points and histories of requests", "why_tests_cant": "each file operation boundary of each operation, repeated crashes", "anchors": ["monotone/engine/io/part.c:part_download,part_upload,part_offload", "monotone/engine/engine/op.c:engine_download,engine_upload,engine_drop_file", "monotone/engine/engine/engine_recover.c", "monotone/cloud/cloud/mock.c", "monotone/cloud/s3/s3.c"]}
{"id": "C58", "title": "A rejected first event does not bring the process down", "statement": "A batch whose first event has a key over 255 bytes is rejected with an error and changes nothing. False: undoing the empty batch reads before the start of an empty buffer. True when a preceding event of the batch was accepted.", "quantifier": "all batches", "why_tests_cant": "memory outside buffers", "anchors": ["monotone/engine/engine/write.c:engine_rollback,engine_write"]}
{"id": "C59", "title": "Large logs are read to the end", "statement": "Recovery reads every complete record of a log file of any size. False from 4 GiB - 21 bytes on: the end-of-file test computes in 32 bits and recovery fails after the last record. True below.", "quantifier": "all file sizes", "why_tests_cant": "needs multi-gigabyte logs", "anchors": ["monotone/engine/wal/wal_file.h:wal_file_eof"]}
{"id": "C60", "title": "Settings given to SET are what SHOW returns and what is saved", "statement": "SET changes that variable only, to the given value. It is accepted exactly when the name exists, is not secret, may be set in the current phase, the token fits the type and zero is allowed. SHOW gives a text that reads as the value, SHOW CONFIG lists the visible variables, and after a restart the value is there. The last part is false for strings with a double quote (the next start fails) and integers from 2^63-48 on (reading overflows); and the file may set a zero that SET refuses.", "quantifier": "all tables of variables, names and tokens", "why_tests_cant": "all values", "anchors": ["monotone/main/main/execute.c:execute_set", "monotone/runtime/config/var.h", "monotone/runtime/config/config.c:config_set_data,config_list_persistent"]}
{"id": "C61", "title": "Recovery can load every event a write accepted", "statement": "Every acknowledged event is loaded again by recovery. False: recovery asks for the size of the event with its key counted twice, so a keyed event accepted close to the memory page size makes recovery write through a null pointer. True for events whose size plus the size of their key fits in a page.", "quantifier": "all events and page sizes", "why_tests_cant": "needs an event within its key size of the page size and a restart", "anchors": ["monotone/engine/io/event.h:event_copy,event_size", "monotone/engine/engine/write.c:engine_write_replay", "monotone/runtime/lib/heap.h:heap_allocate"]}
{"id": "C62", "title": "A write refused for lack of memory changes nothing", "statement": "A batch refused because the memory limit is reached should raise an error and change nothing. False: when memory for an event is refused, undoing the batch always removes a null event and crashes, for every batch that would have been accepted; and an event larger than a memory page is written through a null pointer.", "quantifier": "all engine states and batches", "why_tests_cant": "needs the memory limit to be hit at the right allocation", "anchors": ["monotone/engine/engine/write.c:engine_write,engine_rollback", "monotone/engine/wal/log.h:log_add", "monotone/runtime/lib/memory_mgr.h", "monotone/runtime/lib/heap.h:heap_allocate"]}
{"id": "C63", "title": "Collecting the log during a refresh loses nothing", "statement": "Log files may be removed at any time by the collector without losing an acknowledged write after a crash. False: between the moment a refresh starts using the new partition file and the removal of the old one, the collector already removes log files that recovery still needs, because it prefers the old file. True at all other moments.", "quantifier": "all histories and all moments of the collector", "why_tests_cant": "needs a crash in a short window of a background task", "anchors": ["monotone/engine/engine/op.c:engine_gc", "monotone/engine/engine/refresh.c:refresh_apply,refresh_end", "monotone/engine/engine/engine_recover.c:engine_recover_validate"]}
{"id": "C64", "title": "DROP of one partition does not touch others after a restart", "statement": "After a restart the events outside the dropped partition are those from before. False: the log records only one id, and replay drops whatever partition holds that id then, which is another range if the interval was changed or the dropped partition was created by CREATE PARTITION. Without DROP in the log nothing is lost.", "quantifier": "all histories of writes, CREATE, DROP, interval changes and restarts", "why_tests_cant": "range of the replayed partition differs only for special histories", "anchors": ["monotone/engine/engine/op.c:engine_drop_reference", "monotone/main/main/main.c:main_replay", "monotone/engine/wal/log_drop.h"]}
{"id": "C65", "title": "A failed refresh or move leaves a database that opens", "statement": "After an error in a refresh or move, later refreshes and a stop at any point, the database opens again. False: an error after the rename to .complete, or a stale .incomplete file on a third storage, makes a later start fail or leaves two copies of a partition. True when the error comes before the new partition is used and nothing of it is left when the next refresh begins.", "quantifier": "all failure points followed by all crash points", "why_tests_cant": "needs a failure and a crash in sequence", "anchors": ["monotone/engine/engine/refresh.c:refresh_end,refresh_run", "monotone/engine/engine/engine_recover.c:engine_recover_validate", "monotone/engine/storage/storage_mgr.c:storage_mgr_find_part"]}
{"id": "C66", "title": "DROP PARTITION is atomic across a crash", "statement": "If the machine stops during DROP PARTITION the next start shows all of the partition or nothing. False: the file is removed before the log record is written, so a stop in between brings back only what was still in the log.", "quantifier": "all crash points in DROP", "why_tests_cant": "needs a crash between two steps", "anchors": ["monotone/engine/engine/op.c:engine_drop,engine_drop_file,engine_drop_reference"]}
{"id": "C67", "title": "A keyword is recognised only where its word is written", "statement": "The lexer returns a keyword only for the word of that keyword in any case of letters. False: punctuation characters are returned under their character code, which is also the number of a keyword, so '(! hot' reads as DROP STORAGE hot. These two sources are the only ones.", "quantifier": "all texts", "why_tests_cant": "all texts", "anchors": ["monotone/main/command/lex.c:lex_next,keywords", "monotone/main/command/lex.h"]}
{"id": "C68", "title": "A refresh after one whose file could not be renamed keeps all events", "statement": "A refresh writes the merge of the partition file and the memory table. When the rename of the previous refresh failed, the partition is still read from the temporary file that the next refresh writes: True while what is written stays behind what is still to be read, in particular for files of one region. False otherwise: events of the partition are overwritten before they are read, and the refresh succeeds with other events in their place.", "quantifier": "all files, memory tables and settings", "why_tests_cant": "needs a failed rename followed by a refresh of a file with several regions", "anchors": ["monotone/engine/io/merger.c:merger_execute", "monotone/engine/io/part.c:part_create", "monotone/engine/engine/refresh.c:refresh_end", "monotone/runtime/runtime/file.h:file_create"]}
{"id": "C69", "title": "A catalog command does what it says, or nothing", "statement": "Every command on clouds, storages and the pipeline that succeeds changes the settings as its words say and nothing else, where an integer of a storage is kept modulo 2^32; every command that fails leaves everything as it was, except ALTER STORAGE SET (cloud ...), which may fail after the settings were changed.", "quantifier": "all catalogs, commands and outcomes of the file system and of the cloud", "why_tests_cant": "every failure point of every command", "anchors": ["monotone/engine/storage/storage_mgr.c", "monotone/engine/storage/pipeline.c", "monotone/cloud/cloud/cloud_mgr.c", "monotone/cloud/cloud/source.h", "monotone/cloud/cloud/cloud_config.h", "monotone/main/main/execute.c"]}
{"id": "C70", "title": "SHOW does not reveal keys and passwords", "statement": "The answers of SHOW CLOUDS, STORAGES, PARTITIONS, PIPELINE, WAL and CONFIG do not depend on encryption keys, cloud passwords, hidden and secret variables: two databases that differ only there give the same text. SHOW of a secret variable by name is refused. But the variables 'clouds' and 'storages' are not secret: SHOW 'storages' prints every encryption key and SHOW 'clouds' every password, in every database.", "quantifier": "all databases, all lists of SHOW commands", "why_tests_cant": "a claim on pairs of databases (non-interference)", "anchors": ["monotone/main/main/execute.c:execute_show", "monotone/runtime/config/config.c", "monotone/cloud/cloud/source.h:source_write", "monotone/cloud/cloud/cloud_config.h"]}
{"id": "C71", "title": "Threads do not wait for each other for ever", "statement": "When every batch goes through its partitions in increasing order, in every reachable state some thread gets on, and all threads can come to their end, whatever the other threads do: batches, cursors, refreshes, drops, exclusive commands. Without the order two batches over the same two partitions can wait for each other for ever; and a thread with an open cursor that gives an exclusive command always does.", "quantifier": "all interleavings of any number of threads, spurious wakeups included", "why_tests_cant": "all schedules", "anchors": ["monotone/engine/engine/lockage.h", "monotone/engine/engine/engine.c:engine_lock,engine_unlock", "monotone/engine/engine/write.c", "monotone/engine/engine/refresh.c", "monotone/engine/engine/op.c", "monotone/main/main/execute.c"]}
{"id": "C72", "title": "Requests for one partition at the same time keep a copy of it", "statement": "Any number of uploads, downloads and refreshes of one partition, their actions in any order, leave a complete copy of the old contents or of one of the refreshes, when the storage does not drop local files by itself or there is no refresh among them. False otherwise: an upload that drops the local file between the download and the cloud drop of a refresh leaves neither copy.", "quantifier": "all interleavings of any number of requests", "why_tests_cant": "all schedules of workers and commands", "anchors": ["monotone/engine/engine/service.h:service_refresh,service_upload", "monotone/engine/engine/op.c:engine_drop_file,engine_download,engine_upload,engine_refresh", "monotone/engine/engine/worker.c"]}
{"id": "C73", "title": "An operation on the cloud that failed does no harm", "statement": "An upload, download or drop that failed at any operation, and is then done again, leaves what was asked for. False when something else comes first: after a failed upload a DROP of the partition, or a crash in the next refresh, leaves files with which the database does not open; so does an upload after a failed refresh. After a failed removal of the cloud object the partition is dropped from the storage as uploaded, and is not found by the next start.", "quantifier": "all points of failure and contents", "why_tests_cant": "failures at each operation, combined with later operations", "anchors": ["monotone/engine/io/part.c:part_upload,part_offload", "monotone/engine/engine/op.c:engine_drop_file", "monotone/engine/engine/engine_recover.c:engine_recover_validate"]}
{"id": "C74", "title": "A text is accepted exactly if it is a sentence of the command language", "statement": "The parser gives a command for a text exactly if the tokens of the text form a sentence of the grammar that says this command, with the last value given for each option and the defaults of a new storage; a text has one list of tokens and one meaning; other texts are refused, when they have fewer than four integers in a row and no character $. False without this: 'DROP PARTITION 1 2 3 4' writes past the tokens kept by the lexer, and a $ where an option of a tier is expected is used as text. Punctuation is taken for keywords: '( $ - 1 . 9' drops partitions.", "quantifier": "all texts, settings and outcomes of strtod", "why_tests_cant": "all texts; an equivalence with an independent grammar", "anchors": ["monotone/main/command/parse.c:parse", "monotone/main/command/parse_config.c", "monotone/main/command/parse_cloud.c", "monotone/main/command/parse_storage.c", "monotone/main/command/parse_pipeline.c", "monotone/main/command/parse_partition.c", "monotone/main/command/parse_misc.h", "monotone/main/command/lex.c"]}
{"id": "C75", "title": "Words in any case, blanks and comments; the lock of a command", "statement": "A text written of keywords in letters of any case, names, numbers, strings and characters, with blanks and comments between them, is the command that these say. A text does nothing, successfully, exactly if it has nothing but blanks and comments. A text that is refused runs nothing and takes no lock. SHOW runs under the shared lock; SET and CREATE, DROP, ALTER of a cloud, storage or the pipeline run under the exclusive lock; all others run under none; a lock is released whether or not the command fails.", "quantifier": "all texts, all commands, failing or not", "why_tests_cant": "all texts and all failures", "anchors": ["monotone/main/main/execute.c:main_execute,cmds", "monotone/main/command/lex.c:lex_next", "monotone/main/command/parse.c:parse", "monotone/main/api/monotone.c:monotone_execute"]}
{"id": "C76", "title": "A catalog command succeeds exactly when it is permitted", "statement": "Every command on clouds, storages and the pipeline succeeds if and only if its conditions hold: the names it uses exist or are free, or IF [NOT] EXISTS says it does not matter; what is dropped is not in use; main is neither dropped nor renamed; crc, path and encryption change on empty storages only; neighbours in a pipeline differ and all tiers but the last have a limit; and the file system and the cloud do their part.", "quantifier": "all reachable catalogs, commands and outcomes of the file system and of the cloud", "why_tests_cant": "every combination of names, uses, settings and IF EXISTS", "anchors": ["monotone/engine/storage/storage_mgr.c", "monotone/engine/storage/pipeline.c", "monotone/cloud/cloud/cloud_mgr.c", "monotone/main/main/execute.c"]}
{"id": "C77", "title": "Buffers hold what was written to them", "statement": "Pieces written to a new buffer of up to 2^30 bytes in all are there in order, and the memory is moved a number of times that is logarithmic in the size; formatted text shorter than 1024 bytes is written whole. A byte more than 2^30 can overflow an int, and a text of 1024 bytes or more is cut or read from beyond its end.", "quantifier": "all sequences of writes, of any sizes", "why_tests_cant": "the bound is where int overflows; tests do not write gigabytes", "anchors": ["monotone/runtime/runtime/buf.h:buf_reserve,buf_write,buf_vprintf"]}
{"id": "C78", "title": "Compressed and encrypted content is given back", "statement": "With libraries that work, lz4 and AES give back what they were given, within the sizes of int, and content whose tag does not fit is an error. zstd does exactly when the frame is no longer than the content or than the capacity of the buffer used; content with a longer frame stops the program when asserts are on and is written cut, without an error, when they are off, and it is never read again. Such content exists in every size, whatever the library.", "quantifier": "all libraries that satisfy their contract, all contents, levels, keys and buffers", "why_tests_cant": "the lost content depends on how well it compresses, and release builds report no error", "anchors": ["monotone/runtime/lib/compression_zstd.c", "monotone/runtime/lib/compression_lz4.c", "monotone/runtime/lib/encryption_aes.c", "monotone/engine/io/region_writer.h", "monotone/engine/io/reader.h"]}
{"id": "C79", "title": "Exceptions run every guard once", "statement": "A call of the API with exceptions and guards in any nesting ends with nothing left on the stacks of guards and exceptions; every guard that was set is run or taken off exactly once, the last one first, and an exception is handled by the innermost block entered. This is for programs whose guards do not throw, that do not return between enter and leave, and that take off no guard of an outer enter. Without these it is false: a guard that throws is run again each time, and the other programs use freed or foreign stack entries.", "quantifier": "all programs built of actions, guards, blocks, calls, returns, throws and try blocks, nested to any depth", "why_tests_cant": "the nestings of exceptions and guards are unbounded", "anchors": ["monotone/runtime/runtime/exception.h", "monotone/runtime/runtime/guard.h", "monotone/runtime/runtime/throw.h"]}
{"id": "C80", "title": "Files are found again by their names", "statement": "The name of a file of a partition is read back as its partition and state, for every number and state. A directory with such files and foreign ones, listed in any order, gives every partition once with exactly the states of its files; a directory of the log gives the list of its files. Two files of partitions have the same path only if they are the same storage, partition and state, when the directories are at most 4000 bytes. False for other names: any number of digits is taken for a partition, modulo 2^64, and any file whose name begins with digits and a dot for a file of the log; the log file with the last number is not found; a directory of 4095 bytes gives one path to all files.", "quantifier": "all numbers, states, storages, directories and orders of listing", "why_tests_cant": "all 2^64 numbers, all names, all orders", "anchors": ["monotone/cloud/cloud/id.h:id_path", "monotone/cloud/cloud/source.h:source_pathfmt", "monotone/engine/engine/engine_recover.c:engine_recover_id,engine_recover_storage", "monotone/engine/wal/wal.c:wal_file_id_of,wal_recover"]}
{"id": "C81", "title": "A request to S3 names and signs its object", "statement": "Every request writes one byte past the 28 bytes kept for its signature. With one byte more, the url is that of the partition, every operation has the method, the object and the lines that it needs, the authorization is the base64 of the HMAC of method, type, date and resource, and a read asks for exactly its bytes; objects have urls of their own while the url of the cloud has at most 965 bytes, and not with 966. An object sent or received without an error is whole, whatever the pieces. A server that ignores the range, as HTTP permits, has all of its object taken for the bytes asked for; the error of a failed request does not tell its code, but the number of bytes of the name of the cloud in its place.", "quantifier": "all requests, dates, keys, urls, HMAC functions, schedules of reads and writes", "why_tests_cant": "every request is undefined behaviour that mostly goes unnoticed; transfers in all pieces", "anchors": ["monotone/cloud/s3/s3_request.c", "monotone/cloud/s3/s3_op.c", "monotone/cloud/s3/s3.c"]}
{"id": "C82", "title": "A compressed and encrypted partition file is read back", "statement": "With libraries that work, a partition file with events that is written with no compression or lz4, and no encryption or AES, is read back: the same events in the same regions and the same index. With zstd in a release build it is read back exactly when the frame of every region and of the index fits into the buffer there is; otherwise reading it is an error. For codecs of any kind: a file is read back when each of its contents is, and is an error when one of them is. With the context of lz4 that the code takes for zstd once a context of lz4 was put back, no file of zstd is read.", "quantifier": "all libraries that satisfy their contract, all events, settings, keys, random numbers and capacities of the buffers used before; contents up to 1 GiB", "why_tests_cant": "whether a frame fits depends on the content and on what the buffers were used for before", "anchors": ["monotone/engine/io/writer.c", "monotone/engine/io/region_writer.h:region_writer_stop", "monotone/engine/io/index_writer.h:index_writer_stop", "monotone/engine/io/reader.h:reader_execute", "monotone/engine/io/index_op.c:index_read", "monotone/runtime/lib/compression_zstd.c", "monotone/runtime/lib/compression_lz4.c", "monotone/runtime/lib/encryption_aes.c"]}
{"id": "C83", "title": "The lists of the runtime keep their elements", "statement": "For any sequence of operations on any number of lists (init, append, push, unlink, pop, the plain, safe and reverse loops, loops that take one element, move elements to other lists or free them), whatever is in memory before: every loop visits exactly the elements of its list, each once, in order, backward in the reverse order, and what is no longer on a list may be overwritten. An element is appended only when it is on no list and unlinked only when it is on one; unlinking twice with nothing between is harmless. Otherwise it is false: with an append between the two unlinks an element is lost, and appending or initialising an element that is on the list loses elements or makes the next loop endless. Taking from an empty list gives the head.", "quantifier": "all sequences of operations, all numbers of lists and elements, all contents of memory", "why_tests_cant": "a broken ring shows only when a later loop runs over it, and the loop may never end", "anchors": ["monotone/runtime/runtime/list.h", "monotone/runtime/lib/cache.h:cache_pop", "monotone/engine/engine/service.h:service_fetch", "monotone/engine/storage/pipeline.c:pipeline_alter"]}
{"id": "C84", "title": "An insert tells every open iterator of its memtable", "statement": "For any iterators opened and closed in any order over any memtables, each closed before it is opened again: an insert tells exactly the attached iterators of its memtable, each once, and the count of iterators is their number, so the assert of closing holds. An iterator that is opened twice without closing makes the next insert endless.", "quantifier": "all sequences of opening and closing, all numbers of memtables and iterators", "why_tests_cant": "depends on the order in which several cursors are opened and closed", "anchors": ["monotone/engine/io/memtable_iterator.h:memtable_iterator_open", "monotone/engine/io/memtable_iterator.h:memtable_iterator_close", "monotone/engine/io/memtable.c:memtable_sync"]}
{"id": "C85", "title": "A failed write leaves an open cursor where it was", "statement": "When a batch fails and is rolled back while a cursor stands on an in-memory page, and no event of the batch is below the cursor, the cursor stays on its event and the same events follow. For an event below the cursor this is false, because a removal is not told to the cursors: after the failed write of a new key below it skips the next event; when the key is directly below it shows the event that was never stored; after the failed rewrite of a smaller stored key it skips two events.", "quantifier": "all pages in the order of events without a split, all cursors, all batches at or above the cursor, all single events below it", "why_tests_cant": "needs a failure of a later event or of the log while a cursor is open, and the position of the key", "anchors": ["monotone/engine/engine/write.c:engine_rollback", "monotone/engine/io/memtable.c:memtable_unset", "monotone/engine/io/memtable_iterator.h:memtable_iterator_sync"]}
{"id": "C86", "title": "A cursor over regions that cannot be read", "statement": "After any history, whatever regions of the partition files cannot be read: the events that a cursor shows before monotone_next first says -1 are the first events of the whole scan, and a scan without an error is whole. A program that asks again after every -1 gets an end and no event that is not the newest live version, each once and ascending: exactly those that are left without the regions that cannot be read, and without the file when its first region cannot be read at the time the cursor comes to the partition. So an error is not repeated: asked again with every region readable again, the cursor leaves out the region, or the whole file, and ends as if nothing was missing. monotone_read after -1 may show an event ahead of the next one, or say that the cursor is at its end.", "quantifier": "all histories of C08, all sets of unreadable regions, all starts that are not past the stored keys of their id", "why_tests_cant": "needs an error of the disk or the cloud at a chosen region, and a program that goes on", "anchors": ["monotone/engine/io/part_iterator.h:part_iterator_next", "monotone/engine/io/merge_iterator.h:merge_iterator_next", "monotone/engine/io/part_cursor.h:part_cursor_open", "monotone/engine/engine/engine_cursor.h", "monotone/main/api/monotone.c:monotone_next"]}
{"id": "C87", "title": "Handles, directories and the lock of a directory", "statement": "For all sequences of monotone_init, monotone_open (which may fail at any stage), CREATE CLOUD, CREATE STORAGE, writes, rotations and collections of the WAL, monotone_free and ends of processes, by any number of processes: a directory is open through one handle at most; an opening of a directory that is open answers -1 and leaves the directories as they are. In programs that open a handle once and use it only when that was answered by 0: no call meets an object that is missing, the files of a directory are changed only through the handle that has it open, an opening is refused only because of a handle in use, the clouds and storages of a handle are those of config.json each once, and a database keeps its uuid; without collection no record of the log of any directory is lost, and a write answered by 0 is in the log under the number after the last, when no file of the log is named ahead of the records. Other programs are not protected: a handle that was refused writes config.json of the other database, or unlinks files of its WAL; a second opening through a handle keeps the first directory locked until the process ends, even when all handles are freed; an opening that failed with the lock taken cannot be tried again; clouds and storages may be there twice.", "quantifier": "all initial directories, all sequences of calls, all processes and handles, all points of failure of an opening", "why_tests_cant": "needs several processes, openings that fail at chosen stages and handles that are used after an error", "anchors": ["monotone/main/main/main.c:main_deploy", "monotone/main/main/main.c:main_start", "monotone/main/api/monotone.c:monotone_open", "monotone/main/api/monotone.c:monotone_free", "monotone/runtime/runtime/file.h:file_lock", "monotone/runtime/config/config.c:config_open"]}
{"id": "C88", "title": "Messages reach the log and the caller", "statement": "Every message of up to 1000 bytes, with its prefix, is one line of the log: time, prefix, message, newline; of 1001 bytes it ends in a zero byte instead of the newline. monotone_error gives the first 255 bytes of the message. A longer message is written beyond the array of 1024 bytes in which the line is made. SHOW or SET of an unknown name of 987 bytes and more does so; a string setting of 970 bytes and more is accepted by SET and saved, and every later opening of the directory fails in this way; so does the first opening of a directory with so long a name. With the log switched off no message does harm.", "quantifier": "all messages, names, settings, directories, times", "why_tests_cant": "messages are made of names given by the user; the limit is 1024 bytes", "anchors": ["monotone/runtime/runtime/logger.c:logger_write", "monotone/runtime/runtime/error.h:error_throw_as", "monotone/runtime/config/config.c:config_print", "monotone/main/main/execute.c:execute_show_op,execute_set", "monotone/main/main/main.c:main_start"]}
{"id": "C89", "title": "Background threads end before their memory", "statement": "monotone_open starts exactly the workers that the settings ask for, each with its filter and its thread, if workers and workers_upload sum below 2^31 and the system gives memory and threads. A program that opens its handle once, frees its cursors before it and uses nothing after it was freed meets no memory that is gone, under every interleaving of the threads; when monotone_free returns every thread has ended and been joined, and it can always return. It does not hold otherwise: after an opening for which a thread or the memory of the workers could not be had monotone_free reads a thread or an array that is not there and never returns in order; workers_upload of 2^32 - 1 is written beyond the array; after a second opening the threads of the first one are never joined and work on memory that is gone; a cursor freed or used after its handle does so too.", "quantifier": "all sequences of calls, numbers of workers, answers of the system, and interleavings of threads", "why_tests_cant": "interleavings; failures of pthread_create and malloc", "anchors": ["monotone/engine/engine/worker_mgr.c", "monotone/engine/engine/worker.c", "monotone/runtime/runtime/thread.h", "monotone/main/main/main.c:main_start,main_stop", "monotone/main/api/monotone.c:monotone_free,monotone_cursor"]}
{"id": "C90", "title": "A database of bytes survives stops anywhere", "statement": "For a database whose log files and partition files are bytes, written and read by the code of the log and of the partition files: after every history of batches, refreshes and moves in any number of steps, refreshes that fail, rotations and collections of log files, new partitions, stops and starts, the database opens and readers see exactly the current versions of the events of acknowledged batches, in order. A stop when any number of bytes of a record are in the log keeps a batch entirely if all bytes of its record are there, else nothing of it. A stop between any two steps of a refresh or a move, or when any number of bytes of the new file are written, changes nothing; neither do repeated starts that are stopped themselves, also when the log ends in a part of a record. This needs that no batch is acknowledged behind a part of a record and that batches are not empty: a batch behind a part of a record is lost by the next start, or there is no next start; after an empty batch, a rotation and a start, a later rotation takes the name of a log file in use and its acknowledged events are written over.", "quantifier": "all histories, contents, memory behind events, numbers of bytes that were written, orders of directory listings, and compression and encryption functions that invert each other", "why_tests_cant": "any byte of any file at which a stop can come, over any history", "anchors": ["monotone/engine/engine/engine_recover.c", "monotone/engine/engine/refresh.c", "monotone/engine/engine/write.c:engine_write", "monotone/engine/wal/wal.c", "monotone/engine/wal/wal_cursor.c", "monotone/engine/io/merger.c", "monotone/engine/io/writer.c", "monotone/engine/io/part.c", "monotone/main/main/main.c:main_start,main_replay"]}
{"id": "C91", "title": "Threads that write and read at once", "statement": "However the steps of any number of writers, cursors and refreshes interleave, as long as no thread locks a partition that it has already: a partition is used by one thread at a time; what is in it are the batches of the log one after the other in the order of the log, and those events of one unfinished batch whose thread has the partition locked; a cursor sees nothing of unfinished or failed batches and its partition does not change under it; a stop at any moment leaves files and log that recover exactly the batches of the log; when no write is running readers see what would be recovered, and the log has exactly the acknowledged batches. With a lock count that starts at 1 this holds without the condition. The code starts it at 0, and then it does not hold: when a batch has two events in one partition its lock is given back twice, so that two other threads are in the partition at once, an acknowledged event is undone by the failure of another thread and a refresh makes the loss last, or readers see one version and a restart gives the other; a thread that writes below its open cursor loses the lock of the cursor and reads an event of a batch that fails. A scan over two partitions can see one half of a batch.", "quantifier": "all numbers of threads, batches, cursors, refreshes, failures and interleavings, and every assignment of ids to partitions", "why_tests_cant": "interleavings of threads; stops between any two steps", "anchors": ["monotone/engine/engine/write.c:engine_write,engine_commit,engine_rollback", "monotone/engine/engine/lockage.h:lockage_lock,lockage_unlock", "monotone/engine/engine/engine_cursor.h", "monotone/engine/engine/refresh.c", "monotone/engine/wal/wal.c:wal_write"]}
{"id": "C92", "title": "Commands as texts, config.json and the next start", "statement": "For every history of commands given as texts, changes of partitions and starts of a database: the next start has the same clouds, storages and pipeline, and the same settings but those of one run; a new database has the storage main alone. A text that is a sentence about clouds, storages or the pipeline succeeds exactly if it is permitted, then does what it says, and keeps all settings; else it answers an error and changes nothing, but for ALTER STORAGE with a cloud. SET succeeds exactly if the variable may be set to the value, changes this variable alone, and the value is there after the next start if it is kept. A text that is no sentence changes nothing, and an empty text succeeds; CREATE STORAGE and CREATE PARTITION take what they do not say from the settings. A stop while config.json is written gives the old or the new settings, a start that fails, or, when config.json was renamed and not yet made, a new database with main alone. This needs texts whose strings have no double quotes, no backslashes and no zero bytes, integers below 2^63 - 48, and numbers of clouds, storages and tiers that fit. Else it is false: SET compression with a double quote succeeds and no start does after it; SET wal_rotate_wm to 2^63 - 48 makes the next start overflow; renaming a storage that is in the pipeline twice prevents the next start too; ALTER STORAGE with an unknown cloud fails with the storage changed in memory alone.", "quantifier": "all histories, texts, settings, catalogs, numbers of bytes written before a stop", "why_tests_cant": "a text that succeeds and prevents the next start; stops between any two bytes of config.json", "anchors": ["monotone/main/main/execute.c:main_execute,execute_set", "monotone/main/main/main.c:main_deploy,main_start", "monotone/main/command/parse.c:parse", "monotone/runtime/config/config.c:config_save,config_open", "monotone/engine/storage/pipeline.c:pipeline_alter", "monotone/engine/storage/storage_mgr.c"]}
{"id": "C93", "title": "Dropped intervals stay dropped, the others stay, over all stops and starts", "statement": "For every history of batches, refreshes and moves in steps, failures, collections of the log, CREATE and DROP PARTITION and stops and starts, in which no batch and no CREATE uses an interval again that was dropped, partitions are whole intervals and SET interval keeps its value: every start succeeds, the database shows exactly the acknowledged events that are not dropped, a scan returns them in order, no event of a dropped interval is seen again, and no partition covers any id of one. DROP takes the events of its partition and no others, at once and after any stop and start; it fails only while the partition is refreshed. Else it is false: see C32, C64 and C66. In these histories the record of a DROP is written to the log once more at every start while events before it are in the log, and a start does not count the record of a DROP without a partition: the next batches are given the numbers of records that are in the log.", "quantifier": "all storages, intervals, events, histories, and stops between steps", "why_tests_cant": "orders of batches, refreshes, collections of the log, drops and starts; partitions with files on other storages or in memory only", "anchors": ["monotone/engine/engine/op.c:engine_drop", "monotone/main/main/main.c:main_replay,main_start", "monotone/engine/engine/engine_recover.c", "monotone/engine/wal/wal.c:wal_gc", "monotone/engine/engine/refresh.c"]}
{"id": "C94", "title": "Without the log: what was refreshed stays; switching the log on and off", "statement": "For every history of batches, refreshes and moves in steps, failures, collections of the log, new partitions and starts with and without the log (wal), and DROP PARTITION in runs without it, in which the log is switched on only when it is empty or was on: every start succeeds, and a scan shows the current versions of the acknowledged events that were kept, in order. A start with the log after a run with the log keeps all of them. Any other start keeps every event that was acknowledged before a refresh of its partition began that is complete, and of each partition the acknowledged events up to some moment and none after it: no later event of a partition is there without the earlier ones. A partition dropped without the log stays dropped, also when its interval is used again. When all events are in complete refreshes a start with or without the log shows the same events. It does not hold that every acknowledged event is kept: without the log those in memory are lost. It does not hold when the log is switched off and on again: a logged event comes back, but it is lost when its partition was refreshed meanwhile, and an older logged value comes back over a newer one that was refreshed, as the numbers of batches without the log begin again below those of the log.", "quantifier": "all storages, intervals, events, histories, settings of wal at each start, and stops between steps", "why_tests_cant": "orders of batches, refreshes and starts with changing settings; stops between the steps of a refresh", "anchors": ["monotone/engine/engine/write.c:engine_write", "monotone/engine/engine/op.c:engine_drop,engine_gc", "monotone/main/main/main.c:main_start", "monotone/engine/engine/engine_recover.c", "monotone/engine/engine/refresh.c", "monotone/runtime/config/config.c:config_init"]}
{"id": "C95", "title": "Random numbers, and the uuids, keys and initialization vectors made of them", "statement": "From every seed but zero the generator gives 2^128 - 1 numbers before it repeats, meets every state but zero and gives every number of 64 bits equally often (zero once less in a period). Each seed comes from exactly one answer of /dev/urandom, whatever clock, process, user and rand() are. The key that CREATE STORAGE makes ends for every seed but zero and is the first 32 digits and letters among the bytes of the numbers; a uuid and an initialization vector are two numbers each. With the seed zero CREATE STORAGE with encryption does not end. Who knows the uuid of a storage, or one initialization vector, has 2^64 candidates for the key made next, not 62^32. Without /dev/urandom two runs that differ in process and time can have the same uuids, keys and initialization vectors.", "quantifier": "all seeds, numbers of draws, answers of the device and the clock, and sizes of keys", "why_tests_cant": "a period of 2^128 - 1; one seed in 2^128 that hangs", "anchors": ["monotone/runtime/lib/random.c", "monotone/runtime/lib/uuid.c:uuid_generate", "monotone/main/command/parse_storage.c:parse_storage_create", "monotone/runtime/lib/encryption_aes.c:encryption_aes_encrypt"]}
{"id": "C96", "title": "Statements about partitions given as texts", "statement": "For every history of texts, stops inside of them, batches, refreshes on their way in steps, new partitions, collections of the log and starts, in which no batch uses an interval again that was dropped: every text and every start ends, a scan shows, in order, the current versions of the acknowledged events that are not dropped, and no others. A text that is no sentence answers an error and changes nothing, an empty text changes nothing. While no refresh is on its way: DROP PARTITION takes the partition of the id with its events and nothing else, DROP PARTITIONS those inside of the range, none if a partition lies across its beginning; REFRESH and MOVE leave partitions and events as they are and put all events of a partition into its only file, on the storage it was on or the one named, and change no other file; a missing partition is an error without IF EXISTS; an unknown storage fails and changes nothing; MOVE onto its own storage does nothing; DROP ON CLOUD, UPLOAD and DOWNLOAD without a cloud change nothing. A text waits only for a partition that is being refreshed, and does what comes before it. A stop between two steps of a text (the drop of one partition is one step here, see C66) loses whole partitions that the text had dropped already and nothing else, and the start after it changes nothing seen. It does not hold that DROP PARTITION ON STORAGE without a cloud keeps the events: it removes the only file and succeeds, and the next start brings back what is still in the log and nothing else. It does not hold that CREATE PARTITION without an end makes a partition of the interval: it has one id more and the next one has one less. It does not hold that DROP PARTITIONS is done as a whole or not at all over a stop.", "quantifier": "all texts, histories, storages, names, events, and stops between any two steps of a statement", "why_tests_cant": "stops between the steps of a statement over many partitions; ranges against partitions of other sizes", "anchors": ["monotone/main/main/execute.c:main_execute", "monotone/engine/engine/op.c:engine_drop,engine_drop_range,engine_refresh,engine_refresh_range,engine_download,engine_upload,engine_foreach", "monotone/engine/engine/refresh.c", "monotone/main/command/parse_partition.c"]}
{"id": "C97", "title": "DROP PARTITION over the bytes of the log and of the partition files", "statement": "With codecs that read back what they wrote: for every history of batches, refreshes and moves in steps, new partitions, drops, rotations and collections of the log, stops and starts (each interrupted any number of times), in which no batch uses an interval again that was dropped and no rotation makes a file of the log whose name is not above all names and records of the log: the database opens, reads its files and its log from their bytes, and a scan shows, in order, the current versions of the acknowledged events that were not dropped, and no others. Nothing of a dropped interval is seen again and no partition covers any of it, after any number of stops. One DROP takes the partition of the id with its file and nothing else, or waits for a refresh of that partition. A start appends to the log records of drops of dropped intervals and nothing else, at most one for each that it read, whether it reads them again itself (appended to a file that is opened later) or not. Without the limit on rotations it does not hold: when the log begins with the record of a drop whose partition is gone, a start takes its number again, and a rotation then reuses a file of the log from its first byte; an acknowledged batch is overwritten and the database does not open again. Without the limit on dropped intervals it does not hold: an acknowledged event in an interval that was dropped before a rotation is lost at the first start.", "quantifier": "all histories, events, storages, settings, codecs, log files in any order of the directory, and interrupted starts", "why_tests_cant": "files of the log that grow while they are read; names of files taken again after starts", "anchors": ["monotone/engine/engine/op.c:engine_drop", "monotone/engine/wal/wal.c:wal_write_op,wal_rotate,wal_gc,wal_open", "monotone/engine/wal/wal_cursor.c", "monotone/main/main/main.c:main_replay,main_start"]}
{"id": "C98", "title": "Statements about partitions as texts over the bytes of the log and of the partition files", "statement": "With codecs that read back what they wrote: for every history of texts, stops inside of them, batches, refreshes on their way, rotations and collections of the log and starts, within the limits of C96 and C97, the database opens, and a scan shows, in order, the current versions of the acknowledged events of the partitions that are not dropped, and no others. A text that is a statement does to the database, as it reads back from its bytes, what C96 says of it when no refresh is on its way: CREATE, DROP, MOVE, REFRESH, DOWNLOAD, UPLOAD of one partition or of a range, with the new partition files read back; it ends, and waits only for a partition that is refreshed. A text that is no statement fails and changes no byte, an empty one succeeds and changes none. When the process stops inside of a text, whole partitions are gone with all their events and nothing else is, the next start completes or discards what is on the disk and shows the same events. A text adds to the log one record for each partition that it drops and nothing else. Nothing of a dropped partition is seen again. It does not hold for DROP PARTITION ON STORAGE without a cloud: it succeeds, and acknowledged events whose log is collected are lost for good.", "quantifier": "all histories, texts, names of storages, number readers, events, storages, settings, codecs, and places of stops in a text", "why_tests_cant": "texts, stops in the middle of a range of partitions, file contents and log contents together", "anchors": ["monotone/main/main/execute.c:main_execute", "monotone/main/command/parse.c:parse", "monotone/main/command/parse_partition.c", "monotone/engine/engine/op.c:engine_drop,engine_drop_range,engine_refresh,engine_refresh_range,engine_fill", "monotone/engine/engine/refresh.c", "monotone/engine/wal/wal.c:wal_write_op", "monotone/main/main/main.c:main_replay,main_start"]}
{"id": "C99", "title": "A database with drops that is stopped inside of a record of the log, of a DROP or of a new partition file", "statement": "With codecs that read back what they wrote, for every database reached by the histories of C97. Stopped when n bytes of the record of a batch are written, n less than its size: the database opens and shows exactly what it showed before, when n is 0 or no file of the log but the last has the record of a drop; with the whole record it opens as after the batch. Stopped inside of DROP PARTITION, with the file of the partition removed and less than its record written, under the same condition: the database opens, every event outside of the interval is shown as before, and nothing is shown that was not shown before; with the whole record the partition is gone and nothing else. Stopped with any number of bytes of the new file of a refresh written, and the start interrupted any number of times: the database opens as if the file was empty, no unfinished files are left, and it shows what it did before. The condition on drops is needed: when an earlier file of the log has a drop, a start appends the drop behind the part of a record before it reads it, and the database does not open; when the last file has it, the database opens once and never again. A DROP is not all or nothing: stopped before its record is written, the events of the partition that are only in its file are gone and those in the log are shown.", "quantifier": "all reachable databases, batches, ids, sizes of the written part, codecs, settings, log files in any order of the directory", "why_tests_cant": "a stop after each number of bytes of each record in each possible log", "anchors": ["monotone/engine/engine/op.c:engine_drop", "monotone/engine/engine/write.c:engine_write", "monotone/engine/engine/refresh.c", "monotone/engine/wal/wal.c:wal_write,wal_write_op", "monotone/engine/wal/wal_cursor.c", "monotone/main/main/main.c:main_replay,main_start"]}
{"id": "C100", "title": "Statements about partitions as texts, stopped inside of a record of the log or of a new partition file", "statement": "With codecs that read back what they wrote, for every database reached by texts, batches, refreshes, rotations, collections, stops and starts as in C98, and every text: when the process stops with n of the things that the text does done and k bytes of the record or of the new file of the next written, within the limits of C97 and C99, the database opens. It shows nothing that was not shown when the n things were done, and of that all that is not in the interval of the partition being dropped; when the record of that DROP is whole, or the next thing is no DROP, it shows exactly what was there but the dropped partition. What n things leave is what was there before the text but whole partitions. A batch of which less than its record is written is not seen, and nothing else changes, unless an earlier file of the log has a drop. A DROP PARTITIONS that is stopped inside of a record after its first opens once and not again.", "quantifier": "all reachable databases, texts, numbers of things done and of bytes written, names of storages, codecs, settings, log files in any order", "why_tests_cant": "a stop after each byte of each thing of each text", "anchors": ["monotone/main/main/execute.c:main_execute", "monotone/engine/engine/op.c:engine_drop,engine_drop_range,engine_refresh_range", "monotone/engine/engine/refresh.c", "monotone/engine/wal/wal.c:wal_write,wal_write_op", "monotone/main/main/main.c:main_replay,main_start"]}
{"id": "C101", "title": "Memory tables of any size: ingestion in order is shown completely", "statement": "For every sequence of batches whose events come in ascending order of (id, key), of any number and size, with refreshes of any partitions in between: every batch is acknowledged and a scan returns exactly the events written that are no deletes, in order, whatever the number of pages in the memory tables. For every history of batches, refreshes in one or two steps, also failing, DROP and CREATE PARTITION and changes of the interval, in which a batch for each partition either fits into the first page of its memory table (512 events) or sorts behind all that is in the table: a scan returns exactly the current versions of the acknowledged events; with a start too when the tables are of one page, as after a refresh. Beyond that it does not hold: after 513 events in order and five late ones an acknowledged event is not shown; in order, a scan that starts at an acknowledged event can leave out this event and hundreds after it; a batch that is refused because the log cannot be written, and that went over the edge of a page, takes acknowledged events away from scans with a start, and lets a later write of an event be shown twice.", "quantifier": "all batches, histories, numbers and sizes of batches, and places of refreshes; ids within 2^31", "why_tests_cant": "tables of more than 512 events in combination with late writes, starts of scans and refused batches", "anchors": ["monotone/engine/engine/write.c:engine_write,engine_rollback", "monotone/engine/io/memtable.c:memtable_set,memtable_unset,memtable_search_page", "monotone/engine/io/memtable_iterator.h", "monotone/engine/engine/refresh.c", "monotone/engine/io/merger.c", "monotone/engine/engine/engine_cursor.h"]}
{"id": "C102", "title": "Memory tables of any size: a refused batch leaves no trace in scans", "statement": "In every history of batches, accepted or refused (the log cannot be written, a key of more than 255 bytes behind the first event, no partition at the end of the id space), refreshes in one or two steps, DROP, CREATE PARTITION and changes of the interval, in which the events of a batch for each partition either have room in the only page of its memory table or sort behind all that is in the table, whatever the number of its pages: a batch that is refused leaves the contents of every partition as they were (new partitions are empty) and a scan without a start returns the same events before and after it; a scan returns exactly the current versions of the acknowledged events, also when later batches follow in order; with a start too while no table has a second page. The page that a refused batch leaves behind is what C101 shows to be harmful for starts and for late writes.", "quantifier": "all histories, batches and reasons of refusal but a first event with a long key and refused memory; ids within 2^31", "why_tests_cant": "rollback over page splits: pages are emptied and removed, positions and the tree are checked for every size", "anchors": ["monotone/engine/engine/write.c:engine_write,engine_rollback", "monotone/engine/io/memtable.c:memtable_set,memtable_unset,memtable_search_page", "monotone/runtime/lib/rbtree.c:rbtree_remove", "monotone/engine/engine/engine_cursor.h"]}
{"id": "C103", "title": "Restarts with memory tables of any size", "statement": "In every history of batches (accepted or refused), refreshes and moves in steps, failing ones, collections of the log, CREATE PARTITION, changes of the interval, stops anywhere between these (also while a batch is logged) and starts that are interrupted any number of times, in which every batch, and every record of the log when it is replayed, has for each partition room in the only page of its memory table or sorts behind all that is in the table, whatever the number of its pages: the database opens every time, and a scan returns, in order, exactly the current versions of the acknowledged events, with a start too while the tables are of one page. A stop and a start change nothing seen, also between any two steps of a refresh or move; a batch that is stopped while it is logged is seen as a whole or not at all. The condition on the replay is needed although every batch met it when it was written: with 513 events in a partition whose refresh has begun, and five late events that went to the new memory table and are shown, a stop and a start put them all in one table, and an acknowledged event that was shown is gone.", "quantifier": "all histories, batches, sizes of tables, places of stops, storages, settings; ids within 2^31", "why_tests_cant": "the tables after a start are not those before the stop: what was in two tables comes into one", "anchors": ["monotone/engine/engine/write.c:engine_write,engine_write_replay", "monotone/engine/io/memtable.c:memtable_set", "monotone/engine/engine/engine_recover.c", "monotone/engine/engine/refresh.c", "monotone/main/main/main.c:main_replay,main_start"]}
{"id": "C104", "title": "Ingestion in order survives every stop", "statement": "Batches are written so that every event sorts behind all that is acknowledged, any number of them, into memory tables of any number of pages, while partitions are refreshed and moved in steps, refreshes fail, the log is collected, the interval is changed, and the process stops anywhere (between any two of these steps, while a batch is logged, and within any number of starts): whatever the states in between, the database opens every time, and a scan without a start delivers exactly the list of the acknowledged events in the order of their acknowledgement, without those that are marked as deletes; a batch whose record was lost in a stop can be written again. A stop and a start at the end of any such history do not change the list that a scan delivers. When the tables are of one page again, a scan with a start delivers the part of the list from it. A client whose every batch is the next part of a source behind what is acknowledged delivers a prefix of the source: nothing in it is missing and nothing comes twice, whatever is refused or lost in stops. No condition is put on what a start replays: it follows from the order.", "quantifier": "all in-order histories, sizes of batches and tables, places of stops, storages, settings; ids and the partitions of the interval in use within 2^31, no DROP", "why_tests_cant": "tests restart small databases at few places; here every stop between any two steps and any number of pages is covered", "anchors": ["monotone/engine/engine/write.c:engine_write,engine_write_replay", "monotone/engine/io/memtable.c:memtable_set", "monotone/engine/engine/engine_recover.c", "monotone/engine/engine/refresh.c", "monotone/main/main/main.c:main_replay,main_start", "monotone/engine/engine/engine_cursor.h"]}
