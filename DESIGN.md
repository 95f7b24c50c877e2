# Formal model of monotone: design

The code in `/repo/monotone` is modelled as small computable Gallina functions and
the properties of `properties.jsonl` are proved about them with Coq 8.16.1.

## Trusted base

* the Coq kernel (including `vm_compute`, used for the concrete witnesses);
* the axioms printed by `Print Assumptions` below each theorem (aim: none,
  "Closed under the global context");
* the hand translation from C to Gallina. Every definition in `theories/Model`
  cites the file and lines it transcribes, and says where it simplifies.

Not modelled: compilers, pthreads, the file system below the vfs calls (a file is a
byte list, or an abstract content, with rename/unlink/create as atomic
steps), the zstd/lz4/openssl/curl libraries (functions with a stated
round-trip assumption, as theorem hypotheses, never axioms), S3 protocol,
logging, SHOW formatting except where a property names it.

## Layout

* `theories/Model/*.v`: transcription of the code (definitions only);
* `theories/Spec/*.v`: small independent specifications (definitions only);
* `theories/Proof/*.v`: lemmas;
* `theories/Props/*.v`: the property theorems, each closed by `exact lemma`,
  followed by `Print Assumptions` and beside it `Example`s showing that the hypotheses
  are satisfiable by a non-trivial case.

Naming: `Cnn_...` is a theorem for property Cnn. `_partial` marks a theorem that
covers only part of the statement. `_refuted` marks a counterexample to the
unguarded statement, found in the faithful model and computed by `vm_compute`.

Conventions: bytes are `N` below 256; 64-bit words are `N` with an explicit
`mod 2^64`; signed results are `Z` with explicit narrowing; undefined behaviour (wild
pointer, null dereference, failed assert) is a separate outcome `UB`, errors thrown with
`error()` are `Err`.

## Plan per property

| id | model | proof |
|----|-------|-------|
| C01 | `compare` of comparator.h with the 64-bit subtraction and the narrowing to int | arithmetic; lexicographic order lemma; counterexample ids 0 and 2^32 |
| C02 | memtable pages, binary search, insert/replace in one page | refinement to a sorted association list |
| C03 | whole memtable with rbtree of pages, splits | invariant for appends: search path ends in last page, which has no right child |
| C04 | same | witness histories with 513+ events by vm_compute; guarded positive lemma |
| C05 | memtable_unset, engine_rollback over a log of (event, previous) | induction on the log: unset inverts set |
| C06 | memtable_iterator with memtable_sync | case analysis of positions; witness |
| C07 | merge_iterator step/next over n sources | invariant relating remaining inputs and output |
| C08 | part_cursor + engine_cursor over mapping | composition of C02, C07, C11, C16 |
| C09 | part_iterator_open / memtable_iterator_open | guarded positive + witness |
| C10 | writer/reader at byte level, compression and encryption as functions | round-trip lemmas per layer |
| C11 | index_iterator binary search | loop invariant |
| C12 | writer region splitting | induction on the event list |
| C13 | footer encode/check | C15 plus field round trip |
| C14 | crc tables, byte and 8-byte loops | linearity over xor; table facts by computation |
| C15 | same | injectivity of the 32-bit shift register |
| C16 | mapping + engine_lock/engine_create/fill | invariant over histories |
| C17 | engine_fill_nolock | loop invariant |
| C18 | cursor + fill at 2^64 | witness; guarded theorem |
| C19 | engine_foreach | induction; witness |
| C20 | rbtree.c insertion/removal | red-black invariant, height bound |
| C21-C24 | byte-level WAL record, file, cursor | encode/decode lemmas, prefix lemmas, witnesses |
| C25, C28 | wal_id list | sortedness invariant |
| C26 | small-step interleaving of writer/gc | witness schedule; positive for the serialised order |
| C27 | wal_write/rotate/replay | invariant over histories |
| C29-C33 | engine state (partitions, memtables, files, log) with write/refresh/crash/recover | refinement to an abstract map |
| C34, C35 | per-partition directory state, steps of refresh/move/upload, recovery | exhaustive steps, all contents symbolic |
| C36 | refresh with failure | witness; guarded theorem |
| C37 | file create/rename/write steps | guarded theorem; witness |
| C38 | Config.v: states of config_save, JSON text cut short | no proper prefix of a map parses (`JsonCut.v`); witness |
| C39 | ssn handling | invariant; witness |
| C40, C71 | Locks.v: threads, locks, control lock | invariants over all schedules (`LocksL.v` wakeups, `LocksE.v` owners and progress), programs of the engine (`LocksT.v`); witnesses (`LocksX.v`) |
| C41 | Service.v: queue, workers, marks | invariants over all schedules: queue (`ServiceL.v`), histories, wakeups, weight of the work left (`ServiceT.v`); witnesses (`ServiceX.v`) |
| C42 | batch write | corollary of C02 |
| C57, C72, C73 | CloudFiles.v: files of one partition and its object, operations as lists of file operations | every cut of every action by cases (`CloudFilesL.v`), requests and second attempts (`CloudFilesH.v`), interleavings by what is left of each request (`CloudFilesW.v`); witnesses (`CloudFilesX.v`) |
| C43-C45, C69 | Source.v, Catalog.v, Startup.v: catalog commands as functions on the managers | invariant by command (`CatalogB.v`, `CatalogS.v`), effect on the settings (`CatalogE.v`), links (`CatalogK.v`), opening as a fold over the saved lists (`CatalogO.v`), histories and the file (`CatalogT.v`); witnesses (`CatalogX.v`) |
| C74, C75 | Parse.v: the parser over any source of tokens, then over the lexer | tokens of a text as a relation (`ParseT.v`); the parser over the lexer does what it does over the list of tokens (`ParseR.v`, `ParseS.v`, `ParseU.v`); over the list it accepts sentences only (`ParseG.v`, `ParseH.v`) and all of them (`ParseK.v`, `ParseL.v`); witnesses, written texts, locks (`ParseX.v`) |
| C76 | Catalog.v | conditions of each command in `Spec/Permitted.v`, each command by cases both ways (`CatalogP.v`) |
| C77 | Buf.v | the capacity at least doubles at each move (`BufL.v`) |
| C78 | Pack.v over any library | contracts in `Spec/Packing.v`; the frames of n bytes that fit into n bytes are too few: pigeonhole (`PackL.v`); toy libraries (`PackX.v`) |
| C79 | Except.v: the two stacks of pointers, setjmp as a value | against blocks without pointers (`Spec/Except.v`): one induction over programs (`ExceptM.v`) |
| C80 | Names.v: names and paths as bytes | digits and words (`Spec/Names.v`); listing as a fold (`NamesL.v`) |
| C81 | S3.v over HMAC, curl and the server | base64 as a number, text to sign (`Spec/S3.v`); transfers over schedules (`S3L.v`) |
| C82 | File.v over Packed.v over any library | the file theorems need only that the contents of this file come back (`Spec/Sealed.v`, `FileR.v`); the contracts give that content by content (`PackedL.v`) |
| C83 | Links.v: heap of (next, prev), statements in their order; lists of heads without pointers | rings as chains, frame by disjointness; safe loops by induction on what is left |
| C84 | iterators over Links.v | invariant: attached ones are the ring, others point to themselves |
| C85 | Failed.v: set with sync, unset without | positions in an ascending page; batch by induction |
| C86 | Faulty.v: iterators, merges and cursors with a set of unreadable regions; what was changed before the throw stays | what is still to come is invariant under an error; the regions ahead decrease; until the error equal to the run without unreadable regions |
| C87 | Opening.v: processes, handles, open file descriptions with flock, directories with config.json and WAL files; calls that fail at any stage | invariant over all runs: locks unique per directory, descriptors known to one handle; a second one for careful runs: every lock belongs to a handle in use, variables agree with config.json; descriptors no handle knows stay until the process ends |
| C88 | Logger.v: an array of 1024 bytes, snprintf at an offset with a size that wraps; error texts; the settings printed at an opening | the array begins with what was printed, or is full; from then on every outcome is a write or read beyond it |
| C89 | Workers.v: a handle, arrays of workers, threads, cursors; monotone_free one join at a time, interleaved with turns of the threads | what the program knows of its handle and cursors implies an invariant: the first j threads are joined, the others run or have ended; a worker without a thread stops monotone_free for ever |
| C90 | Whole.v: Crash.v, File.v and Wal.v in one: a directory of bytes, log files of bytes, one config_lsn | reading the files and the log back gives a database of Crash.v that takes the same step (`WholeS.v`, `WholeP.v`); its invariant `binv` then gives what is seen (`WholeT.v`); witnesses (`WholeX.v`) |
| C91 | Batches.v: threads with batches in steps, locks of partitions with their counts, tables, files, the log | invariant: who has a lock and how often; undoing what is unfinished gives the log replayed; the number of a file covers the records it has (`BatchesP.v`); witnesses (`BatchesT.v`) |
| C92 | Session.v: Parse.v, Catalog.v, Config.v and Startup.v joined: settings in memory, the catalog, config.json | what is in memory and what a load of the file gives agree (`SessionL.v`), kept by every text (`SessionC.v`, `SessionT.v`); witnesses (`SessionE.v`); plain texts (`SessionP.v`) |
| C93 | Drops.v (Spec) over Crash.v: ranges of dropped partitions | partitions are intervals (`Cells.v`), events out of a range leave a history (`DropsL.v`), the replay of a log whose dropped events are all followed by a DROP (`DropsR.v`), the invariant (`DropsP.v`), statements (`DropsT.v`), samples (`DropsX.v`) |
| C94 | Logless.v over Crash.v: runs with and without the log | every acknowledged event has a mark (in memory, in a refresh, in a complete one; `Spec/Logless.v`); what is in the files of the directory (`LoglessL.v`), the invariant with an imagined log of what is not yet in files (`LoglessP.v`), statements (`LoglessT.v`), samples (`LoglessX.v`) |
| C95 | Random.v | the step bit by bit, digits and letters as a string (`Spec/Random.v`); primes and the factors of 2^128 - 1 (`Fermat.v`); the step as a linear map over two elements, its polynomial, powers modulo it with inverses as certificates, hence its order (`RandomP.v`); generator, keys, guesses (`RandomL.v`), samples (`RandomX.v`) |
| C96 | Orders.v: Parse.v and Crash.v joined: a text, the steps it does on partitions, files and the log, and how it ends | a text does steps of Crash.v, each keeps the invariant of C93 (`OrdersL.v`); a refresh in six steps, one partition dropped, loops over ranges (`OrdersP.v`); what each statement does (`OrdersT.v`); texts, stops and histories (`OrdersH.v`); checkers and samples (`OrdersX.v`) |
| C97 | WholeDrops.v: Whole.v with DROP: a start applies drops and appends records to the file it may still read | the log as a list of files of records, what appending to the last does (`WholeDropsL.v`); a start file by file against the one over records of C93, the other steps (`WholeDropsP.v`); histories, drops, what a start appends (`WholeDropsT.v`); checker, samples, counterexamples (`WholeDropsX.v`) |
| C98 | WholeOrders.v: texts as in Orders.v, their steps over Whole.v and WholeDrops.v | each step, a loop over a range, one text against those over records of C96 (`WholeOrdersP.v`); histories, meaning of a text, stops (`WholeOrdersT.v`); records added to the log (`WholeOrdersG.v`); checker, samples (`WholeOrdersX.v`) |
| C99 | TornDrops.v: stops after n bytes of a record of the log or of a new file, and inside of DROP, over WholeDrops.v | a start over a log whose last file ends in a part of a record, when no earlier file has a drop (`TornDropsL.v`); batches, drops without their file, new files as if empty (`TornDropsP.v`); reachable databases (`TornDropsT.v`); checker, samples, counterexamples (`TornDropsX.v`) |
| C100 | TornOrders.v: a text stopped after n things and k bytes of the next, over WholeOrders.v and TornDrops.v | one thing, a text (`TornOrdersT.v`); checker, samples, counterexample (`TornOrdersX.v`) |
| C101 | Engine.v, Memtable.v; limits in Spec/Grow.v: a batch has room in one page or sorts behind the table | the engine over tables of many pages (`GrowL.v`), ingestion in order without conditions on states (`GrowS.v`); checker, samples, counterexamples (`GrowX.v`) |
| C102 | as C101, with refused batches; the pages of a table are counted (`fits_pages`) | taking the last event of a table of many pages away (`GrowM.v`), undo of a batch (`GrowL.v`, `g_undo_step`, with the flag `b` off), checker and sample (`GrowU.v`) |
| C103 | Crash.v with the limits of Spec/Refill.v: batches and replayed records as in C102 | the proofs of C29–C36 over `g_minv false` (`RefillB.v` names the lemmas, `RefillW/H/D/P/T.v` follow `CrashW/H/D/P/T.v`); replay of a record into tables of many pages (`RefillW.v`, `replay_step`); checker, samples, counterexample (`RefillX.v`) |
| C104 | the same, with the limits `flow_hist` of Spec/Refill.v: every batch behind all that is acknowledged | the limits of C103 follow from the order, for the replay too (`RefillS.v`: `order_fits`, `order_refill`, `flow_fine`); page size and interval stay but in SET (`step_conf`); checker and sample (`RefillY.v`); a client that resumes (Spec/Resume.v, `ResumeL.v`) |
| C46 | Tiering.v: one round, its effect, all rounds | a limit is exceeded exactly when a partition is found (`TieringB.v`); partitions only go forward; witnesses (`TieringX.v`) |
| C47 | data encode/decode/skip | structural induction |
| C48 | json_export/json_read | structural induction |
| C49 | uuid | digit lemmas |
| C50 | lexer integer with unit | computation over the unit table, all integers |
| C51, C52 | heap and page pool | invariants |
| C53 | compression pool | invariant; witness |
| C54 | vfs_writev | induction over schedules of short writes |
| C55, C70 | Show.v | sums over lists, text by the export lemmas of C48, equal outputs for equal public parts; witnesses (`ShowX.v`) |
| C56 | Tiering.v: operations on partitions with the counters of storages | counters are sums plus what was not taken away, by operation (`TieringO.v`) and history (`TieringT.v`); witness |
| C68 | Refile.v: merge loop whose reads see what was written | induction on the loop; witness |
| C58 | rollback of an empty log as UB | witness; guarded theorem |
| C59 | wal_file_eof in u32 | witness; guarded theorem |
| C60 | vars | case analysis |
| C61, C62 | replay and allocation failures in Engine.v | witnesses; general crash theorem |
| C63-C66 | Crash.v: histories with refresh steps, collection, DROP, stops | invariant `binv` (files, log and tables cover the history); witnesses |

Properties that no executable model can express: none so far. Timing, memory
ordering of real hardware and behaviour of the external libraries are outside the model.


## Modelled code

| model file | code | left out or simplified |
|---|---|---|
| `Base.v` | fixed-width arithmetic | |
| `Event.v` | engine/event.h, comparator.h | |
| `Rbtree.v` | runtime/lib/rbtree.c, rbtree.h | parent pointers are zippers |
| `Memtable.v` | engine/memtable.h, memtable_iterator.h | a page is a list; heap contexts |
| `Mapping.v` | engine/mapping.h, engine.c fill/lock/create/foreach | partition contents are a parameter |
| `Merge.v` | engine/io/merge_iterator.h | dynamic array is a list |
| `PartIter.v` | io/index_iterator.h, region_iterator.h, part_iterator.h | a file is its list of regions |
| `Scan.v` | engine part_cursor, engine_cursor.h | locks, cloud download |
| `Crc.v`, `CrcTables.v` | runtime/lib/crc.c | length below 2^31 |
| `Codec.v` | event bytes, packed structs | |
| `Writer.v`, `File.v` | io/writer.c, region_writer.h, index_writer.h, index_op.c, reader.h, region.h | one append per file_writev; codecs are functions |
| `Wal.v` | engine/wal: log.h, log_write.h, log_drop.h, wal_file.h, wal_id.h, wal.c, wal_cursor.c; main.c main_replay | mutexes; file names are ids; syncs; a failing write leaves a prefix |
| `Gc.v` | interleavings of write.c engine_write, op.c engine_gc, wal_rotate, refresh | one mark per write |
| `Engine.v` | engine/write.c, refresh.c, engine.c lock/set_serial, op.c create/drop, io/merger.c | one call at a time (a refresh in two stages); the log only as success or failure; memory refusals as input; one storage |
| `Data.v` | runtime/lib/data.h, encode.h, decode.h, data_op.h | reals are bit patterns of doubles and floats |
| `Json.v` | runtime/lib/json.c | strtod and the printing of reals are parameters; signed overflow is UB |
| `Uuid.v` | runtime/lib/uuid.c to_string, from_string | generation is in `Random.v` |
| `Random.v` | runtime/lib/random.c, uuid.c:37-42, parse_storage.c:186-213, encryption_aes.c:80-83 | /dev/urandom, the clock, getpid, getuid and rand() are arguments; the lock of the generator is not modelled (one draw is one step); isalnum of the C locale |
| `Lex.v` | main/command/lex.h, lex.c | C locale; strtod is a parameter |
| `Alloc.v` | runtime/lib/memory_mgr.h, heap.h, cache.h, compression_mgr.c; event.h event_allocate | a page is the number mmap gave; counts of pages below 2^31; one call per step, a waiting call in two |
| `Vfs.v` | runtime/runtime/vfs.c write, writev, read, pread; file.h | the system answers with a schedule; at most INT_MAX bytes per call |
| `Config.v` | runtime/config/var.h, config.c; main/main/execute.c SET, SHOW name, SHOW CONFIG | the file operations of a save take effect in order, a file is written from its start; the log; `online` and other values that are not in the table |
| `Source.v` | cloud/cloud/source.h, cloud_config.h, engine/storage/tier_config.h | strings are bytes without the terminator |
| `Catalog.v` | cloud/cloud/cloud_mgr.c, engine/storage/{storage_mgr.c,storage.h,pipeline.c,tier.h}, main/main/execute.c, opening in engine.c | pointers are numbers; mkdir, attach and detach succeed or fail as given; of partitions only start and ID_CLOUD; the locks |
| `Show.v` | engine/io/stats.h, engine/engine/engine_show.c, show functions of storage.h, storage_mgr.c, cloud_mgr.c, pipeline.c, wal.c, main/main/execute.c | SHOW MEMORY; of a partition the fields that are shown; nothing changes while a SHOW runs |
| `Tiering.v` | engine/storage/storage.h counters, engine/engine/op.c create, drop, download, upload, refresh, rebalance, engine/engine/refresh.c, end of engine_recover.c | one operation at a time; events in memory are left out; what the file system, the cloud and the merge do is given |
| `Locks.v` | engine/engine/lockage.h, engine.c engine_lock/engine_unlock, order of locks in write.c, engine_cursor.h, refresh.c, op.c, execute.c | a step is one call under the engine mutex; data between the locks is left out; the control lock prefers readers (glibc default) |
| `Service.v` | engine/engine/service.h, service_req.h, worker.c, worker_mgr.c, op.c engine_service, requests of write.c, engine.c, op.c | outcome of an action is given; of a partition only its mark; a call on the queue is one step |
| `CloudFiles.v` | engine/io/part.c, engine/engine/op.c (upload, download, drop, refresh), engine_recover.c, service.h requests, cloud/cloud/mock.c, cloud/s3/s3.c | one storage; one action is one step of the interleaving (it holds the service lock); S3 replaces an object whole or not at all; the index dump is an arbitrary function of the file; HTTP, signatures, libcurl not modelled |
| `Parse.v` | main/command/parse*.{c,h}, main/main/execute.c main_execute and its table, main/api/monotone.c monotone_execute | allocation; of a command what is used when it is executed; the functions of the table are a parameter |
| `Buf.v` | runtime/runtime/buf.h | memory does not run out; what lies between position and end is not kept |
| `Pack.v` | runtime/lib/compression_zstd.c, compression_lz4.c, encryption_aes.c | the libraries are parameters; contexts can always be made |
| `Except.v` | runtime/runtime/exception.h, guard.h, throw.h | a program is what a function does with guards and exceptions; setjmp and longjmp are outcomes; values of locals after a longjmp are not modelled |
| `Names.v` | cloud/cloud/id.h, source.h: source_pathfmt, engine_recover.c:24-108, wal.c:127-169, wal_file.h names | names without zero bytes; isdigit of the C locale |
| `S3.v` | cloud/s3/s3_request.c, s3_op.c, s3.c transfers | HMAC, the clock, curl and the server are parameters; connections and their cache, redirects and debug output left out |
| `Packed.v` | runtime/lib/compression.h, encryption.h, engine/io/region_writer.h:103-140, index_writer.h:101-136, reader.h:106-126, index_op.c:84-139 | asserts off; the capacity of the buffer at the n-th content and how the content is in pieces are any function; the buffers of the reader have one capacity |
| `Links.v` | runtime/list.h: all but foreach_reverse_safe (used nowhere); the bodies of the loops of service.h, pipeline.c, and those that free a list; memtable_iterator_init, open, close and memtable_sync: which iterators are told | a node is an address; freeing is overwriting |
| `Failed.v` | write.c: engine_write and engine_rollback on one page with an attached iterator | no split |
| `Faulty.v` | part_iterator.h, merge_iterator.h, part_cursor.h, engine_cursor.h, monotone.c:167-259 with a reader_execute (reader.h:83-139) that throws for given regions | which regions is a parameter; memtable iterators are the events they still yield |
| `Opening.v` | main.c:26-34, 50-171, 211-270; monotone.c:44-135; file.h:47-112; config.c:212-292; cloud_mgr.c:84-124; storage_mgr.c:62-114, 186-208; wal.c:45-218; execute.c:251-262, 304-315 | see its head; flock(2) is per open file description and ends when that is closed; a path is a directory; a stage of an opening that fails otherwise is a parameter; a config.json that is refused changes no variable |
| `Logger.v` | runtime/runtime/logger.c, error.h:52-74, log.h:22-37; runtime/config/var.h:193-212, config.c:294-304; execute.c:70-84, 110-179; main.c:137-162, 212-225 | the text of a format is an argument; strftime gives 18 bytes; texts below 2^31 - 1024 bytes; the write of a line to its file is left out; of the commands only SHOW name and SET |
| `Workers.v` | engine/engine/worker_mgr.c, worker.c; runtime/runtime/thread.h; main.c:252, 258-270; monotone.c:66-113, 167-259 | one handle, called from one thread; memory is there or not; a turn of a thread is one step; engine_close and main_free do not fail |
| `Startup.v` | main/main/main.c main_start | the rest of the start is in the other files |
| `Refile.v` | io/merger.c merger_write, merge_iterator.h, region reads of part_iterator.h, part.c part_create at byte level | one region in memory at a time; the index of the origin is in memory |
| `Crash.v` | engine/engine_recover.c, refresh.c with its file operations, op.c drop/gc, storage_mgr.c find, main.c start and replay | a file is its index fields and regions; the log is its records; what was written before a rename survives a stop; cloud files |
| `Logless.v` | write.c:118-134, op.c:239-288 and 615-625, main.c:233-248 with wal off, over `Crash.v` | the other settings are those of the run before; a log file that stays on disk is its records; `WDrop` with the log on is that of `Crash.v` |
| `Orders.v` | execute.c:370-505 and 535-590 (statements about partitions), op.c:145-236, 290-500, refresh.c:54-113 and 196-237, over `Crash.v` and `Parse.v` | no cloud; a statement that needs a partition that is being refreshed waits, and the wait is an outcome; CHECKPOINT, SERVICE and REBALANCE do nothing themselves; names of storages are an argument |
| `WholeDrops.v` | op.c:239-315, wal.c:220-239, wal_cursor.c:83-118, wal_file.h:65-125, main.c:173-256, over `Whole.v` | the cursor takes the records of a file when it opens it, with the size of that moment; no stops inside of a record or of a drop; no failing writes of the log |
| `WholeOrders.v` | execute.c:370-590, op.c:163-493, refresh.c:54-237, over `WholeDrops.v` | what the parser takes from elsewhere as in `Orders.v`; times and metadata of new partition files are given with the text; no stops inside of a record of the log |
| `TornDrops.v` | write.c:74-138, wal.c:198-239, op.c:239-315, refresh.c:100-245, over `WholeDrops.v` | what is on the disk at a stop is a first part of the bytes being written |
| `TornOrders.v` | execute.c:370-590, op.c:239-315, refresh.c:100-245, over `WholeOrders.v` and `TornDrops.v` | as those |
| `Whole.v` | the code of `Crash.v`, `File.v`, `Wal.v` put together: write.c:72-193, refresh.c, merger.c:51-126, part.c:84-210, engine_recover.c:110-245, wal.c, wal_cursor.c, main.c:173-256 | the settings of all storages are the same; a file is read when it is opened; no DROP |
| `Batches.v` | write.c:24-193, lockage.h:56-111, engine.c lock/unlock, engine_cursor.h:24-106, refresh.c, wal.c wal_write | see its head; a partition is a map, a refresh is three steps that do not fail, memory does not run out |
| `Session.v` | main.c:118-166, 213-235, execute.c:111-179, 251-367, 535-590, config.c config_open, config_save | see its head; commands on partitions and events change no settings; the uuid and key for a new storage are given; calls on config.json succeed but for stops |

Functions taken as parameters of theorems (hypotheses, satisfied by the instances in the examples): compression,
decompression, encryption, decryption (`Spec/Codecs.v`), and below them zstd, lz4 and OpenSSL (`Spec/Packing.v`). The theorems on JSON text and tokens hold for any `strtod` and
any printing of reals.

## Disagreements between the code and what a reader would expect

Each has a `_refuted` theorem with a witness, or is stated in the property text.

1. `event_size` adds the key size twice, so writers copy `key_size` bytes beyond an event (C10 shows reads do not care).
2. `compare` subtracts ids as 64-bit values and narrows to int: order fails beyond 2^63, searches beyond 2^31 (C01, C08, C11, C20).
3. `memtable_search_page` tests `rc == 1` and a page split overwrites the right child: events disappear (C04).
4. Opening an iterator past the last key of a page or region does not move to the next one (C09).
5. `memtable_iterator_sync` misplaces open cursors in three cases (C06).
6. The top partition (max 2^64-1) wraps (C18).
7. `engine_foreach` stops at a first partition that starts before the range (C19).
8. `IndexRegion.offset` is 32-bit, so files above 4 GiB return other events (C10).
9. The checksum of a region is written but never checked on reading (File.v `reader_execute`).
10. After a crash in the middle of a record, new records are appended behind the partial one; recovery then
    skips them silently, fails, or reads outside of a buffer (C23).
11. With `wal_crc` a batch of two keyed events in one partition fails its checksum on recovery (C24).
12. `engine_gc` can remove the log file of an acknowledged write, when it runs between the log write and the
    mark of the memtable, or when its scan is older than the write (C26).
13. The number of a DROP record is not followed on replay and is used again (C27).
14. A first write that fails half way leaves a non-empty file with the next id; rotation adds that id a second
    time and reopens the file at position 0 without truncation (C28).
15. `wal_file_eof` adds in 32 bits; recovery of a log file of 4 GiB - 21 bytes or more fails (C59).
16. A second refresh after one that failed switches the memory tables back: older values shadow newer ones (C36).
17. Automatic ids start at 0 again when the last partition is empty at restart (C39).
18. Undoing a batch without log entries starts at a wild pointer (C58).
19. Replay allocates with the key counted twice; an event accepted by a write can crash recovery (C61).
20. A refused memory allocation leaves a log entry without event; undoing it crashes. Events larger than a page
    are written through a null pointer (C62).
21. Replaying a DROP record appends a new one, which the next start replays after later writes: they are lost (C32).
22. A DROP record holds one id. After a start with another interval, or when the partition was created with
    CREATE PARTITION, replay drops a partition of another range with events of others (C64).
23. DROP removes the file before it writes its record; a stop in between brings back part of the partition (C66).
24. `engine_gc` counts a partition as stored as soon as the new file is in use, while recovery still prefers the old
    file until it is removed: collection in between loses acknowledged writes after a crash (C63).
25. An error between the rename to `.complete` and the end of a refresh, or a leftover `.incomplete` of a failed move
    on another storage, makes the database fail to open after a later stop, or leaves two copies (C65).
26. A refresh after a failed one drops the events of the first from memory and from recovery (C36).
27. `encode_real` stores a double as a float when it lies between FLT_MIN and FLT_MAX, without asking whether it is exact (C47).
28. `decode_map` tests `data_is_bool` for the kinds REAL and NULL, so such a field is never accepted (Data.v `decode_field`;
    no caller uses them).
29. JSON strings are written without escapes; a double quote makes the text unreadable (C48).
30. The JSON parser adds a digit before it subtracts '0': integers from 2^63 - 48 on overflow, INT64_MAX included (C48).
31. `json_parse` rejects only the result -1: an empty text, or one that starts with a byte from 0x80 to 0xFE, is accepted
    with no output; text after the value is ignored (C48).
32. A uuid may be followed by anything (C49).
33. `min` has name size 2 in the keyword table: `5 min` is 5 followed by a name, `5 mi` is five minutes. A month is 30 * 7
    days, a year twelve of these (C50).
34. Symbols use their character code as token id, the same numbers as keywords: `(` is DROP, `!` is STORAGE, `,` is MOVE (C67).
35. Five integers in a row fill the token backlog of four: assertion or write past the array (CodecX.v `five_ints`).
36. `event_allocate` passes a size_t to an int: events of 2 GiB and more get negative or tiny blocks (C51).
37. `memory_mgr_pop` counts a page before mmap; when mmap fails the page stays counted against the limit (C52).
38. With the limit behaviour "block", a waiting call looks only at the free list, and is only woken when pages go there: pages
    that are unmapped because the cache is full or zero leave it waiting forever (C52).
39. `compression_mgr_push` puts lz4 contexts into the list of zstd (C53). After that no file of zstd is read with the context taken
    from the list (C82_context_refuted).
40. `file_create` does not truncate: a longer leftover `.incomplete` keeps its tail, and its footer decides at the next start (C37).
41. After a failed rename the partition in use is `<min>.incomplete`; the next refresh writes over the file it reads (C68).
42. `file_seek_to_end` narrows the position to int: a log of 4 GiB - 1 bytes cannot be opened; `vfs_write` of no bytes is an error,
    so is reading an empty file (C54).
43. `config_save` renames config.json to config.json.old before it writes the new file, and `config_open` never looks at the old
    one: a crash in between makes the next start write the defaults, or fail (C38).
44. Strings are saved without escapes and integers are read with the overflow of item 30: SET accepts settings with which the
    database does not start again. VAR_Z is not checked when the file is read (C60).
45. ALTER STORAGE SET (cloud 'x') changes and saves the settings before it looks for the cloud: when it is missing the command
    fails, the reference stays, and the database does not open any more (C44, C69).
46. When attaching fails in the same command the storage names a cloud it holds no reference to; DROP CLOUD succeeds (C43).
47. `pipeline_rename` stops at the first tier of that name (C45).
48. CREATE STORAGE does not compare uuids: two storages with one uuid use one directory. Integers of a storage are narrowed to int, so a
    region_size of 4 GiB is 0, which the parser refuses. Directories made before a failure stay.
49. ALTER STORAGE SET (encryption ...) makes no key, CREATE does. ALTER ... IF EXISTS ... RENAME of a missing name still renames
    references to that name.
50. SHOW 'storages' and SHOW 'clouds' print the variables that keep the catalog, with encryption keys and passwords in clear; SHOW
    STORAGES and SHOW CLOUDS leave them out. The variables are hidden but not secret (C70).
51. Counters and ids are uint64_t and shown as int64_t (C55).
52. `engine_drop_file` sets the state of the partition to none before it calls `storage_remove_metrics`, which does nothing for
    such partitions: size and events of a dropped partition stay in the counters of the storage until the next start (C56). A last
    tier over a limit of size or events therefore drops all its partitions (C46).
53. `engine_rebalance_tier` fills in the target storage before the caller skips a partition already marked for refresh; the target
    stays for the tiers after it. The last tier then moves instead of drops: to another tier and back for ever, or to the storage
    the partition is on, which does nothing but leave it marked for good (C46).
54. `pipeline_alter_validate` compares neighbours only: with a storage twice in the pipeline and limits of zero the rebalance never ends (C46).
55. The age of a partition is a difference of unsigned numbers: when the clock (CLOCK_REALTIME) is set back, partitions created in
    the future are older than any limit and are dropped (C46).
56. `lockage_lock` starts the count of nested locks at 0 and `lockage_unlock` takes one away before it looks: a lock taken n+2 times
    is free after n+1 releases. The last release of a batch with two events in one partition can release the lock of another thread:
    a writer and a refresh are in the partition together (C40). `lockage_unlock` does not look who the locker is.
57. A write under an open cursor of the same thread is a nested lock too: it gives away the lock of the cursor (C40).
58. `engine_write` locks partitions in the order of the events. Batches with the same partitions in opposite order wait for each
    other for ever (C71). So does a thread that gives an exclusive command while it has a cursor open.
59. `engine_service` frees a request when one of its actions fails, and `part->refresh` is cleared only with a new partition: after one
    failed refresh the partition is not refreshed any more by itself, however full it gets, until a command or a restart (C41).
60. The refresh of the previous head is queued without looking at the mark: the same work can be queued twice (C41).
61. With `workers` 0 and `workers_upload` above 0 nobody takes requests other than uploads (C41).
62. `engine_drop` with the cloud mask does not look whether there is a local file. An upload that drops the local file between the
    download and the cloud drop of a refresh leaves neither copy (C72). `engine_service` runs both at once when the partition is in two requests.
63. A failed upload leaves the file `.cloud.incomplete`, which only the next upload removes. A DROP of the partition leaves it alone,
    a crash in a refresh leaves it with `.incomplete`: `engine_recover_validate` knows neither and the database does not open.
    A failed refresh leaves `.incomplete`; an upload adds `.cloud` with the same result (C73).
64. `part_offload` removes the `.cloud` file before the object. When the object cannot be removed the partition still says it is in
    the cloud, later uploads do nothing, the local file is dropped, and the next start does not find the partition (C73).
65. The mock cloud creates its objects without O_TRUNC: an object left by a cut removal shows behind a shorter new one (C57).
66. Objects whose removal was cut are never removed (C57). The message of an HTTP error in `s3_request_execute` gives four arguments
    to a format with two of other types (read, not modelled).
67. The lexer keeps four tokens (`backlog[4]`) and pushes back an integer and what follows it: 'DROP PARTITION 1 2 3 4' writes past
    the array. Fewer than four integers in a row never do (C74).
68. Punctuation has the numbers of keywords in the parser too: '( $ - 1 . 9' is DROP PARTITIONS BETWEEN 1 AND 9, MOVE is a comma, and
    a $ for an option of a tier is used as a text (C74).
69. After 'name ()' the list of tiers of ALTER PIPELINE goes on with no comma and cannot end; 'SHOW CONFIG DEBUG' shows a variable
    DEBUG; 'SET x TO' is accepted by the parser; names of options are told apart by case and keywords are not (C74).
70. `compression_zstd_compress` reserves the size of the content, not `ZSTD_compressBound`: when the frame is longer, a build with
    asserts stops, and a release (CMakeLists.txt adds NDEBUG) writes the frame cut. Nothing reports it, and the region cannot be read
    again (C78). zstd is the default (config.c). The codecs of C10, C12, C13 are assumed to give back their content: for zstd this holds
    only where frames fit.
71. A buffer above 2^30 bytes overflows int when it grows (C77). `buf_vprintf` of 1024 bytes writes a zero byte for the last, of more
    reads beyond its array (C77). AES data of fewer than 32 bytes is decrypted with a negative length (C78).
72. A guard that throws while guards are run is run again, for ever if it always throws (C79). No function used as a guard in the code
    throws, and no return is between an enter and its leave. Locals that are changed between setjmp and longjmp and are not volatile are
    indeterminate in C afterwards: `file` in wal_rotate, `list` in pipeline_alter. This is outside the model.
73. Any file in a storage whose name is digits, of any length, is taken for a partition (modulo 2^64), and then opened under the name
    with 20 digits, which is not there: the database does not open. In the directory of the log any name of digits before a dot is taken,
    whatever follows: a copy `7.wal.old` makes a file 7 that is not there (C80).
74. `digest_base64` of s3_request_prepare has 28 bytes, 29 are written: undefined behaviour in every request to S3 (C81). The number
    of bytes that a read received is not compared with the bytes asked for. The format of the error of a failed request has two
    places for four arguments, so it tells the size of the name for the code.
75. `list_unlink` leaves the pointers of the element: a second unlink after another change of the list loses an element; `list_append`
    and `list_init` of an element that is on a list lose elements or make the next loop endless (C83). `list_pop` of an empty list
    gives the head.
76. `memtable_free` does not set `iterators_count` to 0 (memtable.c:62-72).
77. `memtable_unset` does not tell the iterators: after a failed write below an open cursor the cursor skips an event, shows the
    event that was never stored, or skips two (C85). A batch fails for instance when a later event has a key of more than 255 bytes.
78. `part_iterator_next` moves the index before it reads the region, and `part_cursor_open` adds the file after it was opened: a
    region that cannot be read is reported once, and a program that asks again gets the rest without it, or without the whole file
    when it was the first one, and an ordinary end (C86). `merge_iterator_next` keeps its current iterator when one throws:
    `monotone_read` after -1 shows an event out of order or says that the cursor is at its end.
79. `main_deploy` goes on when the environment is open, sets the directory of the configuration before it has the lock, and opens
    `lock_directory` over the descriptor it has (C87). After an opening that was refused ("in use by another process") commands and
    the WAL work on the directory of the other database: CREATE CLOUD replaces its config.json together with its uuid, so that its
    partitions are not found again; collection of the WAL unlinks its files. No command tests `online`.
80. The first descriptor is never closed after a second `monotone_open`: the directory stays locked until the process ends, also
    after `monotone_free` (C87). An opening that fails after the lock (a partition that cannot be recovered) answers "in use by another
    process" when it is tried again through the same handle, and from then on through every other.
81. CREATE CLOUD before `monotone_open` answers -1 and keeps the cloud; the opening adds it again from the variable (C87). A second
    opening appends all clouds and storages again. `monotone_write` before `monotone_open` fails an assert, or reads the head of the
    list of storages as a storage.
82. When the last partition was dropped and the older log files collected, a restart finds no number (a DROP record is not followed)
    and counts from 1 again, below the name of the last log file. Rotation then makes files whose names sort before it, so that the
    next recovery replays newer records before older ones and before the DROP; or it comes to the name of the file in use and
    writes it from its start again: an acknowledged write is lost (C27).
83. `json_export_as` prints a real with "%f" into `buf[32]` and copies as many bytes as the text would have: a real of 1e25 or more
    in a JSON value copies bytes from behind the array (C48).
84. `logger_write` makes a line in `buffer[1024]` and adds up the lengths that snprintf would have needed; behind a long message
    `sizeof(buffer) - len` wraps and the newline is written beyond the array (C88). SHOW and SET of a long unknown name do this, and
    `config_print` at every opening does it for a directory or a string setting of 970 bytes and more: after
    `SET compression TO '<1000 letters>'`, which is accepted and saved, the directory cannot be opened again.
85. `worker_mgr_start` sets `workers_count` before it has the array, and does not note how many threads it has made: after an opening
    that failed there `monotone_free` takes workers from a NULL pointer, or joins thread 0 (C89). The counts are ints of 64-bit
    settings: with `workers_upload` 4294967295 and `workers` 3 the third worker is written behind an array of two. A second
    `monotone_open` overwrites the array; the threads of the first one are never joined, and `monotone_free` frees the engine below them.
86. `monotone_write` with a count of 0 passes engine_write and wal_write: config_lsn is increased, but no byte is written to the log
    (write.c:75-126, wal.c:198-218, log.h:101-118). When a rotation follows, the new log file is named after this number; after a
    restart the number is gone, so config_lsn is below the name of the file in use, and the next rotation can take that name again
    (O_CREAT without O_TRUNC, size 0): acknowledged records are written over (C90_empty_refuted).
87. `lockage_lock` starts `locker_refs` at 0 and `lockage_unlock` frees the lock when the count is not above 0 (C40). For data this means
    (C91): a batch with two events in one partition frees the lock at its first entry in engine_commit or engine_rollback, and frees the
    lock of whoever has it then at its second. Two threads are in the partition at once: an acknowledged event is lost when the other
    one fails and rolls back, or memory and log have different versions. A thread that writes while it has a cursor in the same
    partition gives away the lock of the cursor.
88. A cursor locks one partition at a time, so a scan can see one half of a batch that writes to two partitions (C91_scan_refuted).
89. Texts that succeed and after which the database does not start (C92): `SET compression TO 'a"b'` (the JSON writer does not escape, C48),
    `SET wal_rotate_wm TO 9223372036854775760` (the JSON reader overflows a signed integer), and `ALTER STORAGE hot RENAME TO warm` when
    hot is in the pipeline twice: `pipeline_rename` changes the first tier alone, the saved pipeline names a storage that is not there.
90. A stop in `config_save` between the rename of config.json and the creation of the new one: the next start finds no config.json and
    makes a new database with main alone; clouds, storages, pipeline and settings are gone, config.json.old has them (C92_stop, Gone).
91. A start replays `DROP` with `engine_drop`, which writes a record: while a batch of the dropped partition is in the log, every start
    adds one more record (C93_grows_refuted).
92. A start does not count the number of a `DROP` record whose partition is not there (`main_replay` passes it to no `config_lsn_follow`):
    the next batches are given numbers of records that are in the log (C93_number_refuted). The histories of C93 show the right
    events despite of this, as the order of the records is the order of the replay.
93. Switching `wal` off for one run and on again loses acknowledged events: without the log a start leaves the log files alone and
    numbers batches from the files on (write.c:130-134), below the numbers of the log. When the log is replayed later, a logged event
    with a number at or below the one of a file written meanwhile is taken to be in that file and skipped (C94_switch_refuted), and an
    older logged value with a greater number is put over a newer one (C94_older_refuted). Nothing warns of it.
94. Keys are made by a generator that is not meant for secrets (xorshift128+, random.c:56-65), right after the uuid of the storage,
    which `SHOW STORAGES` and the names of directories show. The uuid leaves 2^64 candidates for the state and with it for the key of
    62^32 (C95_guess_refuted), and its other half is a check of 64 bits on each of them; one initialization vector in front of any
    encrypted region gives the same for every later key (C95_iv_refuted).
95. `random_open` does not exclude the seed zero. All numbers are zero then and `random_generate_alnum` never returns, so
    CREATE STORAGE with encryption hangs (C95_zero_refuted); one seed in 2^128.
96. When /dev/urandom cannot be opened the seed is the xor of process, user, seconds since boot and nanoseconds with two values of `rand()`,
    which nothing seeds. Different processes at different times then can have the same uuids, keys and nonces (C95_same_refuted).
    The result of `vfs_read` is not checked either.
97. `DROP PARTITION <id> ON STORAGE` removes the file of a partition that is in no cloud (op.c:290-315 goes to `engine_drop_file` with ID
    whatever else there is) and answers success. Readers miss the refreshed events at once; the next start brings back those
    that are in the log, and after a collection of the log they are lost (C96_storage_refuted).
98. `CREATE PARTITION <min>` without an end makes [min, min + interval], one id more than the interval, so the partition made after it
    by a write is one id short (C96_create_refuted).
99. `DROP PARTITIONS` is a loop of drops, each with its own record in the log. A stop, or a partition that is being refreshed,
    leaves some of them dropped (C96_whole_refuted); a statement that waits has done what comes before.
100. A start that applies a DROP appends its record again while the log is being read. With more than one file of the log the
    record lands in a file that the same start opens later, and is applied by that start after the batches of that file: an
    acknowledged event in an interval that was dropped and used again after a rotation is lost at the first start
    (C97_reuse_refuted); with one file it is lost at the second (finding 21).
101. The record of a DROP whose partition is gone does not count for the next number of the log. When the log begins with such
    a record (the rest was collected), numbers start again below the name of the only file, and a later rotation opens that file
    anew at position 0: acknowledged batches are overwritten and the next start fails with an error (C97_rotate_refuted).
102. A part of a record at the end of the log is passed over by a start, but drops that the start applies are appended behind
    it. When the drop is in an earlier file, the last file is read after that, and the start fails with an error
    (C99_two_files_refuted); when it is in the last file, the database opens once and the next start fails
    (C99_twice_refuted, and C100_once_refuted for DROP PARTITIONS). After a stop in the middle of a write a database with a dropped partition in its log is lost.
103. DROP removes the file of the partition before it writes its record. A stop between them leaves the events that are still
    in the log and loses those that are only in the file (C99_half_refuted).
104. A batch that is refused is undone event by event, but a page of the memory table that it split stays split. From then on
    scans with a start miss acknowledged events of the table and a rewritten event is stored and shown twice, though no
    table has more than 512 events (C101_refused_refuted, C101_twice_refuted). Without refused batches tables of more than
    512 events are shown completely by a scan without a start while events come in order (C101_stream), and lose
    acknowledged events when late ones come (C101_late_refuted) or the scan has a start (C101_start_refuted).
    Scans without a start do not notice a refused batch that came in order (C102_refused), nor do later batches in order (C102_history).
105. A start puts into one memory table what was in two when the process stopped inside of a refresh. Late events that came
    while a partition with more than 512 events was refreshed are stored well, in a new table, and are shown; after a stop
    before the new file is in place they meet the old events in one table, and an acknowledged event that was shown is gone
    (C103_late_refuted). Ingestion in order is not touched by stops (C104_scan, C104_stop).
