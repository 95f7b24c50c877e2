{
 "claims": [
  {
   "property": "C01",
   "status": "proved",
   "theorems": [
    "C01_order",
    "C01_total",
    "C01_search",
    "C01_search_refuted",
    "C01_wide_refuted"
   ],
   "note": "order laws for ids within 2^63; searches agree within 2^31; counterexamples beyond both bounds"
  },
  {
   "property": "C02",
   "status": "proved",
   "theorems": [
    "C02_last_write_wins"
   ],
   "note": "one page (at most 512 distinct keys), ids of the partition within 2^31"
  },
  {
   "property": "C03",
   "status": "proved",
   "theorems": [
    "C03_append_complete"
   ],
   "note": "any number of in-order events, ids within 2^31"
  },
  {
   "property": "C04",
   "status": "proved",
   "theorems": [
    "C04_seek_covered",
    "C04_write_covered",
    "C04_seek_refuted",
    "C04_lost_refuted",
    "C04_duplicate_refuted"
   ],
   "note": "the unconditional statement is refuted three ways; positive theorems for searches that land on the covering page"
  },
  {
   "property": "C05",
   "status": "proved",
   "theorems": [
    "C05_engine",
    "C05_batch_undo"
   ],
   "note": "memtable level and whole engine; histories within the limits of the code (ids in a window of 2^31, one page per table); the first event must not be the refused one (C58) and memory must not be refused (C62)"
  },
  {
   "property": "C06",
   "status": "proved",
   "theorems": [
    "C06_insert",
    "C06_rewrite",
    "C06_adjacent_refuted",
    "C06_rewrite_refuted",
    "C06_split_refuted"
   ],
   "note": "positive for inserts not directly below the cursor and rewrites at or above it, without a page split; refuted in the three other cases"
  },
  {
   "property": "C07",
   "status": "proved",
   "theorems": [
    "C07_merge"
   ],
   "note": "any number of sources, ids within 2^31"
  },
  {
   "property": "C08",
   "status": "proved",
   "theorems": [
    "C08_scan",
    "C08_keyed",
    "C08_far_refuted"
   ],
   "note": "after any history of writes, refreshes, DROP, CREATE within the limits of the code; keyed starts not past the stored keys; refuted for far starts"
  },
  {
   "property": "C09",
   "status": "proved",
   "theorems": [
    "C09_file_cursor",
    "C09_keyless",
    "C09_all",
    "C09_edge_refuted"
   ],
   "note": "positive for starts not past every stored key of their id, in particular for starts without key; refuted at the region edge"
  },
  {
   "property": "C10",
   "status": "proved",
   "theorems": [
    "C10_round_trip",
    "C10_over_4gib_refuted"
   ],
   "note": "compression and encryption are assumed to round-trip (theorem hypothesis; for the contents of the file only, and over the libraries: C82); sums of sizes below 2^32; refuted for files above 4 GiB"
  },
  {
   "property": "C11",
   "status": "proved",
   "theorems": [
    "C11_index",
    "C11_far_refuted"
   ],
   "note": "lookups within 2^31 of the file's ids; refuted beyond"
  },
  {
   "property": "C12",
   "status": "proved",
   "theorems": [
    "C12_regions"
   ],
   "note": "sums of sizes below 2^32"
  },
  {
   "property": "C13",
   "status": "proved",
   "theorems": [
    "C13_checks",
    "C13_writer_passes",
    "C13_detects"
   ],
   "note": "changes within four consecutive bytes anywhere in the footer, also across its checksum field"
  },
  {
   "property": "C14",
   "status": "proved",
   "theorems": [
    "C14_crc32c",
    "C14_incremental",
    "C14_leading_zeros"
   ],
   "note": ""
  },
  {
   "property": "C15",
   "status": "proved",
   "theorems": [
    "C15_detects",
    "C15_five_refuted"
   ],
   "note": "five bytes are refuted"
  },
  {
   "property": "C16",
   "status": "proved",
   "theorems": [
    "C16_partitions",
    "C16_unique",
    "C16_far_refuted",
    "C16_assert_refuted"
   ],
   "note": "histories whose ids stay within 2^31; see C18 for the end of the id space"
  },
  {
   "property": "C17",
   "status": "proved",
   "theorems": [
    "C17_fill"
   ],
   "note": "ranges within 2^31 of the existing partitions"
  },
  {
   "property": "C18",
   "status": "proved",
   "theorems": [
    "C18_write_error",
    "C18_write_refuted",
    "C18_endless_refuted",
    "C18_overlap_refuted"
   ],
   "note": "the statement says what fails; each failure has a witness"
  },
  {
   "property": "C19",
   "status": "proved",
   "theorems": [
    "C19_keep",
    "C19_drop",
    "C19_refuted"
   ],
   "note": "positive for ranges that start at a partition or in a gap; refuted otherwise"
  },
  {
   "property": "C20",
   "status": "proved",
   "theorems": [
    "C20_lookup"
   ],
   "note": "order, lookups and depth for all histories"
  },
  {
   "property": "C21",
   "status": "proved",
   "theorems": [
    "C21_read_back",
    "C21_read_all"
   ],
   "note": "histories of writes, drops, rotations, collections and restarts; files below 4 GiB; with wal_crc the bytes behind events must not change between checksum and write (C24 has the other case)"
  },
  {
   "property": "C22",
   "status": "proved",
   "theorems": [
    "C22_cut"
   ],
   "note": "the current file cut at any byte"
  },
  {
   "property": "C23",
   "status": "proved",
   "theorems": [
    "C23_boundary",
    "C23_torn_loses",
    "C23_refuted",
    "C23_error_refuted",
    "C23_overrun_refuted"
   ],
   "note": "positive for every record boundary; silent loss proved for every cut behind a header when the later writes are shorter than what is missing; witnesses for failed recovery and reads outside the buffer"
  },
  {
   "property": "C24",
   "status": "proved",
   "theorems": [
    "C24_accepted",
    "C24_rejected",
    "C24_refuted"
   ],
   "note": "positive when at most the last event has a key; rejection proved for every batch with one changed key of 1 to 4 bytes; witness"
  },
  {
   "property": "C25",
   "status": "proved",
   "theorems": [
    "C25_gc"
   ],
   "note": ""
  },
  {
   "property": "C26",
   "status": "proved",
   "theorems": [
    "C26_quiet",
    "C26_mark_refuted",
    "C26_scan_refuted"
   ],
   "note": "safe when scan and removal are one step and no logged write waits for its mark; two losing schedules"
  },
  {
   "property": "C27",
   "status": "proved",
   "theorems": [
    "C27_order",
    "C27_plain",
    "C27_drop_refuted",
    "C27_overwritten_refuted",
    "C27_reordered_refuted"
   ],
   "note": "also with DROP and collection when the last number is found again on restart; refuted for a DROP before a restart, also with a file that is overwritten and a log in another order"
  },
  {
   "property": "C28",
   "status": "proved",
   "theorems": [
    "C28_sorted",
    "C28_members",
    "C28_queries",
    "C28_duplicate_refuted"
   ],
   "note": "refuted when the first write to a file fails half way"
  },
  {
   "property": "C29",
   "status": "proved",
   "theorems": [
    "C29_history",
    "C29_restart"
   ],
   "note": "histories within the limits of the code (window of 2^31 ids, one page per table, replayed events fit with the key counted twice), also with moves, collection and failed refreshes; no DROP"
  },
  {
   "property": "C30",
   "status": "proved",
   "theorems": [
    "C30_atomic"
   ],
   "note": "stop before or after the record is complete; cuts inside a record are C22"
  },
  {
   "property": "C31",
   "status": "proved",
   "theorems": [
    "C31_repeat"
   ],
   "note": "starts stopped after any number of their file operations; without DROP in the log"
  },
  {
   "property": "C32",
   "status": "proved",
   "theorems": [
    "C32_drop_refuted"
   ],
   "note": "refuted with DROP; without DROP it is C29_history"
  },
  {
   "property": "C33",
   "status": "proved",
   "theorems": [
    "C33_refresh",
    "C33_history",
    "C33_file"
   ],
   "note": "also with writes between the stages and for every region size of the target storage; storages themselves are not in this model"
  },
  {
   "property": "C34",
   "status": "proved",
   "theorems": [
    "C34_refresh"
   ],
   "note": "also with writes between the steps (C29_history)"
  },
  {
   "property": "C35",
   "status": "proved",
   "theorems": [
    "C35_move"
   ],
   "note": "also with writes between the steps (C29_history)"
  },
  {
   "property": "C36",
   "status": "proved",
   "theorems": [
    "C36_failed_restart",
    "C36_restart_refuted",
    "C36_retry_refuted",
    "C36_failed"
   ],
   "note": "refuted twice: older value back, data lost after a restart; a failed refresh without a second one is harmless, also after a restart"
  },
  {
   "property": "C37",
   "status": "proved",
   "theorems": [
    "C37_exact",
    "C37_tail",
    "C37_judged",
    "C37_meanwhile",
    "C37_stale_refuted",
    "C37_rejected_refuted"
   ],
   "note": "exact condition; refuted both ways for longer leftovers"
  },
  {
   "property": "C38",
   "status": "proved",
   "theorems": [
    "C38_saved",
    "C38_crash",
    "C38_window",
    "C38_refuted"
   ],
   "note": "the four kinds of crash states with the outcome of the next start; refuted with the defaults of the code and one storage; a file is written from its start, calls take effect in order"
  },
  {
   "property": "C39",
   "status": "proved",
   "theorems": [
    "C39_run",
    "C39_restart",
    "C39_empty_refuted"
   ],
   "note": "increasing in one run; above all stored ids after a restart when the last partition holds events; refuted otherwise"
  },
  {
   "property": "C40",
   "status": "proved",
   "theorems": [
    "C40_exclusive",
    "C40_programs",
    "C40_wakeup",
    "C40_command",
    "C40_control",
    "C40_nested",
    "C40_refuted",
    "C40_cursor_refuted"
   ],
   "note": "all programs without nested locks; wakeups and control lock for all programs; refuted by two events of one batch and by a write under a cursor"
  },
  {
   "property": "C41",
   "status": "proved",
   "theorems": [
    "C41_accounted",
    "C41_in_order",
    "C41_oldest",
    "C41_counters",
    "C41_never_wild",
    "C41_awake",
    "C41_served",
    "C41_manned",
    "C41_once",
    "C41_again",
    "C41_forgotten",
    "C41_refuted",
    "C41_twice_refuted",
    "C41_unmanned_refuted"
   ],
   "note": "all interleavings, any workers; refuted: lost after a failure, queued twice, no workers"
  },
  {
   "property": "C42",
   "status": "proved",
   "theorems": [
    "C42_batch"
   ],
   "note": "the order in the log is C21"
  },
  {
   "property": "C43",
   "status": "proved",
   "theorems": [
    "C43_always",
    "C43_careful",
    "C43_names",
    "C43_new",
    "C43_cloud_used",
    "C43_cloud_free",
    "C43_storage_used",
    "C43_storage_free",
    "C43_refuted"
   ],
   "note": "invariants with failures and restarts; links and names for careful histories; refuted by a failed attach"
  },
  {
   "property": "C44",
   "status": "proved",
   "theorems": [
    "C44_reopened",
    "C44_restart",
    "C44_refuted"
   ],
   "note": "exact condition, also through config.json; refuted by a refused ALTER"
  },
  {
   "property": "C45",
   "status": "proved",
   "theorems": [
    "C45_renamed",
    "C45_refuted"
   ],
   "note": "refuted by a storage used twice"
  },
  {
   "property": "C46",
   "status": "proved",
   "theorems": [
    "C46_step",
    "C46_quiet",
    "C46_moved",
    "C46_ends",
    "C46_partitions",
    "C46_drops_all",
    "C46_too_much_refuted",
    "C46_stale_refuted",
    "C46_kept_refuted",
    "C46_circle_refuted",
    "C46_clock_refuted"
   ],
   "note": "every round exactly, termination and result; refuted five ways"
  },
  {
   "property": "C47",
   "status": "proved",
   "theorems": [
    "C47_decode",
    "C47_decode_wide",
    "C47_skip",
    "C47_skip_wide",
    "C47_reserved_integer",
    "C47_reserved_string",
    "C47_reserved_real",
    "C47_real",
    "C47_real_refuted"
   ],
   "note": "reals as bit patterns; refuted for reals that a float cannot hold"
  },
  {
   "property": "C48",
   "status": "proved",
   "theorems": [
    "C48_round",
    "C48_string",
    "C48_quote_refuted",
    "C48_integer_refuted",
    "C48_real",
    "C48_real_refuted",
    "C48_empty"
   ],
   "note": "reals up to the text that the C library gives for them; refuted for quotes, for integers near 2^63 and for reals of more than 31 characters"
  },
  {
   "property": "C49",
   "status": "proved",
   "theorems": [
    "C49_round",
    "C49_accepts",
    "C49_exact_refuted"
   ],
   "note": "refuted for texts with more characters behind"
  },
  {
   "property": "C50",
   "status": "proved",
   "theorems": [
    "C50_units",
    "C50_min_refuted",
    "C50_month_refuted",
    "C50_year_refuted",
    "C50_wrap_refuted"
   ],
   "note": "every spelling and case; refuted for min, month, year and products above 2^64"
  },
  {
   "property": "C51",
   "status": "proved",
   "theorems": [
    "C51_disjoint",
    "C51_event",
    "C51_oversize",
    "C51_outside_refuted",
    "C51_overlap_refuted",
    "C51_event_refuted"
   ],
   "note": "any number of arenas on one pool, also with calls waiting for memory; refuted for events of 2 GiB and more"
  },
  {
   "property": "C52",
   "status": "proved",
   "theorems": [
    "C52_counts",
    "C52_exact",
    "C52_limit",
    "C52_reuse",
    "C52_kept",
    "C52_unmapped",
    "C52_wake",
    "C52_stuck",
    "C52_wake_refuted",
    "C52_counts_refuted"
   ],
   "note": "refuted twice: failed mmap, waiting without a cache (for every continuation)"
  },
  {
   "property": "C53",
   "status": "proved",
   "theorems": [
    "C53_single",
    "C53_lz4",
    "C53_wrong",
    "C53_returned",
    "C53_refuted"
   ],
   "note": "refuted with two methods; every returned lz4 context is handed out for zstd"
  },
  {
   "property": "C54",
   "status": "proved",
   "theorems": [
    "C54_write",
    "C54_writev",
    "C54_file_write",
    "C54_file_writev",
    "C54_written",
    "C54_appended",
    "C54_write_ends",
    "C54_writev_ends",
    "C54_read",
    "C54_read_ends",
    "C54_empty_write_refuted",
    "C54_zero_refuted",
    "C54_seek",
    "C54_seek_refuted"
   ],
   "note": "every schedule of short, interrupted and failed calls"
  },
  {
   "property": "C55",
   "status": "proved",
   "theorems": [
    "C55_shown",
    "C55_refused",
    "C55_bounds",
    "C55_exact",
    "C55_refuted"
   ],
   "note": "every SHOW but SHOW MEMORY; refuted for ids from 2^63 on"
  },
  {
   "property": "C56",
   "status": "proved",
   "theorems": [
    "C56_kept",
    "C56_start",
    "C56_always",
    "C56_stays",
    "C56_refuted"
   ],
   "note": "all histories; exact without drops of a last file; refuted by one drop"
  },
  {
   "property": "C57",
   "status": "proved",
   "theorems": [
    "C57_stopped",
    "C57_every_point",
    "C57_acted",
    "C57_read",
    "C57_requests",
    "C57_mock_refuted",
    "C57_stray_refuted"
   ],
   "note": "all crash points and histories; refuted for the mock cloud and for left objects"
  },
  {
   "property": "C58",
   "status": "proved",
   "theorems": [
    "C58_first_refuted",
    "C58_later"
   ],
   "note": "refuted for the first event; proved for later ones"
  },
  {
   "property": "C59",
   "status": "proved",
   "theorems": [
    "C59_below",
    "C59_above",
    "C59_refuted"
   ],
   "note": "files of 4 GiB - 21 bytes or more: all records are replayed and then recovery fails"
  },
  {
   "property": "C60",
   "status": "proved",
   "theorems": [
    "C60_set",
    "C60_refused",
    "C60_show",
    "C60_show_string",
    "C60_show_secret",
    "C60_show_config",
    "C60_saved",
    "C60_quote_refuted",
    "C60_integer_refuted",
    "C60_zero_refuted"
   ],
   "note": "positive for values with a JSON text that reads back; refuted three ways"
  },
  {
   "property": "C61",
   "status": "proved",
   "theorems": [
    "C61_load",
    "C61_replay_refuted"
   ],
   "note": "refuted; positive for events that fit with the key counted twice"
  },
  {
   "property": "C62",
   "status": "proved",
   "theorems": [
    "C62_limit_refuted",
    "C62_always",
    "C62_size_refuted"
   ],
   "note": "every refused event allocation crashes; witnesses for the table page and for large events"
  },
  {
   "property": "C63",
   "status": "proved",
   "theorems": [
    "C63_gc",
    "C63_refuted"
   ],
   "note": "refuted in the window; proved outside"
  },
  {
   "property": "C64",
   "status": "proved",
   "theorems": [
    "C64_interval_refuted",
    "C64_created_refuted"
   ],
   "note": "refuted two ways; without DROP it is C29_history"
  },
  {
   "property": "C65",
   "status": "proved",
   "theorems": [
    "C65_refuted"
   ],
   "note": "refuted three ways; the positive part is C29_history and C36_failed_restart"
  },
  {
   "property": "C66",
   "status": "proved",
   "theorems": [
    "C66_refuted"
   ],
   "note": "refuted"
  },
  {
   "property": "C67",
   "status": "proved",
   "theorems": [
    "C67_source",
    "C67_punctuation_refuted"
   ],
   "note": "both sources of keyword tokens characterised; refuted by punctuation"
  },
  {
   "property": "C68",
   "status": "proved",
   "theorems": [
    "C68_separate",
    "C68_behind",
    "C68_one_region",
    "C68_refuted"
   ],
   "note": "any codecs and settings; refuted with four regions"
  },
  {
   "property": "C69",
   "status": "proved",
   "theorems": [
    "C69_command",
    "C69_refuted"
   ],
   "note": "all commands; the one exception exhibited"
  },
  {
   "property": "C70",
   "status": "proved",
   "theorems": [
    "C70_public",
    "C70_secret",
    "C70_revealed",
    "C70_refuted"
   ],
   "note": "refuted by SHOW of a variable by its name, for every database"
  },
  {
   "property": "C71",
   "status": "proved",
   "theorems": [
    "C71_goes_on",
    "C71_refuted",
    "C71_cursor_refuted"
   ],
   "note": "possibility of ending from every reachable state; refuted for crossed batches and for commands under a cursor"
  },
  {
   "property": "C72",
   "status": "proved",
   "theorems": [
    "C72_workers",
    "C72_refuted",
    "C72_refreshes_refuted"
   ],
   "note": "with cloud_drop_local off or without refreshes; refuted else"
  },
  {
   "property": "C73",
   "status": "proved",
   "theorems": [
    "C73_again",
    "C73_leftovers",
    "C73_refuted",
    "C73_refresh_refuted",
    "C73_upload_refuted",
    "C73_remove_refuted"
   ],
   "note": "second attempts, whatever file was left; refuted for four other sequences"
  },
  {
   "property": "C74",
   "status": "proved",
   "theorems": [
    "C74_accepts",
    "C74_one_meaning",
    "C74_safe",
    "C74_refused",
    "C74_overrun_refuted",
    "C74_dollar_refuted",
    "C74_symbols_refuted"
   ],
   "note": "all texts; refuted: four integers in a row, $, punctuation for keywords"
  },
  {
   "property": "C75",
   "status": "proved",
   "theorems": [
    "C75_written",
    "C75_blank",
    "C75_nothing",
    "C75_locks",
    "C75_done"
   ],
   "note": "all texts and commands"
  },
  {
   "property": "C76",
   "status": "proved",
   "theorems": [
    "C76_succeeds"
   ],
   "note": "all commands on the catalog, both directions"
  },
  {
   "property": "C77",
   "status": "proved",
   "theorems": [
    "C77_written",
    "C77_printed",
    "C77_over_1gib_refuted",
    "C77_printed_refuted"
   ],
   "note": "sizes up to 2^30; refuted one byte above"
  },
  {
   "property": "C78",
   "status": "proved",
   "theorems": [
    "C78_zstd",
    "C78_zstd_refuted",
    "C78_zstd_file_refuted",
    "C78_lz4",
    "C78_aes",
    "C78_aes_refused",
    "C78_aes_short_refuted"
   ],
   "note": "lz4 and AES; zstd exactly when the frame fits, refuted otherwise for any library"
  },
  {
   "property": "C79",
   "status": "proved",
   "theorems": [
    "C79_runs",
    "C79_once",
    "C79_throwing_guard_refuted",
    "C79_return_refuted",
    "C79_throw_between_refuted",
    "C79_unguard_refuted",
    "C79_guard_between_refuted"
   ],
   "note": "all nestings; refuted for guards that throw and four other shapes"
  },
  {
   "property": "C80",
   "status": "proved",
   "theorems": [
    "C80_own",
    "C80_taken",
    "C80_directory",
    "C80_paths",
    "C80_wal",
    "C80_wal_paths",
    "C80_alias_refuted",
    "C80_wal_other_refuted",
    "C80_wal_last_refuted",
    "C80_long_path_refuted"
   ],
   "note": "own names and foreign ones; refuted for names that others give and for long directories"
  },
  {
   "property": "C81",
   "status": "proved",
   "theorems": [
    "C81_overflow_refuted",
    "C81_signed",
    "C81_lines",
    "C81_operations",
    "C81_urls",
    "C81_urls_refuted",
    "C81_range",
    "C81_read",
    "C81_whole_refuted",
    "C81_zero_refuted",
    "C81_upload",
    "C81_download",
    "C81_error_refuted",
    "C81_error"
   ],
   "note": "with one byte more than the code has, refuted as it is; refuted: long urls, servers without ranges, the error text"
  },
  {
   "property": "C82",
   "status": "proved",
   "theorems": [
    "C82_exact",
    "C82_groups",
    "C82_packed",
    "C82_context_refuted"
   ],
   "note": "none, zstd, lz4 with none or AES over any library; zstd exactly when every frame fits; with an lz4 context taken for zstd (C53) no file of zstd is read"
  },
  {
   "property": "C83",
   "status": "proved",
   "theorems": [
    "C83_lists",
    "C83_twice",
    "C83_late_refuted",
    "C83_on_refuted"
   ],
   "note": "any sequence of operations against lists without pointers; foreach_reverse_safe is used nowhere and not modelled"
  },
  {
   "property": "C84",
   "status": "proved",
   "theorems": [
    "C84_told",
    "C84_refuted"
   ],
   "note": "which iterators are told; what telling does is C06"
  },
  {
   "property": "C85",
   "status": "proved",
   "theorems": [
    "C85_above",
    "C85_below",
    "C85_refuted"
   ],
   "note": "one page, no split; exact outcome for one event below the cursor; refuted by C85_refuted"
  },
  {
   "property": "C86",
   "status": "proved",
   "theorems": [
    "C86_retry",
    "C86_true",
    "C86_prefix",
    "C86_calm",
    "C86_lost_refuted",
    "C86_file_refuted",
    "C86_reread_refuted",
    "C86_end_refuted"
   ],
   "note": "over the histories of C08; the set of unreadable regions is fixed during a scan in C86_retry, and is lifted after the error in the refuted ones"
  },
  {
   "property": "C87",
   "status": "proved",
   "theorems": [
    "C87_exclusive",
    "C87_refused",
    "C87_kept",
    "C87_released",
    "C87_shown",
    "C87_records",
    "C87_written",
    "C87_records_refuted",
    "C87_uuid",
    "C87_safe",
    "C87_leak",
    "C87_retry",
    "C87_kept_refuted",
    "C87_moved_refuted",
    "C87_released_refuted",
    "C87_shown_refuted",
    "C87_copied_refuted",
    "C87_early_refuted"
   ],
   "note": "config.json is reduced to uuid, clouds and storages, a record of the WAL to its lsn; a path is the directory it resolves to; the option wal is on; workers and partitions are left out"
  },
  {
   "property": "C88",
   "status": "proved",
   "theorems": [
    "C88_line",
    "C88_written",
    "C88_off",
    "C88_error",
    "C88_error_off",
    "C88_show",
    "C88_set",
    "C88_set_done",
    "C88_show_refuted",
    "C88_greeting",
    "C88_switches",
    "C88_set_refuted",
    "C88_directory_refuted"
   ],
   "note": "every message, setting and directory; refuted for SHOW of a long name, for a long string that SET accepts, and for a long directory"
  },
  {
   "property": "C89",
   "status": "proved",
   "theorems": [
    "C89_start",
    "C89_start_stopped",
    "C89_safe",
    "C89_ended",
    "C89_returns",
    "C89_refused",
    "C89_thread_refuted",
    "C89_memory_refuted",
    "C89_count_refuted",
    "C89_twice_refuted",
    "C89_cursor_refuted"
   ],
   "note": "every careful program and every interleaving of its threads; refuted for a thread or memory that is not given, workers_upload above 2^31, a second opening, and a cursor freed after its handle"
  },
  {
   "property": "C90",
   "status": "proved",
   "theorems": [
    "C90_history",
    "C90_atomic",
    "C90_repeat",
    "C90_refresh",
    "C90_file",
    "C90_torn_refuted",
    "C90_empty_refuted"
   ],
   "note": "all storages have the same settings; no DROP in these histories (C97 has it); refuted for batches behind a part of a record and for empty batches"
  },
  {
   "property": "C91",
   "status": "proved",
   "theorems": [
    "C91_alone",
    "C91_seen",
    "C91_cursor",
    "C91_stable",
    "C91_stopped",
    "C91_settled",
    "C91_numbered",
    "C91_lost_refuted",
    "C91_differ_refuted",
    "C91_cursor_refuted",
    "C91_scan_refuted"
   ],
   "note": "for threads that lock a partition once at a time, and for a lock count that starts at 1; refuted for the count of the code: a batch with two events in one partition, and a write below a cursor; refuted for scans over two partitions. A refresh is three steps and does not fail"
  },
  {
   "property": "C92",
   "status": "proved",
   "theorems": [
    "C92_starts",
    "C92_restart",
    "C92_says",
    "C92_sets",
    "C92_safe",
    "C92_silent",
    "C92_asked",
    "C92_stop",
    "C92_plain",
    "C92_quote_refuted",
    "C92_integer_refuted",
    "C92_renamed_refuted",
    "C92_half_refuted"
   ],
   "note": "texts of the grammar of C74 with strings and integers that config.json can carry; refuted for double quotes, integers from 2^63 - 48, a renamed storage that is in the pipeline twice, and for ALTER STORAGE with a cloud that fails; calls on config.json succeed but for stops"
  },
  {
   "property": "C93",
   "status": "proved",
   "theorems": [
    "C93_history",
    "C93_gone",
    "C93_restart",
    "C93_drop",
    "C93_grows_refuted",
    "C93_number_refuted"
   ],
   "note": "histories in which dropped intervals are not used again (C32 refutes the rest), whole intervals and one value of interval (C64), no stop inside of DROP (C66), no DROP behind a failed refresh of the same partition; over records, the bytes of the log are in C97"
  },
  {
   "property": "C94",
   "status": "proved",
   "theorems": [
    "C94_history",
    "C94_safe",
    "C94_memory_refuted",
    "C94_switch_refuted",
    "C94_older_refuted"
   ],
   "note": "switching the log on again over a log that is not empty is excluded (and refuted); DROP only in runs without the log (with it: C93); no DROP behind a failed refresh of the same partition; over records and events of files, not bytes"
  },
  {
   "property": "C95",
   "status": "proved",
   "theorems": [
    "C95_step",
    "C95_period",
    "C95_share",
    "C95_previous",
    "C95_key",
    "C95_made",
    "C95_open",
    "C95_zero_refuted",
    "C95_guess_refuted",
    "C95_iv_refuted",
    "C95_same_refuted"
   ],
   "note": "that two initialization vectors of one key differ is not proved (it does not hold over a period); what the device, the clock and rand() give are arguments; refuted for the seed zero, for guessing keys, and without /dev/urandom"
  },
  {
   "property": "C96",
   "status": "proved",
   "theorems": [
    "C96_history",
    "C96_says",
    "C96_stop",
    "C96_storage_refuted",
    "C96_create_refuted",
    "C96_whole_refuted"
   ],
   "note": "without a cloud; the drop of one partition is one step, a stop inside of it is C66; limits of C93 on intervals, and of C90 on regions; partitions that a failed refresh left are excluded from REFRESH, MOVE and DROP; CHECKPOINT, SERVICE and REBALANCE are given as the steps that they start; ON STORAGE without a cloud is excluded from histories and refuted; over records and events of files, not bytes"
  },
  {
   "property": "C97",
   "status": "proved",
   "theorems": [
    "C97_history",
    "C97_gone",
    "C97_repeat",
    "C97_log",
    "C97_drop",
    "C97_rotate_refuted",
    "C97_reuse_refuted"
   ],
   "note": "all storages have the same settings; dropped intervals are not used again and rotations name a new file (both limits refuted otherwise); whole intervals and one value of interval (C64); stops inside of a record or of a DROP are in C99; no failing write of the log; no DROP behind a failed refresh of the same partition"
  },
  {
   "property": "C98",
   "status": "proved",
   "theorems": [
    "C98_history",
    "C98_says",
    "C98_stop",
    "C98_log",
    "C98_gone",
    "C98_storage_refuted"
   ],
   "note": "limits of C96 and C97; ON STORAGE is refuted; stops between the steps of a text (C100 has those inside of a record); what a statement does is stated while no refresh is on its way"
  },
  {
   "property": "C99",
   "status": "proved",
   "theorems": [
    "C99_batch",
    "C99_batch_whole",
    "C99_drop",
    "C99_drop_whole",
    "C99_file",
    "C99_two_files_refuted",
    "C99_twice_refuted",
    "C99_half_refuted"
   ],
   "note": "limits of C97; one such stop and the start after it (what follows a part of a record is refuted when the log has drops); the file of the partition is taken to be removed before its record is written, as the code does; a part of a record is a first part of its bytes"
  },
  {
   "property": "C100",
   "status": "proved",
   "theorems": [
    "C100_text",
    "C100_batch",
    "C100_once_refuted"
   ],
   "note": "limits of C98 and C99; one such stop and the start after it (a second start is refuted)"
  },
  {
   "property": "C101",
   "status": "proved",
   "theorems": [
    "C101_stream",
    "C101_history",
    "C101_start",
    "C101_late_refuted",
    "C101_start_refuted",
    "C101_refused_refuted",
    "C101_twice_refuted"
   ],
   "note": "positive without refused batches (C102 has them); partitions at the end of the id space excluded; refuted for late events, starts and refused batches"
  },
  {
   "property": "C102",
   "status": "proved",
   "theorems": [
    "C102_refused",
    "C102_history",
    "C102_start"
   ],
   "note": "limits of C101 on order and room, with the pages of a table counted; the first event must not be the refused one (C58) and memory must not be refused (C62)"
  },
  {
   "property": "C103",
   "status": "proved",
   "theorems": [
    "C103_history",
    "C103_start",
    "C103_restart",
    "C103_atomic",
    "C103_refresh",
    "C103_late_refuted"
   ],
   "note": "limits of C29 (no DROP) with those of C102 on order and room, for the replay too; refuted without them for the replay"
  },
  {
   "property": "C104",
   "status": "proved",
   "theorems": [
    "C104_scan",
    "C104_stop",
    "C104_start",
    "C104_resume"
   ],
   "note": "C103 without its condition on rooms and on the replay, for ingestion in order; late events: C103_late_refuted"
  }
 ]
}