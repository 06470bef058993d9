{
 "claims": [
  {
   "property": "C01",
   "status": "proved",
   "theorems": [
    "C01_put_get_round_trip",
    "C01_value_codec_round_trip"
   ],
   "note": "World-level theorem over all ordinary traces."
  },
  {
   "property": "C02",
   "status": "proved",
   "theorems": [
    "C02_store_is_a_finite_map",
    "C02_get_returns_latest_put",
    "C02_explicit_histories"
   ],
   "note": "World-level theorem over all ordinary traces."
  },
  {
   "property": "C03",
   "status": "proved",
   "theorems": [
    "C03_get_is_typed",
    "C03_ordinary_calls_never_panic",
    "C03_wrong_type"
   ],
   "note": "World-level theorem over all ordinary traces."
  },
  {
   "property": "C04",
   "status": "proved",
   "theorems": [
    "C04_deleted_key_is_absent",
    "C04_get_after_delete",
    "C04_delete_of_absent_key_does_nothing"
   ],
   "note": "World-level theorem over all ordinary traces."
  },
  {
   "property": "C05",
   "status": "proved",
   "theorems": [
    "C05_reopen_loses_nothing",
    "C05_closed_file_holds_the_map"
   ],
   "note": "World-level theorem over all ordinary traces."
  },
  {
   "property": "C06",
   "status": "proved",
   "theorems": [
    "C06_background_write",
    "C06_compaction"
   ],
   "note": "Every background write in every reachable state; the compaction case states exactly which records remain."
  },
  {
   "property": "C07",
   "status": "proved",
   "theorems": [
    "C07_whole_pages",
    "C07_write_length",
    "C07_never_shrinks",
    "C07_overwriting_never_grows"
   ],
   "note": "Whole pages, exact length after each background write, never shrinking without a clear, and overwriting never grows."
  },
  {
   "property": "C08",
   "status": "partial",
   "theorems": [
    "C08_minimal_growth_refuted",
    "C08_growth_partial"
   ],
   "note": "FALSE of the code as stated: C08_minimal_growth_refuted exhibits an ordinary trace growing by two pages where one suffices (stale max_len in the rewrite loop). C08_growth_partial gives the exact growth and the bound that does hold."
  },
  {
   "property": "C09",
   "status": "partial",
   "theorems": [
    "C09_large_value_refuted",
    "C09_fitting_value_partial"
   ],
   "note": "FALSE of the code as stated: C09_large_value_refuted; C10_append_exact shows in every reachable state that an append larger than free space plus one page kills the writer and leaves an unopenable file. C09_fitting_value_partial is what holds."
  },
  {
   "property": "C10",
   "status": "proved",
   "theorems": [
    "C10_explicit_put",
    "C10_explicit_put_converse",
    "C10_explicit_is_ordinary",
    "C10_background_never_fails",
    "C10_no_call_fails",
    "C10_append_exact"
   ],
   "note": "No writer failure and no failing call in any ordinary trace; exact threshold for a plain append."
  },
  {
   "property": "C11",
   "status": "proved",
   "theorems": [
    "C11_file_format",
    "C11_record_round_trip",
    "C11_plain_record_layout"
   ],
   "note": "File format in every reachable state; record round trip for both formats."
  },
  {
   "property": "C12",
   "status": "proved",
   "theorems": [
    "C12_damaged_record_is_skipped",
    "C12_damaged_records_and_afterwards"
   ],
   "note": "Plain build: bursts of up to 8 bits in payload or checksum, every reachable file, every record; any number of damaged records at once and every further history (C12_damaged_records_and_afterwards). (For the encrypted build see C37.)"
  },
  {
   "property": "C13",
   "status": "proved",
   "theorems": [
    "C13_other_keys_unaffected"
   ],
   "note": "Plain build; other keys keep the persisted state, the damaged record's key falls back to its older records. (For the encrypted build see C37.)"
  },
  {
   "property": "C14",
   "status": "partial",
   "theorems": [
    "C14_open_never_crashes_refuted",
    "C14_which_files_open_partial",
    "C14_damaged_bodies_open_partial"
   ],
   "note": "FALSE of the code as stated (refuted for both builds: changing one byte of the content length makes the directory unopenable). Proved: exactly which files open (below 4 GiB), what they then answer, and that damage sparing the length fields never prevents opening."
  },
  {
   "property": "C15",
   "status": "proved",
   "theorems": [
    "C15_half_created_and_afterwards",
    "C15_half_created_store_is_repaired",
    "C15_kill_during_growth"
   ],
   "note": "Half-created stores (no page yet / zero page / any nonce file) are opened as empty stores and everything else is as after a kill, in every further history with kills; kill during growth."
  },
  {
   "property": "C16",
   "status": "proved",
   "theorems": [
    "C16_clear_empties",
    "C16_clear_resets_the_file",
    "C16_later_calls_as_on_an_empty_store"
   ],
   "note": "World-level theorem over all ordinary traces."
  },
  {
   "property": "C17",
   "status": "proved",
   "theorems": [
    "C17_runs_in_submission_order",
    "C17_at_most_once",
    "C17_all_acknowledged_jobs_run",
    "C17_lost_after_a_panic"
   ],
   "note": "Transition system of the executor with any number of concurrent post calls: jobs run in an order of submission, at most once, and every acknowledged job runs unless a job panics."
  },
  {
   "property": "C18",
   "status": "proved",
   "theorems": [
    "C18_close_waits_for_everything",
    "C18_close_fails_only_after_a_panic",
    "C18_post_fails_only_after_a_panic",
    "C18_close_terminates",
    "C18_never_stuck_with_work",
    "C18_executor_catches_up"
   ],
   "note": "close (quit or Drop) returns only after everything acknowledged has run, always terminates, and fails only after a panic of a job."
  },
  {
   "property": "C19",
   "status": "proved",
   "theorems": [
    "C19_linearizable",
    "C19_calls_succeed"
   ],
   "note": "RwLock, queue mutex, channel and background thread interleaved step by step for any number of threads; every history of put/get/delete/clear_data on one open directory has a linearization that the finite-map specification accepts with exactly the returned results."
  },
  {
   "property": "C20",
   "status": "proved",
   "theorems": [
    "C20_memory_is_the_map",
    "C20_file_is_memory",
    "C20_then_as_before"
   ],
   "note": "Between calls the in-memory map is the map of the linearization; closing succeeds and opening the file gives exactly the map that was in memory; any sequential continuation is answered by the specification."
  },
  {
   "property": "C21",
   "status": "proved",
   "theorems": [
    "C21_kill_and_afterwards",
    "C21_kills_between_jobs",
    "C21_exactly_the_completed_jobs_survive",
    "C21_kill_while_growing"
   ],
   "note": "Kills between jobs anywhere in any trace (any number of kills), the exact prefix that survives, and kills right after the file was enlarged."
  },
  {
   "property": "C22",
   "status": "partial",
   "theorems": [
    "C22_kill_in_append_and_afterwards_partial",
    "C22_kill_in_append_partial",
    "C22_length_without_record_unopenable",
    "C22_kill_in_append_refuted"
   ],
   "note": "FALSE of the code as stated: append stores the content length before the record, so C22_kill_in_append_refuted / C22_length_without_record_unopenable: a kill in between leaves a file that can never be opened. C22_kill_in_append_partial covers every other kill point, also torn copies; C22_kill_in_append_and_afterwards_partial adds every further history."
  },
  {
   "property": "C23",
   "status": "partial",
   "theorems": [
    "C23_kill_in_compaction_partial",
    "C23_kill_after_reset_loses_everything",
    "C23_kill_in_compaction_refuted"
   ],
   "note": "FALSE of the code as stated: compaction first sets the length to 0, so C23_kill_after_reset_loses_everything (every compaction in every reachable state) and C23_kill_in_compaction_refuted. C23_kill_in_compaction_partial: at record boundaries what is found is a sub-map of the new state, never a wrong value."
  },
  {
   "property": "C24",
   "status": "partial",
   "theorems": [
    "C24_put_survives_kill_refuted",
    "C24_put_survives_kill_partial"
   ],
   "note": "FALSE of the code as stated: put only queues the write; C24_put_survives_kill_refuted. C24_put_survives_kill_partial: once the directory's queue is empty every acknowledged call survives."
  },
  {
   "property": "C25",
   "status": "proved",
   "theorems": [
    "C25_handles_share",
    "C25_dropping_a_handle_affects_nothing",
    "C25_open_iff_a_handle_is"
   ],
   "note": "World-level theorem over all ordinary traces."
  },
  {
   "property": "C26",
   "status": "partial",
   "theorems": [
    "C26_reopening_while_dropping_refuted",
    "C26_reopening_while_dropping_partial"
   ],
   "note": "FALSE of the code as stated: between unregistering and joining the writer the directory can be opened a second time (C26_reopening_while_dropping_refuted). Proved: every interleaving of split drops in which no directory is opened while its only handles are half dropped (calm)."
  },
  {
   "property": "C27",
   "status": "partial",
   "theorems": [
    "C27_spellings_refuted",
    "C27_one_spelling_at_a_time_partial"
   ],
   "note": "FALSE of the code as stated: the registry compares path texts (C27_spellings_refuted). Proved: spellings may change freely as long as handles open at the same time use the same one."
  },
  {
   "property": "C28",
   "status": "proved",
   "theorems": [
    "C28_other_directories_untouched",
    "C28_other_directories_not_observed"
   ],
   "note": "World-level theorem over all ordinary traces."
  },
  {
   "property": "C29",
   "status": "partial",
   "theorems": [
    "C29_failed_put_refuted",
    "C29_failed_put_partial",
    "C29_ioerror_put_partial"
   ],
   "note": "FALSE of the code as stated: a put that fails leaves its value in memory (C29_failed_put_refuted). Proved: what a failed put may change."
  },
  {
   "property": "C30",
   "status": "partial",
   "theorems": [
    "C30_clear_refuted",
    "C30_clear_partial"
   ],
   "note": "FALSE of the code as stated: a clear_data that fails can leave the store closed (C30_clear_refuted). Proved: clear_data on a working store in every run."
  },
  {
   "property": "C31",
   "status": "proved",
   "theorems": [
    "C31_built_in_tokens",
    "C31_reserved_put_never_succeeds",
    "C31_reserved_get_never_succeeds",
    "C31_other_tokens_work",
    "C31_token_is_preserved"
   ],
   "note": "Reserved tokens are exactly those of the built-in types; put and get of a custom type with one of them never succeed; with any other token they behave as a map and the token is preserved."
  },
  {
   "property": "C32",
   "status": "proved",
   "theorems": [
    "C32_codes_round_trip",
    "C32_codes_exact",
    "C32_filter",
    "C32_decided_by_level",
    "C32_off"
   ],
   "note": "The filter, over all sequences of level changes and calls and all schedules of the log thread; Off silences every level a line can have. The atomic level variable is read once per call."
  },
  {
   "property": "C33",
   "status": "proved",
   "theorems": [
    "C33_lines_to_the_installed_logger",
    "C33_nothing_is_lost",
    "C33_released_once_after_its_last_line",
    "C33_line_reaches_its_logger"
   ],
   "note": "All schedules of concurrent log calls and set_logger calls with the log thread; in-order with respect to an order of submission consistent with real time; logger destructors are assumed not to panic, and a panicking logger ends delivery (see C51)."
  },
  {
   "property": "C34",
   "status": "partial",
   "theorems": [
    "C34_error_codes_partial",
    "C34_error_codes_refuted",
    "C34_clear_data_refuted",
    "C34_nothing_else_aborts_partial"
   ],
   "note": "FALSE of the code as stated: IOError and LockError have no code, so a put after the death of the background thread aborts, and so does clear_data (C34_error_codes_refuted, C34_clear_data_refuted). Proved: the six documented errors always arrive with their code and text, the others abort (exactly), and a put, get or delete aborts only if a background thread has died or a stored number has too few bytes."
  },
  {
   "property": "C35",
   "status": "proved",
   "theorems": [
    "C35_no_undefined_behaviour",
    "C35_results_own_their_data",
    "C35_fresh_results",
    "C35_nothing_leaks",
    "C35_free_releases_what_was_made",
    "C35_log_lines"
   ],
   "note": "Explicit heap with layouts and an arbitrary allocator that may reuse addresses; every sequence of calls and frees by a caller that uses only pointers it holds."
  },
  {
   "property": "C36",
   "status": "proved",
   "theorems": [
    "C36_encrypted_store_is_a_finite_map"
   ],
   "note": "World-level theorem over all ordinary traces."
  },
  {
   "property": "C37",
   "status": "proved",
   "theorems": [
    "C37_modified_records_and_afterwards",
    "C37_foreign_key_and_afterwards",
    "C37_only_untouched_records_count",
    "C37_foreign_key_or_nonce"
   ],
   "note": "For every ordinary history and every rewriting of the file by frames; no_forgery states what the cipher is assumed to withstand. The *_and_afterwards theorems add every further history."
  },
  {
   "property": "C38",
   "status": "partial",
   "theorems": [
    "C38_nonce_reuse_refuted",
    "C38_appends_use_fresh_numbers_partial",
    "C38_one_file_partial",
    "C38_no_reuse_without_overwrites_partial"
   ],
   "note": "FALSE of the code as stated: compaction restarts the record numbering at 0 under the same key and nonce (C38_nonce_reuse_refuted). Proved: appends use the first unused number, and there is no reuse in any history without overwrites, deletes of existing keys and clears"
  },
  {
   "property": "C39",
   "status": "proved",
   "theorems": [
    "C39_nonce_file_has_11_bytes",
    "C39_first_open_creates_the_nonce",
    "C39_nonce_is_kept",
    "C39_clear_makes_a_new_nonce",
    "C39_bad_nonce_is_replaced"
   ],
   "note": "first open, stability under every call but clear_data, replacement of bad nonce files, clear_data"
  },
  {
   "property": "C40",
   "status": "proved",
   "theorems": [
    "C40_meta_name",
    "C40_meta_file_is_separate",
    "C40_meta_names_differ",
    "C40_non_utf8_names"
   ],
   "note": "file names; the path algorithm of std is modelled"
  },
  {
   "property": "C41",
   "status": "partial",
   "theorems": [
    "C41_every_open_panics",
    "C41_nothing_works",
    "C41_works_on_32_bit_refuted"
   ],
   "note": "FALSE of the code on 32-bit targets: every open panics (C41_every_open_panics, C41_works_on_32_bit_refuted)."
  },
  {
   "property": "C42",
   "status": "partial",
   "theorems": [
    "C42_kotlin_values",
    "C42_kotlin_types",
    "C42_kotlin_getters",
    "C42_kotlin_put_get",
    "C42_levels_agree",
    "C42_swift_results_partial",
    "C42_swift_empty_arrays",
    "C42_swift_getters_refuted"
   ],
   "note": "FALSE of the code as stated: the Swift getter of an empty array traps (FFI.swift:21-31, range 0...count-1), C42_swift_getters_refuted. Proved: Kotlin values of all 11 types cross and come back, getters with a default answer like the map in every ordinary history, log levels agree; Swift wrappers show the store's answer for every result except arrays without elements, which always trap."
  },
  {
   "property": "C43",
   "status": "partial",
   "theorems": [
    "C43_put_panic_refuted",
    "C43_put_panic_poisons",
    "C43_get_panic_partial",
    "C43_put_panic_partial"
   ],
   "note": "FALSE of the code as stated: a panic inside put poisons the lock and every later call fails (C43_put_panic_refuted, C43_put_panic_poisons). Proved: what a panicking get and put leave."
  },
  {
   "property": "C44",
   "status": "partial",
   "theorems": [
    "C44_wrong_key_refuted",
    "C44_wrong_key_partial",
    "C44_wrong_key_and_afterwards_partial"
   ],
   "note": "FALSE of the code as stated: a second open of an open directory ignores its key (C44_wrong_key_refuted). Proved for directories nobody has open, with every further history (C44_wrong_key_and_afterwards_partial)."
  },
  {
   "property": "C45",
   "status": "proved",
   "theorems": [
    "C45_get_changes_nothing",
    "C45_idle_reopen_changes_no_byte",
    "C45_reading_session_changes_no_byte"
   ],
   "note": "World-level theorem over all ordinary traces; C45_reading_session_changes_no_byte for any session without put, delete and clear, whatever the keys, panics and kills."
  },
  {
   "property": "C46",
   "status": "proved",
   "theorems": [
    "C46_unicode_round_trip",
    "C46_encoding_is_injective",
    "C46_get_string_is_unicode",
    "C46_malformed_is_DataInvalid"
   ],
   "note": "Strings are modelled as Unicode scalar sequences with their UTF-8 encoding; round trip, injectivity, well-formedness of what is returned, DataInvalid for malformed bytes."
  },
  {
   "property": "C47",
   "status": "proved",
   "theorems": [
    "C47_append_only"
   ],
   "note": "Every non-compacting background write in every reachable state."
  },
  {
   "property": "C48",
   "status": "partial",
   "theorems": [
    "C48_failed_open_refuted",
    "C48_failed_open_blocks_everything",
    "C48_open_stores_go_on_partial"
   ],
   "note": "FALSE of the code as stated: a failed open poisons the instance map and blocks every later open (C48_failed_open_refuted, C48_failed_open_blocks_everything). Proved: stores already open go on working."
  },
  {
   "property": "C49",
   "status": "partial",
   "theorems": [
    "C49_step_progress",
    "C49_reading_terminates_partial",
    "C49_opening_terminates_partial",
    "C49_termination_refuted"
   ],
   "note": "FALSE of the code as stated (refuted: a 4 GiB file with a length field of 2^32-4 makes a release build loop forever). Proved for every file below 4 GiB, with a bound of one step per four bytes."
  },
  {
   "property": "C50",
   "status": "proved",
   "theorems": [
    "C50_next_number_is_record_count",
    "C50_records_decode_under_their_number"
   ],
   "note": "Every reachable state; reading with numbers 0,1,2,... returns every record."
  },
  {
   "property": "C51",
   "status": "partial",
   "theorems": [
    "C51_logging_fails_only_after_a_panic_partial",
    "C51_quiet_loggers_partial",
    "C51_refuted",
    "C51_closed_stdout_refuted"
   ],
   "note": "FALSE of the code as stated: C51_refuted exhibits a logger panicking on one line after which another log call panics (its post fails and logger.rs unwraps); C51_closed_stdout_refuted the same without a logger when standard output is closed. The partial theorems prove it when no logger panics and printing works."
  },
  {
   "property": "C52",
   "status": "partial",
   "theorems": [
    "C52_levels_partial",
    "C52_other_numbers_abort",
    "C52_levels_refuted"
   ],
   "note": "FALSE of the code as stated: any other number aborts the process (C52_levels_refuted). Proved: 0..5 select that level, and exactly the other numbers abort."
  },
  {
   "property": "C53",
   "status": "proved",
   "theorems": [
    "C53_answers_of_a_map",
    "C53_other_calls_return",
    "C53_texts_end_at_their_zero"
   ],
   "note": "For ordinary traces (records of at most a page, valid directories)."
  },
  {
   "property": "C54",
   "status": "partial",
   "theorems": [
    "C54_declared_exceptions_refuted",
    "C54_declared_exceptions_partial",
    "C54_ordinary_delete_partial"
   ],
   "note": "FALSE of the code as stated: a failing Kotlin delete throws KeyNotFoundException instead of the declared NativeException (jni/mod.rs:402), C54_declared_exceptions_refuted. Proved for every other call in every world, and that delete throws nothing in ordinary histories."
  },
  {
   "property": "C55",
   "status": "partial",
   "theorems": [
    "C55_kotlin_text_partial",
    "C55_kotlin_text_refuted",
    "C55_swift_keys_partial",
    "C55_swift_text_partial",
    "C55_swift_text_refuted"
   ],
   "note": "FALSE of the code as stated: unpaired surrogates (Kotlin) and zero characters (Swift) do not survive, C55_kotlin_text_refuted, C55_swift_text_refuted. Proved for all well-formed Kotlin strings and all Swift strings without zero characters, keys included."
  },
  {
   "property": "C56",
   "status": "proved",
   "theorems": [
    "C56_calls_return",
    "C56_every_call_completes"
   ],
   "note": "Concurrent model of put, get, delete and clear_data with the background thread: bounded number of remaining steps and no deadlock, under every schedule."
  },
  {
   "property": "C57",
   "status": "proved",
   "theorems": [
    "C57_kill_in_clear_before_removal",
    "C57_kill_in_clear_after_removal",
    "C57_clear_ends"
   ],
   "note": "Kill points are the boundaries of the file system effects of clear_data (C57_clear_ends shows the call ends in the last of them); a kill inside one of the background writes it waits for is C22/C23's subject."
  },
  {
   "property": "C58",
   "status": "partial",
   "theorems": [
    "C58_reading_is_harmless_partial",
    "C58_wrong_key_refuted"
   ],
   "note": "FALSE of the code as stated: C58_wrong_key_refuted (a compaction under the wrong key keeps only what that key can read, so the owner's records are destroyed). C58_reading_is_harmless_partial: sessions that only open, read and close do no damage, whatever the key."
  },
  {
   "property": "C59",
   "status": "partial",
   "theorems": [
    "C59_key_syntax",
    "C59_same_key",
    "C59_bad_key_refuted",
    "C59_bad_key_partial"
   ],
   "note": "FALSE of the code as stated: the key is not looked at when the directory is already open, so a malformed key is then accepted (C59_bad_key_refuted). Proved: which texts are keys and which denote the same key (complete), and that with no open handle of the directory the open panics and no byte of any store changes."
  },
  {
   "property": "C60",
   "status": "proved",
   "theorems": [
    "C60_full_refines",
    "C60_full_linearizable",
    "C60_full_one_store_per_directory",
    "C60_full_no_panic",
    "C60_full_calls_return",
    "C60_full_every_call_completes",
    "C60_one_store_per_path",
    "C60_linearizable",
    "C60_one_store_per_directory",
    "C60_calls_return",
    "C60_every_call_completes",
    "C60_apart_needed"
   ],
   "note": "Linearizability for all histories in which a directory is not opened while its last handle is being dropped (C60_apart_needed shows the condition cannot be dropped: C26's race); one store per path and termination/no deadlock without any condition. Proved in Reg.v (calls on stores in one step) and, by C60_full_refines, in Full.v, where every step of every call on every store is interleaved."
  },
  {
   "property": "C61",
   "status": "partial",
   "theorems": [
    "C61_logging_is_only_observation",
    "C61_quiet_levels",
    "C61_a_failing_line_in_a_write_partial",
    "C61_open_without_a_log_thread",
    "C61_clear_without_a_log_thread",
    "C61_drop_without_a_log_thread",
    "C61_logging_loses_data_refuted",
    "C61_a_thread_left_behind"
   ],
   "note": "FALSE of the code as stated for failing loggers: C61_logging_loses_data_refuted (a failing line inside a compaction loses a persisted key), C61_a_thread_left_behind (inside clear_data), C61_open_without_a_log_thread (opening aborts or poisons). Proved: logging that works is pure observation for every history from every settled state; failing Error/Warn lines are never noticed in ordinary histories; whatever lines fail during a background write, the file can be opened again and holds the old contents or a part of the new ones, and no other store is touched."
  },
  {
   "property": "C62",
   "status": "proved",
   "theorems": [
    "C62_kill_among_concurrent_calls",
    "C62_idle_loses_nothing",
    "C62_kill_while_clear_reopens",
    "C62_kill_inside_a_job",
    "C62_full_kill_anywhere",
    "C62_full_idle_loses_nothing",
    "C62_full_kill_while_files_are_made",
    "C62_full_kill_inside_a_job"
   ],
   "note": "For a kill between two background jobs, at any point of any concurrent execution: of any number of stores with handles opened, cloned and dropped at the same time (Full.v: C62_full_kill_anywhere, C62_full_idle_loses_nothing, C62_full_kill_while_files_are_made; hypothesis apart as in C60: no opening of a directory while its last handle is being dropped), and of one store (Conc.v: C62_kill_among_concurrent_calls, C62_idle_loses_nothing, C62_kill_while_clear_reopens). A kill inside a job is shown equal, file for file, to the same kill in a sequential history (C62_kill_inside_a_job, C62_full_kill_inside_a_job), so C22-C24 and their findings apply unchanged."
  },
  {
   "property": "C63",
   "status": "partial",
   "theorems": [
    "C63_c_lines_leave_nothing",
    "C63_java_lines_refuted",
    "C63_java_lines_partial"
   ],
   "note": "FALSE of the code as stated on Android: AndroidLogger::call_java makes two local references per line on a permanently attached thread and never deletes them (C63_java_lines_refuted: no table is large enough; C63_java_lines_partial: exactly what is delivered and held). True for the C and Swift side (C63_c_lines_leave_nothing)."
  },
  {
   "property": "C64",
   "status": "partial",
   "theorems": [
    "C64_no_competing_write_refuted",
    "C64_open_during_append_panics",
    "C64_one_process_at_a_time_partial"
   ],
   "note": "FALSE of the code as stated: C64_no_competing_write_refuted (both builds: writes that never overlap are lost), C64_open_during_append_panics (a mere reader, plain build). Proved instead: with the directory open in one process at a time all answers are those of one process (C64_one_process_at_a_time_partial); with readers: C65."
  },
  {
   "property": "C65",
   "status": "proved",
   "theorems": [
    "C65_processes_taking_turns",
    "C65_guests_do_not_disturb"
   ],
   "note": "All histories that keep to the discipline turns (Procs.v), against the specification with versions (vrun). Deaths between background writes (inside one: C22, C23). C65_guests_do_not_disturb: without the guests' calls the answers are those of one process."
  },
  {
   "property": "C66",
   "status": "partial",
   "theorems": [
    "C66_full_disk_refuted",
    "C66_append_on_full_disk_partial",
    "C66_compaction_on_full_disk_partial",
    "C66_reading_goes_on_partial"
   ],
   "note": "FALSE of the code as stated (C66_full_disk_refuted): compaction empties the file before it grows it again, and when growing fails the entries not yet rewritten are gone. Proved: a failing append loses nothing that was stored; after a failing compaction every value that is read is one that was there; reading through open handles goes on as before and writes report IOError."
  },
  {
   "property": "C67",
   "status": "proved",
   "theorems": [
    "C67_no_undefined_behaviour",
    "C67_results_own_their_data",
    "C67_fresh_results",
    "C67_nothing_leaks",
    "C67_linearizable",
    "C67_no_other_abort",
    "C67_bad_text_aborts",
    "C67_calls_can_be_made",
    "C67_every_call_completes"
   ],
   "note": "Every step of the store, its locks and threads interleaved (Full.v); making a result (allocations) and freeing one is one step each. Linearizability, no-abort and progress for ordinary histories in which no directory is opened while its last handle is being closed (C26)."
  },
  {
   "property": "C68",
   "status": "partial",
   "theorems": [
    "C68_kept_objects_partial",
    "C68_no_panic_partial",
    "C68_program_completes_partial",
    "C68_collector_refuted"
   ],
   "note": "FALSE of the code as stated (C68_collector_refuted): a value put through an object that the program lets go of is not found through a new object of the same directory while the finalizer thread is between unregistering the old store and joining its background thread. Proved for every program that, when it opens a directory again, still has an object of it (the condition keeps): right answers, no panic, completion. One program thread; several are C60."
  },
  {
   "property": "C69",
   "status": "proved",
   "theorems": [
    "C69_a_new_get_does_not_wait",
    "C69_gets_do_not_wait_for_each_other"
   ],
   "note": "One open store. The model lets a get in when no exclusive call holds the lock; std's RwLock may also make a get wait for a put that is itself waiting, which the hypothesis (no put in progress) excludes."
  },
  {
   "property": "C70",
   "status": "proved",
   "theorems": [
    "C70_nobody_waits_for_the_files"
   ],
   "note": "One open store; the steps of the lock, of the queue's mutex and of the channel are modelled, system calls inside them are not."
  },
  {
   "property": "C71",
   "status": "partial",
   "theorems": [
    "C71_get_never_crashes_refuted",
    "C71_these_types_never_crash_partial",
    "C71_exactly_short_values_crash_partial"
   ],
   "note": "FALSE of the code as stated (C71_get_never_crashes_refuted): a record with a correct checksum whose type says i32 (i64, f32, f64, bool) and whose value has fewer bytes makes get panic. Proved: exactly those gets panic; all other types never do; a panicking get changes nothing."
  },
  {
   "property": "C72",
   "status": "proved",
   "theorems": [
    "C72_every_call_returns_the_page_size",
    "C72_no_call_waits",
    "C72_the_system_is_asked_once_per_thread"
   ],
   "note": "A model of its own for page_size; that sysconf always gives the same answer is assumed."
  },
  {
   "property": "C73",
   "status": "partial",
   "theorems": [
    "C73_values_read_are_logged",
    "C73_writing_shows_no_value_partial",
    "C73_texts_are_not_logged_partial",
    "C73_below_verbose_partial",
    "C73_kotlin_shows_no_value_partial",
    "C73_values_in_the_log_refuted"
   ],
   "note": "FALSE of the code as stated (C73_values_in_the_log_refuted; C73_values_read_are_logged: every number, boolean and array read through C is in a Verbose line). Proved: writing shows no value, reading a text shows only its key and addresses, the JNI functions show no value, and below Verbose whole programs that differ only in values put have equal logs. Lines of the C and JNI layers; the store's own lines have no text in the model."
  },
  {
   "property": "C74",
   "status": "partial",
   "theorems": [
    "C74_one_line_per_call_partial",
    "C74_printed_lines_can_be_read",
    "C74_form_of_a_line",
    "C74_plain_keys_partial",
    "C74_forged_lines",
    "C74_every_line_is_a_log_call_refuted"
   ],
   "note": "FALSE of the code as stated (C74_every_line_is_a_log_call_refuted; C74_forged_lines: a put under a key with line ends prints any line wished). Proved: without line ends in keys the printed log is one line per call, and a line can be read back to its stamp, level and text."
  },
  {
   "property": "C75",
   "status": "proved",
   "theorems": [
    "C75_closed_store_survives",
    "C75_all_closed_nothing_lost"
   ],
   "note": "Power.v models what sync_all/msync force to disk; any block size and any choice of the disk. Names are taken to be durable."
  },
  {
   "property": "C76",
   "status": "partial",
   "theorems": [
    "C76_closed_store_survives_partial",
    "C76_nonce_file_may_be_lost",
    "C76_closed_store_survives_refuted"
   ],
   "note": "FALSE of the code as stated (C76_closed_store_survives_refuted): the nonce file is never synced and may be lost (C76_nonce_file_may_be_lost). Proved: when the nonce file survives, so does everything."
  },
  {
   "property": "C77",
   "status": "partial",
   "theorems": [
    "C77_no_background_work_partial",
    "C77_idle_store_unopenable",
    "C77_open_store_survives_refuted"
   ],
   "note": "FALSE of the code as stated (C77_open_store_survives_refuted, C77_idle_store_unopenable): content length and record may reach the disk in any order. Proved: a store without background work since it was last closed survives."
  },
  {
   "property": "C78",
   "status": "proved",
   "theorems": [
    "C78_failures_are_logged",
    "C78_other_calls_log_no_error",
    "C78_the_log_of_failures",
    "C78_kotlin"
   ],
   "note": "The submission of the lines; that a submitted line reaches the logger is C60."
  },
  {
   "property": "C79",
   "status": "partial",
   "theorems": [
    "C79_ordinary_process_goes_on_partial",
    "C79_live_maps_flush",
    "C79_which_files_end_the_process",
    "C79_short_file_ends_the_process",
    "C79_damage_behind_the_length_partial",
    "C79_after_a_kill_partial",
    "C79_large_values_end_the_process",
    "C79_large_value_refuted",
    "C79_length_fits_after_a_power_failure",
    "C79_after_a_power_failure_partial",
    "C79_large_values_end_the_process_at_close"
   ],
   "note": "FALSE of the code as stated (C79_large_value_refuted, C79_short_file_ends_the_process): the map's destructor panics during unwinding, and the shipped profile aborts. Proved: exactly which puts end the process, in the background or waiting when the last handle is dropped or the store is cleared; ordinary histories never do; exactly which files do at an open; damage behind the length word, kills of background writes and power failures at any moment do not (with unwinding, blocks of at least 8 bytes)."
  },
  {
   "property": "C80",
   "status": "proved",
   "theorems": [
    "C80_files_are_left_alone",
    "C80_other_stores_survive",
    "C80_when_the_process_is_gone"
   ],
   "note": "Files as the processes see them; a power failure is C75-C77."
  },
  {
   "property": "C81",
   "status": "proved",
   "theorems": [
    "C81_a_copy_is_a_store",
    "C81_copies_of_idle_directories"
   ],
   "note": "Any number of copies of idle directories in one history; a copy with work pending lacks exactly the pending changes. Copies taken between two background jobs (inside one: C22, C23)."
  },
  {
   "property": "C82",
   "status": "proved",
   "theorems": [
    "C82_atomic_also_when_calls_fail",
    "C82_lost_is_lost_for_all_threads"
   ],
   "note": "Any world, any values and failures; clear_data is not among the calls (see C19, C30). The example has a put that is told IOError because its own record killed the background thread, and whose value is in memory all the same."
  },
  {
   "property": "C83",
   "status": "partial",
   "theorems": [
    "C83_other_build_finds_empty_stores_partial",
    "C83_reading_with_the_other_build_is_harmless_partial",
    "C83_adding_with_the_other_build_refuted",
    "C83_other_build_always_empty_refuted",
    "C83_clearing_with_the_plain_build_refuted"
   ],
   "note": "FALSE of the code as stated: a session of the other build that adds entries compacts the owner's records away once a page is full (C83_adding_with_the_other_build_refuted), a record of one build may by accident be one of the other (C83_other_build_always_empty_refuted), and clear_data by a plain build leaves the nonce file, so that nonces are used again (C83_clearing_with_the_plain_build_refuted). Proved for all histories: if no record passes for one of the other build (checksum or tag right by accident), every directory is an ordinary empty store to it, whatever is done then; reading sessions of the other build change no data file, and the original build goes on from everything persisted."
  },
  {
   "property": "C84",
   "status": "partial",
   "theorems": [
    "C84_refused_clears_do_nothing_and_answer_ok_partial",
    "C84_ok_means_gone_refuted",
    "C84_cleared_store_gets_a_new_nonce_refuted",
    "C84_every_refusal_partial"
   ],
   "note": "FALSE of the code as stated: clear_data throws the errors of unlink away and answers Ok with every entry still there (C84_ok_means_gone_refuted), and if only the nonce file cannot be removed the same key and nonce are used again (C84_cleared_store_gets_a_new_nonce_refuted). Proved: in every history with refused removals (data file, nonce file or both, both builds) all calls answer as maps for which a clear_data whose data file was refused did nothing; if an encrypted store's data file was refused but its nonce was removed it answers as emptied although the old records stay on disk (C84_every_refusal_partial; for that case the cipher must reject the old records under the new nonce)."
  },
  {
   "property": "C85",
   "status": "partial",
   "theorems": [
    "C85_clear_in_a_read_only_directory_partial",
    "C85_store_stays_usable_refuted"
   ],
   "note": "FALSE of the code as stated: clear_data panics while it holds the lock and every later call on the store answers LockError (C85_store_stays_usable_refuted). Proved for all histories: that is all that happens; calls of any kind on the other stores go on answering as if nothing had happened, and no entry is lost for the next process, pending writes included."
  },
  {
   "property": "C86",
   "status": "partial",
   "theorems": [
    "C86_nothing_stays_without_a_handle_partial",
    "C86_one_thread_per_open_directory_partial",
    "C86_closing_clears_the_table_partial",
    "C86_table_is_empty_after_closing_refuted"
   ],
   "note": "FALSE of the code as stated in one point: when the last two handles are dropped at the same time each drop sees the other's reference and the entry stays in INSTANCE_MAP (C86_table_is_empty_after_closing_refuted; harmless until the next open of the path, which replaces it). Proved: threads, open files and maps exist only for stores with a handle in every history whatever fails; in ordinary histories there is exactly one thread per directory with handles and the open file is the one the directory has; without overlapping drops and failed opens the table is emptied as well."
  },
  {
   "property": "C87",
   "status": "partial",
   "theorems": [
    "C87_every_line_in_order",
    "C87_no_deadlock",
    "C87_modest_loggers_partial",
    "C87_c_loggers_partial",
    "C87_chatty_logger_refuted",
    "C87_answering_logger_partial"
   ],
   "note": "FALSE of the code as stated: a logger that answers every line with a call that writes a line keeps the log thread busy for ever (C87_chatty_logger_refuted; C87_answering_logger_partial: for every such logger, and with two lines per call what is waiting grows with every line). Proved for all loggers: no deadlock, every request carried out once and in order, lines by the logger installed then; and if each request has a finite weight greater than that of the requests it causes (C-interface loggers: C87_c_loggers_partial), the thread comes to rest."
  },
  {
   "property": "C88",
   "status": "partial",
   "theorems": [
    "C88_page_sizes_do_not_matter_partial",
    "C88_a_kill_and_other_page_sizes_partial",
    "C88_small_entries_partial",
    "C88_kills_and_page_sizes_partial"
   ],
   "note": "Proved: whatever the page sizes of the processes, larger or smaller, every process answers as if the maps had gone on, through any number of moves, if at each move what the stores hold fits in a page of the new size; with larger pages, or entries that fit in the smallest page, that is always so (C88_small_entries_partial), and then any of the processes may be killed between background jobs (C88_kills_and_page_sizes_partial). Missing: entries longer than a page of the new size (C88_large_entry_example runs one through a rewrite and a delete)."
  }
 ]
}