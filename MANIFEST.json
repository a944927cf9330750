{
 "claims": [
  {
   "property": "C01",
   "status": "proved",
   "theorems": [
    "C01_linearizable",
    "C01_fifo",
    "C01_result"
   ],
   "note": "Every mutex, condition variable and container step of every operation is a step of the model."
  },
  {
   "property": "C02",
   "status": "proved",
   "theorems": [
    "C02_no_undefined_behaviour",
    "C02_mutual_exclusion",
    "C02_no_lost_wakeup",
    "C02_bounded",
    "C02_quiescent",
    "C02_detected"
   ],
   "note": "No lost wake-up is an invariant plus a bound on the number of internal steps; infinite executions under a fair scheduler are C131, with the queue as an atomic FIFO."
  },
  {
   "property": "C03",
   "status": "proved",
   "theorems": [
    "C03_in_order",
    "C03_one_at_a_time",
    "C03_client_order",
    "C03_throwing",
    "C03_bounded",
    "C03_all_executed"
   ],
   "note": "The background thread, the clients and every step inside the queue are modelled. A callback passed to send that throws ends the process; the claims hold up to then."
  },
  {
   "property": "C04",
   "status": "proved",
   "theorems": [
    "C04_drains",
    "C04_drains_clients",
    "C04_nothing_after",
    "C04_ended",
    "C04_returns"
   ],
   "note": "Callbacks that throw end the process; sends that are under way when the destructor returns touch freed memory in C++ and are outside the claim."
  },
  {
   "property": "C05",
   "status": "proved",
   "theorems": [
    "C05_received",
    "C05_once",
    "C05_all",
    "C05_grows",
    "C05_registered"
   ],
   "note": "The worker's requests and the sinks' callbacks are atomic steps here; that Active hands them over in order, once each, is C01-C04."
  },
  {
   "property": "C06",
   "status": "proved",
   "theorems": [
    "C06_program_order"
   ],
   "note": "A message is (thread, number of the log call in that thread)."
  },
  {
   "property": "C07",
   "status": "proved",
   "theorems": [
    "C07_common_order"
   ],
   "note": ""
  },
  {
   "property": "C08",
   "status": "partial",
   "theorems": [
    "C08_unregistered",
    "C08_destroyed_partial",
    "C08_destroyed_refuted"
   ],
   "note": "False of the code in one corner (C08_destroyed_refuted): a client gives up its pointer while the worker has locked the sink for a second, concurrent removeSink of the same sink. Proved: not registered (C08_unregistered), and everything else if in addition nobody is just destroying or removing that sink."
  },
  {
   "property": "C09",
   "status": "partial",
   "theorems": [
    "C09_worker_ended",
    "C09_flush_partial",
    "C09_flush_refuted"
   ],
   "note": "False of the code for sinks that a client also holds (C09_flush_refuted): their messages are queued, not yet received. Proved for all other sinks, with the end of the worker thread."
  },
  {
   "property": "C10",
   "status": "proved",
   "theorems": [
    "C10_no_use_after_destruction",
    "C10_ended",
    "C10_destroyed_once",
    "C10_own_thread",
    "C10_one_at_a_time",
    "C10_detected"
   ],
   "note": ""
  },
  {
   "property": "C11",
   "status": "proved",
   "theorems": [
    "C11_gone",
    "C11_destroyed_is_gone",
    "C11_accepted",
    "C11_queued",
    "C11_outcome",
    "C11_once",
    "C11_not_lost",
    "C11_throws",
    "C11_eventually"
   ],
   "note": "Executions on a sink that is still alive; that pending calls come to an end is C12_bounded with C11_eventually."
  },
  {
   "property": "C12",
   "status": "proved",
   "theorems": [
    "C12_bounded",
    "C12_released",
    "C12_drains"
   ],
   "note": "Callers are ordinary threads. A receive function that throws ends the process (std::terminate)."
  },
  {
   "property": "C13",
   "status": "partial",
   "theorems": [
    "C13_flush_partial",
    "C13_sent_partial",
    "C13_flush_refuted"
   ],
   "note": "False of the code for sinks that a client also holds (C13_flush_refuted). Proved for all other sinks; a sink that is held has all of it in its queue (C13_sent_partial)."
  },
  {
   "property": "C14",
   "status": "partial",
   "theorems": [
    "C14_flush_refuted",
    "C14_sent_partial"
   ],
   "note": "False of the code (C14_flush_refuted): the second fatal call finds no active logger and ends the process. Proved: everything before the first fatal message has been sent to the sinks' queues."
  },
  {
   "property": "C15",
   "status": "partial",
   "theorems": [
    "C15_safe_refuted",
    "C15_only_then_partial",
    "C15_calm_partial"
   ],
   "note": "False of the code (C15_safe_refuted): the pointer is checked and used in two steps. Proved: only then, and never without fatal events and shut down."
  },
  {
   "property": "C16",
   "status": "proved",
   "theorems": [
    "C16_at_most_once",
    "C16_one_outcome",
    "C16_null",
    "C16_completes",
    "C16_completes_dtor"
   ],
   "note": "A task queued behind the shutdown request is destroyed unexecuted: its future reports broken_promise."
  },
  {
   "property": "C17",
   "status": "proved",
   "theorems": [
    "C17_one_owner",
    "C17_all_freed",
    "C17_last_has_it",
    "C17_assigned",
    "C17_handed_once",
    "C17_freed_once",
    "C17_end"
   ],
   "note": "unique_ptr cells; the steps inside the queue are atomic here (C01). Which of copy, move or nothing happens at each hand-over is arbitrary."
  },
  {
   "property": "C18",
   "status": "proved",
   "theorems": [
    "C18_unchanged",
    "C18_complete",
    "C18_own_copy",
    "C18_edit",
    "C18_fatal_text"
   ],
   "note": "std::string owns its characters; the sinks stay registered (registration is C05-C08). Messages are those that constructors and writers can build."
  },
  {
   "property": "C19",
   "status": "partial",
   "theorems": [
    "C19_first_message_partial",
    "C19_at_most_once",
    "C19_as_documented_partial",
    "C19_refuted"
   ],
   "note": "False of the code for the first message lost after a shut-down (C19_refuted). Proved: exactly the first message logged before the first initialization is delivered, once; this is the documented behaviour if there was one."
  },
  {
   "property": "C20",
   "status": "partial",
   "theorems": [
    "C20_active_is_the_one_in_service",
    "C20_initialize_partial",
    "C20_refuted"
   ],
   "note": "False of the code if a static object owns a LogWorker: std::exit is called with the mutex held and hangs (C20_refuted). Proved: exactly when the exit hangs, that otherwise the process exits with failure, and that the active logger is never replaced."
  },
  {
   "property": "C21",
   "status": "proved",
   "theorems": [
    "C21_destroying_inactive"
   ],
   "note": "API calls are atomic steps of the model; races inside calls are the subject of C15."
  },
  {
   "property": "C22",
   "status": "proved",
   "theorems": [
    "C22_deliveries",
    "C22_only_in_service"
   ],
   "note": "API calls are atomic steps of the model; races inside calls are the subject of C15."
  },
  {
   "property": "C23",
   "status": "proved",
   "theorems": [
    "C23_at_most_once",
    "C23_hook_before_message"
   ],
   "note": "For any nesting in one thread; several threads: C75."
  },
  {
   "property": "C24",
   "status": "partial",
   "theorems": [
    "C24_warning_exactly_partial",
    "C24_nested_partial",
    "C24_refuted",
    "C24_refuted_stale_trace"
   ],
   "note": "False of the code: it also warns after successive, not nested, fatal events (C24_refuted), and can quote the stack trace of an old event (C24_refuted_stale_trace). The exact condition is proved, and that nested events are warned about."
  },
  {
   "property": "C25",
   "status": "partial",
   "theorems": [
    "C25_refuted",
    "C25_with_hook_partial",
    "C25_client_hook_partial",
    "C25_stderr_text_partial"
   ],
   "note": "False of the code: the hook is empty before the first initialization, so std::bad_function_call ends the process and nothing is written (C25_refuted). Proved when a hook is in place: the one that does nothing, or one of the client that logs and returns."
  },
  {
   "property": "C26",
   "status": "proved",
   "theorems": [
    "C26_hand_over",
    "C26_not_otherwise"
   ],
   "note": "The step of the hand-over, in every reachable state, and that no other step hands over anything."
  },
  {
   "property": "C27",
   "status": "proved",
   "theorems": [
    "C27_fatal_iff_value_at_least_FATAL",
    "C27_standard_and_internal_levels",
    "C27_values_and_names",
    "C27_name_is_irrelevant"
   ],
   "note": ""
  },
  {
   "property": "C28",
   "status": "proved",
   "theorems": [
    "C28_log_iff_last_setting_enabled",
    "C28_refuted"
   ],
   "note": "Proved for LOG calls at registered levels; C28_refuted shows the hypothesis is needed (a LOG at an unregistered level inserts a table entry with INFO's value)."
  },
  {
   "property": "C29",
   "status": "proved",
   "theorems": [
    "C29_setHighest_splits",
    "C29_refuted"
   ],
   "note": "As C28; C29_refuted is the witness without the hypothesis."
  },
  {
   "property": "C30",
   "status": "proved",
   "theorems": [
    "C30_set_frame",
    "C30_enable_disable_are_set",
    "C30_all_only_changes_status",
    "C30_add_frame",
    "C30_reset_restores_defaults",
    "C30_names_follow_last_naming"
   ],
   "note": ""
  },
  {
   "property": "C31",
   "status": "partial",
   "theorems": [
    "C31_registered_query_is_pure",
    "C31_unregistered_query_registers",
    "C31_refuted"
   ],
   "note": "False of the code as stated (C31_refuted: operator[] registers the level). Proved: pure at registered levels, and the exact effect at unregistered ones."
  },
  {
   "property": "C32",
   "status": "proved",
   "theorems": [
    "C32_one_line_per_level_ascending",
    "C32_getAll",
    "C32_listing_determines_table"
   ],
   "note": ""
  },
  {
   "property": "C33",
   "status": "proved",
   "theorems": [
    "C33_macros_do_what_is_documented",
    "C33_after_history",
    "C33_emits_iff",
    "C33_at_most_once",
    "C33_under_if",
    "C33_under_while",
    "C33_safe_in_every_context"
   ],
   "note": ""
  },
  {
   "property": "C34",
   "status": "proved",
   "theorems": [
    "C34_fraction_digits_exact"
   ],
   "note": ""
  },
  {
   "property": "C35",
   "status": "partial",
   "theorems": [
    "C35_refuted",
    "C35_before_the_epoch_exactly",
    "C35_at_or_after_the_epoch_partial"
   ],
   "note": "False of the code before the epoch (C35_refuted). C35_before_the_epoch_exactly gives the outcome for every earlier time, C35_at_or_after_the_epoch_partial the positive half."
  },
  {
   "property": "C36",
   "status": "proved",
   "theorems": [
    "C36_substitution_is_one_pass",
    "C36_text_without_placeholder_is_kept"
   ],
   "note": ""
  },
  {
   "property": "C37",
   "status": "proved",
   "theorems": [
    "C37_default_timestamp_shape",
    "C37_text_order_is_time_order",
    "C37_text_order_of_two_stamps"
   ],
   "note": ""
  },
  {
   "property": "C38",
   "status": "proved",
   "theorems": [
    "C38_order_is_kept",
    "C38_distance_within_one_tick",
    "C38_exact_when_clocks_tick_alike"
   ],
   "note": ""
  },
  {
   "property": "C39",
   "status": "proved",
   "theorems": [
    "C39_short_name_is_last_component",
    "C39_message_file_names"
   ],
   "note": ""
  },
  {
   "property": "C40",
   "status": "proved",
   "theorems": [
    "C40_normal_entry",
    "C40_entry_can_be_read_back",
    "C40_timestamp_available"
   ],
   "note": ""
  },
  {
   "property": "C41",
   "status": "proved",
   "theorems": [
    "C41_layout_by_level_value",
    "C41_text_is_complete",
    "C41_fatal_layouts_are_marked"
   ],
   "note": ""
  },
  {
   "property": "C42",
   "status": "partial",
   "theorems": [
    "C42_toString_with_formatter_partial",
    "C42_full_details",
    "C42_override_has_no_effect_on_toString",
    "C42_refuted",
    "C42_override_seen_by_static_helper"
   ],
   "note": "False of the code as stated (C42_refuted: overrideLogDetailsFunc does not affect toString() called without argument). Proved: toString(f) uses f; exactly where the override is visible."
  },
  {
   "property": "C43",
   "status": "partial",
   "theorems": [
    "C43_copy_and_move_preserve",
    "C43_refuted",
    "C43_assignment_keeps_the_rest_partial"
   ],
   "note": "False of the code for assignment (C43_refuted: swap leaves out the full file path). Copy and move construction are proved; C43_assignment_keeps_the_rest_partial says what assignment does keep."
  },
  {
   "property": "C44",
   "status": "proved",
   "theorems": [
    "C44_line_reads_back",
    "C44_lines_differ"
   ],
   "note": ""
  },
  {
   "property": "C45",
   "status": "proved",
   "theorems": [
    "C45_fitting_message_verbatim",
    "C45_configured_size"
   ],
   "note": ""
  },
  {
   "property": "C46",
   "status": "partial",
   "theorems": [
    "C46_boundary_length",
    "C46_refuted",
    "C46_cut_is_announced_partial",
    "C46_two_kilobytes_partial",
    "C46_bounded"
   ],
   "note": "False of the code at exactly one length (C46_refuted: text of length max loses its last character silently). Proved for all other lengths, and the bound for all; C46_two_kilobytes_partial says it with the documented default of 2 KB."
  },
  {
   "property": "C47",
   "status": "partial",
   "theorems": [
    "C47_refuted",
    "C47_text_arrives_partial",
    "C47_text_up_to_first_nul"
   ],
   "note": "False of the code for texts with NUL bytes (C47_refuted). C47_text_up_to_first_nul is the exact behaviour, C47_text_arrives_partial the NUL-free case."
  },
  {
   "property": "C48",
   "status": "proved",
   "theorems": [
    "C48_failure_is_reported",
    "C48_overlong_is_a_failure",
    "C48_entry_is_still_emitted"
   ],
   "note": ""
  },
  {
   "property": "C49",
   "status": "proved",
   "theorems": [
    "C49_message_carries_its_statement",
    "C49_accessors",
    "C49_contract_message"
   ],
   "note": ""
  },
  {
   "property": "C50",
   "status": "proved",
   "theorems": [
    "C50_sanitised_prefix",
    "C50_sink_refuses_or_is_safe"
   ],
   "note": "For prefixes shorter than npos = 2^64-1 (any string that can exist)."
  },
  {
   "property": "C51",
   "status": "partial",
   "theorems": [
    "C51_refuted",
    "C51_inside_the_directory_partial",
    "C51_exactly_partial"
   ],
   "note": "False of the code (C51_refuted: root directory, directory ending in a blank, backslashes, logger id with a slash). Proved for all other directories and slash-free ids; C51_exactly_partial: for a name without slashes exactly these directories work."
  },
  {
   "property": "C52",
   "status": "proved",
   "theorems": [
    "C52_name_layout",
    "C52_name_can_be_read_back",
    "C52_different_seconds_different_names"
   ],
   "note": ""
  },
  {
   "property": "C53",
   "status": "proved",
   "theorems": [
    "C53_file_after_shutdown"
   ],
   "note": ""
  },
  {
   "property": "C54",
   "status": "proved",
   "theorems": [
    "C54_file_between_calls",
    "C54_crash_while_receiving"
   ],
   "note": ""
  },
  {
   "property": "C55",
   "status": "proved",
   "theorems": [
    "C55_messages_across_files",
    "C55_all_messages_after_shutdown",
    "C55_failed_change_keeps_the_file"
   ],
   "note": ""
  },
  {
   "property": "C56",
   "status": "partial",
   "theorems": [
    "C56_refuted",
    "C56_later_files_start_with_the_change_notice_partial",
    "C56_only_file_starts_with_the_header_partial",
    "C56_default_text"
   ],
   "note": "False of the code (C56_refuted: after a change the header is written to the old file). Proved: what each file does start with."
  },
  {
   "property": "C57",
   "status": "partial",
   "theorems": [
    "C57_refuted",
    "C57_files_only_grow_partial",
    "C57_same_file_partial"
   ],
   "note": "False of the code (C57_refuted: a change within the second of the creation reopens and empties the same file). Proved for changes that open files not used before; C57_same_file_partial says exactly what is left of a file opened again."
  },
  {
   "property": "C58",
   "status": "partial",
   "theorems": [
    "C58_refuted",
    "C58_all_other_sinks_are_usable_partial"
   ],
   "note": "False of the code (C58_refuted: flush interval 0; both opens fail in a release build). All other configurations proved free of undefined behaviour for every call sequence."
  },
  {
   "property": "C59",
   "status": "proved",
   "theorems": [
    "C59_fallback",
    "C59_reported_file_is_the_open_one_at_start",
    "C59_reported_file_stays_the_open_one"
   ],
   "note": ""
  },
  {
   "property": "C60",
   "status": "proved",
   "theorems": [
    "C60_override_touches_nothing_else",
    "C60_overrides_take_effect_from_then_on",
    "C60_text_is_unaffected"
   ],
   "note": ""
  },
  {
   "property": "C61",
   "status": "proved",
   "theorems": [
    "C61_table",
    "C61_override",
    "C61_restore",
    "C61_originals",
    "C61_disabled"
   ],
   "note": "For sequences in which no signal is installed twice (C62 is the excluded case) and clients leave g3log's signals alone."
  },
  {
   "property": "C62",
   "status": "partial",
   "theorems": [
    "C62_refuted",
    "C62_refuted_by_early_override",
    "C62_harm_partial"
   ],
   "note": "False of the code (C62_refuted; C62_refuted_by_early_override: overrideSetupSignals before initializeLogging makes a later fatal signal hang the process). C62_harm_partial: exactly which signals are affected."
  },
  {
   "property": "C63",
   "status": "partial",
   "theorems": [
    "C63_ending_partial",
    "C63_refuted"
   ],
   "note": "False of the code inside the handler of a signal while logging is not initialized (C63_refuted: exit code instead of death by signal). Proved otherwise."
  },
  {
   "property": "C64",
   "status": "proved",
   "theorems": [
    "C64_one_fatal",
    "C64_released"
   ],
   "note": "For fewer than 2^64-1 signals."
  },
  {
   "property": "C65",
   "status": "proved",
   "theorems": [
    "C65_five",
    "C65_others",
    "C65_injective"
   ],
   "note": ""
  },
  {
   "property": "C66",
   "status": "proved",
   "theorems": [
    "C66_lines",
    "C66_one_line_each",
    "C66_given_dump",
    "C66_no_symbols",
    "C66_empty_dump"
   ],
   "note": "For frame texts that do not make the code throw (C67)."
  },
  {
   "property": "C67",
   "status": "partial",
   "theorems": [
    "C67_refuted",
    "C67_throws_iff_partial"
   ],
   "note": "False of the code (C67_refuted). C67_throws_iff_partial is the exact condition."
  },
  {
   "property": "C68",
   "status": "proved",
   "theorems": [
    "C68_fatal_message"
   ],
   "note": "For texts without NUL characters."
  },
  {
   "property": "C69",
   "status": "partial",
   "theorems": [
    "C69_refuted",
    "C69_registered_custom_fatal_is_logged_partial"
   ],
   "note": "False of the code (C69_refuted: unregistered levels are disabled). Proved for registered levels."
  },
  {
   "property": "C70",
   "status": "partial",
   "theorems": [
    "C70_refuted",
    "C70_check_passes_iff_one"
   ],
   "note": "False of the code (C70_refuted: CHECK(2) fires). C70_check_passes_iff_one is the exact behaviour for every integer."
  },
  {
   "property": "C71",
   "status": "partial",
   "theorems": [
    "C71_refuted",
    "C71_int_sizes_are_honoured_partial",
    "C71_other_sizes_partial",
    "C71_statement_partial"
   ],
   "note": "False of the code (C71_refuted: sizes beyond INT_MAX are converted to int). Proved for all sizes within int. C71_statement_partial carries the three cases (a text that fits, a size that became negative, size 0) through a whole LOGF statement."
  },
  {
   "property": "C72",
   "status": "partial",
   "theorems": [
    "C72_refuted",
    "C72_change_leads_into_the_directory_partial",
    "C72_exactly_partial"
   ],
   "note": "False of the code (C72_refuted: the directory is used as a text prefix). Proved: the file lies inside exactly for directories that end in a slash and for the empty one."
  },
  {
   "property": "C73",
   "status": "partial",
   "theorems": [
    "C73_refuted",
    "C73_gets_through_partial"
   ],
   "note": "False of the code (C73_refuted: a second signal in the same thread before the hand-over blocks everything for ever). Proved for signals that do not nest."
  },
  {
   "property": "C74",
   "status": "partial",
   "theorems": [
    "C74_count_partial",
    "C74_null",
    "C74_refuted",
    "C74_failed_partial"
   ],
   "note": "False of the code if write() fails (C74_refuted: 2^64-1, exactly then: C74_failed_partial). Proved for every successful write."
  },
  {
   "property": "C75",
   "status": "partial",
   "theorems": [
    "C75_refuted",
    "C75_bound_partial",
    "C75_apart_partial",
    "C75_threads_partial"
   ],
   "note": "False of the code (C75_refuted). Proved: for each setting no more runs than the greatest number of threads that are between copying and resetting the hook at the same moment, so at most once if fatal events keep apart there, and never more often than there are threads. One thread: C23."
  },
  {
   "property": "C76",
   "status": "partial",
   "theorems": [
    "C76_refuted",
    "C76_refuted_handler",
    "C76_hook_runs_partial",
    "C76_handed_over_partial"
   ],
   "note": "False of the code for an empty hook or handler (C76_refuted, C76_refuted_handler). Proved for non-empty ones."
  },
  {
   "property": "C77",
   "status": "partial",
   "theorems": [
    "C77_empty",
    "C77_size_partial",
    "C77_refuted"
   ],
   "note": "False of the code for 2^32 items or more (C77_refuted: size() is 0). Proved for empty(), and for size() modulo 2^32."
  },
  {
   "property": "C78",
   "status": "proved",
   "theorems": [
    "C78_documented",
    "C78_unknown",
    "C78_known",
    "C78_injective",
    "C78_exit_exception",
    "C78_exit_signal",
    "C78_exit_injective"
   ],
   "note": "The answers of the operating system's headers (the codes) are constants of the model."
  },
  {
   "property": "C79",
   "status": "proved",
   "theorems": [
    "C79_text",
    "C79_failed"
   ],
   "note": "StackWalk64 and the symbol functions are parameters."
  },
  {
   "property": "C80",
   "status": "partial",
   "theorems": [
    "C80_at_most_two",
    "C80_notice_iff",
    "C80_exclusive",
    "C80_sequential_refuted",
    "C80_nested_locks",
    "C80_nested_refuted"
   ],
   "note": "False of the code in two ways: the counter is never decreased, so the third dump of a thread is called recursive although nothing nests (C80_sequential_refuted); the first nested crash locks a std::mutex that the thread owns (C80_nested_refuted, C80_nested_locks for all states). Proved: at most two dumps per thread, the exact condition of the notice, exclusion between threads."
  },
  {
   "property": "C81",
   "status": "partial",
   "theorems": [
    "C81_start",
    "C81_x86",
    "C81_refuted"
   ],
   "note": "False of the code on 32-bit x86 (C81_refuted, C81_x86: AddrPC is assigned three times). Proved for the other architectures."
  },
  {
   "property": "C82",
   "status": "partial",
   "theorems": [
    "C82_covered",
    "C82_refuted",
    "C82_never_again"
   ],
   "note": "False of the code after a restore (C82_refuted, C82_never_again: the per-thread flag is never reset). Proved for the first LOG call or installation of a thread."
  },
  {
   "property": "C83",
   "status": "partial",
   "theorems": [
    "C83_restored",
    "C83_client_handlers_stay",
    "C83_twice_refuted",
    "C83_signal_refuted",
    "C83_thread_refuted"
   ],
   "note": "False of the code for two installations, for client signal handlers and for other threads (C83_twice_refuted, C83_signal_refuted, C83_thread_refuted). Proved for filter and vectored handlers with one installation."
  },
  {
   "property": "C84",
   "status": "partial",
   "theorems": [
    "C84_signal_kills",
    "C84_exception_continues",
    "C84_vectored",
    "C84_unhandled",
    "C84_other",
    "C84_refuted"
   ],
   "note": "False of the code for numbers that are no signal (C84_refuted, C84_other). Proved for the five signals, for exceptions and for the vectored handler."
  },
  {
   "property": "C85",
   "status": "proved",
   "theorems": [
    "C85_signal_report",
    "C85_signal_content",
    "C85_signal_content_others",
    "C85_signal_handed_over",
    "C85_exit_text",
    "C85_exit_content",
    "C85_restore_error",
    "C85_windows_signal",
    "C85_windows_exception",
    "C85_windows_content"
   ],
   "note": "Texts without NUL characters (the dump)."
  },
  {
   "property": "C86",
   "status": "proved",
   "theorems": [
    "C86_crash_message"
   ],
   "note": ""
  },
  {
   "property": "C87",
   "status": "proved",
   "theorems": [
    "C87_received",
    "C87_log_returns",
    "C87_released",
    "C87_bounded",
    "C87_own_thread"
   ],
   "note": "C87_released needs that calls on library threads do not wait for other threads; logging never does (C87_log_returns). Assumes that nobody deactivates the logger between its check and its use (C15)."
  },
  {
   "property": "C88",
   "status": "partial",
   "theorems": [
    "C88_deadlock",
    "C88_self_removal",
    "C88_remove_refuted",
    "C88_worker"
   ],
   "note": "False of the code: removeSink from the sink's own receive function deadlocks (C88_remove_refuted, C88_self_removal), every management call on the worker's thread hangs (C88_worker). C88_deadlock gives the general shape. For clients with threads of their own see C12."
  },
  {
   "property": "C89",
   "status": "partial",
   "theorems": [
    "C89_sink",
    "C89_sink_refuted",
    "C89_worker",
    "C89_worker_refuted"
   ],
   "note": "False of the code on sink threads (C89_sink_refuted; C89_sink: in general) and on the worker's thread (C89_worker for all executions). For clients with threads of their own see C13."
  },
  {
   "property": "C90",
   "status": "partial",
   "theorems": [
    "C90_refuted",
    "C90_partial"
   ],
   "note": "False of the code: the thread joins itself and std::terminate is called (C90_refuted). Proved if code on the sink's thread does not lock a handle to that sink (C90_partial)."
  },
  {
   "property": "C91",
   "status": "proved",
   "theorems": [
    "C91_queue_race_free"
   ],
   "note": "Interleavings; C134 and C135 extend it to happens-before and the C++ memory model. Accesses to the queue's contents are one location."
  },
  {
   "property": "C92",
   "status": "proved",
   "theorems": [
    "C92_documented_use_race_free"
   ],
   "note": "Interleavings; C134 and C135 extend it to happens-before and the C++ memory model. Receive functions and other client code are not modelled."
  },
  {
   "property": "C93",
   "status": "partial",
   "theorems": [
    "C93_races_iff_conflict",
    "C93_log_while_switching",
    "C93_refuted"
   ],
   "note": "False of the code (C93_refuted). C93_races_iff_conflict gives the exact condition; C93_log_while_switching: one thread may switch levels while others log with known levels."
  },
  {
   "property": "C94",
   "status": "partial",
   "theorems": [
    "C94_refuted",
    "C94_partial"
   ],
   "note": "False of the code for the worker pointer, the saved first message, the hook and the exit handler (C94_refuted). Proved for the first stack trace and the counter of crashes (C94_partial), and for the documented order of calls (C92)."
  },
  {
   "property": "C95",
   "status": "partial",
   "theorems": [
    "C95_override_race_free",
    "C95_refuted"
   ],
   "note": "False of the code together with initializeLogging and fatal messages (C95_refuted). Proved for overrideSetupSignals alone (C95_override_race_free)."
  },
  {
   "property": "C96",
   "status": "partial",
   "theorems": [
    "C96_partial",
    "C96_reported_partial",
    "C96_later_signal",
    "C96_queue_stuck",
    "C96_self_deadlock",
    "C96_refuted"
   ],
   "note": "False of the code when the interrupted thread holds the queue's mutex, the mutex of the hook or the guard of the first stack trace (C96_refuted; what follows for every execution: C96_queue_stuck, C96_self_deadlock). Proved for all other moments (C96_partial, C96_reported_partial). A later fatal signal is not reported (C96_later_signal). Locks inside the C++ runtime are not modelled."
  },
  {
   "property": "C97",
   "status": "proved",
   "theorems": [
    "C97_after_shutdown",
    "C97_after_removal"
   ],
   "note": "Composition of the models of capture, worker and file sink; handle calls may ask for the file name and set the header. Sinks owned by clients are the subject of C08 and C09, texts with NUL bytes of C47, changing the file of C55."
  },
  {
   "property": "C98",
   "status": "proved",
   "theorems": [
    "C98_after_crash"
   ],
   "note": "As C97. The text added when it is not the first fatal event is a parameter here; C24 says when it is added."
  },
  {
   "property": "C99",
   "status": "proved",
   "theorems": [
    "C99_once",
    "C99_fatal_is_last",
    "C99_throws",
    "C99_condition_throws"
   ],
   "note": "A saveMessage that throws (out of memory) is not modelled; a file name of 2^64 bytes would make it throw in the model."
  },
  {
   "property": "C100",
   "status": "proved",
   "theorems": [
    "C100_own_text",
    "C100_check",
    "C100_time_stamps"
   ],
   "note": "For levels given as constants; C99 and the time stamps for all code."
  },
  {
   "property": "C101",
   "status": "partial",
   "theorems": [
    "C101_steady_partial",
    "C101_variable_partial",
    "C101_refuted"
   ],
   "note": "False of the code: the level expression is evaluated twice and the LogCapture keeps a reference to it. A call that returns different levels writes an entry of a disabled level, and an assignment while streaming gives a fatal entry without stack dump (refuted). Proved for constants and for variables that the statement does not assign. C101_variable_partial: with a variable the entry has the value that it holds at the end of the statement."
  },
  {
   "property": "C102",
   "status": "partial",
   "theorems": [
    "C102_until_failure_partial",
    "C102_refuted"
   ],
   "note": "False of the code: after an operand that makes the stream fail (such as a null const char*) the later operands are silently lost (refuted). Proved: when no printable operand comes after a failing one, all text is there."
  },
  {
   "property": "C103",
   "status": "partial",
   "theorems": [
    "C103_per_thread_partial",
    "C103_apart_partial",
    "C103_bounded_partial",
    "C103_refuted",
    "C103_sinks_partial"
   ],
   "note": "False of the code: the clock is read before the message is queued (refuted with two overlapping statements). Proved: per thread, for statements of different threads that do not overlap, and that the order is never wrong by more than the longest time between the reading of the clock and the push; C103_sinks_partial takes this on to the sinks."
  },
  {
   "property": "C104",
   "status": "partial",
   "theorems": [
    "C104_rendering_partial",
    "C104_refuted"
   ],
   "note": "False of the code: an empty rendering aborts a debug build, a rendering of 1024 bytes or more is replaced by the format, and %%f is not respected as an escape (refuted). Proved exactly for all other formats."
  },
  {
   "property": "C105",
   "status": "partial",
   "theorems": [
    "C105_only_receive_partial",
    "C105_refuted"
   ],
   "note": "False of the code: the exception ends the process by std::terminate, and the message that another sink still has in its queue is lost (refuted). Proved: std::terminate comes from a throwing receive function only; exceptions of functions called through handles go to their futures (C11_throws)."
  },
  {
   "property": "C106",
   "status": "partial",
   "theorems": [
    "C106_others_partial",
    "C106_refuted",
    "C106_held_up_partial"
   ],
   "note": "False of the code: when a hanging sink is removed, or at shutdown, the worker waits for it and no other sink gets anything any more (refuted with removeSink; C106_held_up_partial: in general). Proved for all schedules in which only log and addSink requests are queued."
  },
  {
   "property": "C107",
   "status": "proved",
   "theorems": [
    "C107_log_own_steps",
    "C107_mutex",
    "C107_push"
   ],
   "note": "Starvation by an unfair mutex is not excluded: std::mutex promises no order. A logger that is shut down or destroyed between the two steps is C15."
  },
  {
   "property": "C108",
   "status": "proved",
   "theorems": [
    "C108_values",
    "C108_complete",
    "C108_standard_levels"
   ],
   "note": "Also: once a file is initialized, all its levels have values. C108_ex_other_file shows the undocumented use (a level of another file) going wrong."
  },
  {
   "property": "C109",
   "status": "partial",
   "theorems": [
    "C109_refuted",
    "C109_library_first_partial",
    "C109_entry_partial",
    "C109_objects",
    "C109_streams",
    "C109_fatal_partial",
    "C109_g3log_order",
    "C109_default_table",
    "C109_first_once",
    "C109_dynamic_partial"
   ],
   "note": "False of the code: in a file that is initialized before loglevels.cpp, FATAL.value is still 0, so every LOG is fatal, and terminates the process because the hook is empty; with G3_DYNAMIC_LOGGING the level table is used before it exists (refuted). Proved: nothing is used too early when the library's files are initialized first, and the exact outcome of an entry in every order, fatal ones included, and the order of g3log.cpp's own objects."
  },
  {
   "property": "C110",
   "status": "partial",
   "theorems": [
    "C110_refuted",
    "C110_stays_partial"
   ],
   "note": "False of the code: the initialization of g3log.cpp puts the default handler back (refuted). Proved: once g3log.cpp is initialized, the handler stays."
  },
  {
   "property": "C111",
   "status": "proved",
   "theorems": [
    "C111_after_shutdown",
    "C111_after_crash"
   ],
   "note": "Every file is opened at most once (a hypothesis: the second opening of a file truncates it) and the clock is sane. Which file has a line is not claimed: an entry still in the buffer when the file is changed goes to the new one (C111_ex)."
  },
  {
   "property": "C112",
   "status": "partial",
   "theorems": [
    "C112_refuted",
    "C112_library_first_partial",
    "C112_entry_partial",
    "C112_fatal_partial",
    "C112_g3log_order",
    "C112_dynamic_partial",
    "C112_standard_levels"
   ],
   "note": "False of the code: objects of a file that is initialized before the library are destroyed after it; their destructors then log into the destroyed g_first_uninitialized_msg or look into the destroyed level table, and a worker they own formats its last entries with destroyed strings (refuted). Proved: nothing is used too late when the library's files are initialized first, the exact outcome of an entry in every order, fatal ones included, and the order in which g3log.cpp's objects go. Function-local statics are not modelled."
  },
  {
   "property": "C113",
   "status": "proved",
   "theorems": [
    "C113_once",
    "C113_armed"
   ],
   "note": "Signal set-up calls are single steps (their races: C95). C113_ex_restored: a signal given back by the client stays given back after another initialization."
  },
  {
   "property": "C114",
   "status": "proved",
   "theorems": [
    "C114_signal",
    "C114_exception",
    "C114_fatal",
    "C114_others",
    "C114_blocked",
    "C114_quiet",
    "C114_abort"
   ],
   "note": "Hypotheses: g3log's own exit handler, no fatal event before, the client has installed nothing twice (else C62), the others only log, and no second signal at the crashing thread (else C73). If the event would not have ended the process, it exits with the number of the signal. A crash without a worker in service is C63 and C114_ex_gone."
  },
  {
   "property": "C115",
   "status": "partial",
   "theorems": [
    "C115_text_refuted",
    "C115_first_refuted",
    "C115_first_replaced_refuted",
    "C115_all_or_nothing_partial",
    "C115_whole_text_partial",
    "C115_run_partial",
    "C115_first_kept_partial"
   ],
   "note": "False of the code: operator<< swallows the failed allocation, so the entry is logged with its text cut short and LOG returns; before initialization a statement that throws leaves its entry behind, with empty text, or a later one takes its place (refuted). Proved: while logging is active it is all or nothing, with a text that is a part of the whole one (the whole one if the stream got its memory), and over all runs the worker is given exactly the entries of the statements that came through; with enough memory the first statement before initialization is the one that is kept and told."
  },
  {
   "property": "C116",
   "status": "partial",
   "theorems": [
    "C116_refuted",
    "C116_never_returns_partial",
    "C116_worker_ends",
    "C116_enough_memory_partial",
    "C116_hook_partial",
    "C116_new_hook_partial"
   ],
   "note": "False of the code: LOG(FATAL) throws and the program goes on, the hook is gone without having been called, and the next fatal event falsely reports a recursive crash (refuted). Proved: a fatal statement never returns; if it throws, queue, sinks and logger are unchanged; once its message is in the queue the worker ends the process, by the signal or by terminate; with enough memory the hook is called once and the message is whole, with the recursion warning exactly from the second event on; setFatalPreLoggingHook is all or nothing and the new hook is the one called."
  },
  {
   "property": "C117",
   "status": "partial",
   "theorems": [
    "C117_refuted",
    "C117_in_order_partial"
   ],
   "note": "False of the code: an exception on the worker's thread ends in std::terminate and everything in the queue is lost (refuted). Proved: up to then every sink has got what the worker took, in order and without gaps, except at most the last entry."
  },
  {
   "property": "C118",
   "status": "partial",
   "theorems": [
    "C118_returned_refuted",
    "C118_threw_refuted",
    "C118_process_refuted",
    "C118_throws_partial",
    "C118_return_partial",
    "C118_registered_partial"
   ],
   "note": "False of the code: the exception of push_back stays in a future that addWrappedSink only waits for, so addSink returns a handle of a sink that is not registered; and if the handle cannot be allocated addSink throws although the sink is registered; and an exception that destroys the new sink on its way ends the process if the destructor finds no memory either (all refuted). Proved: addSink that throws before its wait leaves everything as it was; the exact outcome of its last part; with enough memory a sink whose addSink returned is registered, in every run."
  },
  {
   "property": "C119",
   "status": "partial",
   "theorems": [
    "C119_refuted",
    "C119_throws_partial",
    "C119_returns"
   ],
   "note": "False of the code: the kept entry is moved out before it is saved and is lost when saving throws (refuted). Proved: apart from that entry nothing changes, without such an entry the call does not throw, and a call that returns has handed over the entry and switched logging on."
  },
  {
   "property": "C120",
   "status": "partial",
   "theorems": [
    "C120_refuted",
    "C120_outcomes_partial"
   ],
   "note": "False of the code: ~Active of the half-made object joins a thread that was never started, which throws out of a destructor: the process ends by std::terminate (refuted). Proved: the exact outcome in all cases; it throws only when there is no memory for the object itself."
  },
  {
   "property": "C121",
   "status": "partial",
   "theorems": [
    "C121_refuted",
    "C121_nothing_later_partial",
    "C121_change_recovers_partial"
   ],
   "note": "False of the code: nobody looks at or clears the state of the stream, so after one failed write every later message is lost, to the end and without notice (refuted). Proved: from then on the file gets nothing but pieces of the text its stream had kept; changeLogFile to another file helps, the new file holds everything from the change on and the messages still waiting in the sink."
  },
  {
   "property": "C122",
   "status": "proved",
   "theorems": [
    "C122_unnoticed",
    "C122_other_files"
   ],
   "note": "That nobody is told is the other side of it: the run with errors cannot be told from the one without."
  },
  {
   "property": "C123",
   "status": "partial",
   "theorems": [
    "C123_refuted",
    "C123_no_gaps_partial",
    "C123_beginning_partial",
    "C123_no_errors"
   ],
   "note": "False of the code with a stream library that keeps its whole buffer after a partial write, as libstdc++ does: closing writes the accepted bytes again (refuted). Proved for every library: a beginning, possibly followed by pieces again, without gaps; exactly a beginning if the library forgets what was accepted. No change may open the file in use (C57)."
  },
  {
   "property": "C124",
   "status": "proved",
   "theorems": [
    "C124_refines",
    "C124_same_states",
    "C124_no_new_deadlock"
   ],
   "note": "C124_refines holds at every moment; C124_same_states is an equivalence for the moments at which nobody is inside an operation. Sequential consistency, as everywhere."
  },
  {
   "property": "C125",
   "status": "partial",
   "theorems": [
    "C125_handle_refuted",
    "C125_process_refuted",
    "C125_returns_partial",
    "C125_all_returns_partial",
    "C125_throws_partial",
    "C125_enough_memory_partial"
   ],
   "note": "False of the code: removeSink takes the handle by value, so when it throws the handle is gone while the sink stays registered and cannot be removed any more on its own; and the sink's destructor, on the worker's thread, needs memory and ends the process by std::terminate if there is none (both refuted). Proved: in every run, a removeSink that returns has removed and destroyed its sink, after a removeAllSinks that returned no sink is left that was registered at the call, a call that throws has changed nothing else, and with enough memory the calls do return."
  },
  {
   "property": "C126",
   "status": "partial",
   "theorems": [
    "C126_refuted",
    "C126_returns_partial",
    "C126_delivered_partial",
    "C126_enough_memory_partial"
   ],
   "note": "False of the code: the destructor needs memory and must not throw, so the process ends by std::terminate with accepted entries in the queue (refuted). Proved: in every run, if the destructor returns then every entry accepted before it has been taken, in order, each sink has been sent all from its registration on unless it was removed, the queue is empty and all sinks are destroyed; with enough memory and no fatal event waiting it does return."
  },
  {
   "property": "C127",
   "status": "partial",
   "theorems": [
    "C127_documented",
    "C127_dropped",
    "C127_sinks",
    "C127_other_partial",
    "C127_refuted"
   ],
   "note": "False of the code: the vectored handler takes every documented exception as fatal before the program's own frames are asked, so the sinks are destroyed and everything logged later is dropped (refuted; in general C127_documented, C127_dropped, C127_sinks). Proved: an exception that is not documented and that the program handles changes nothing."
  },
  {
   "property": "C128",
   "status": "partial",
   "theorems": [
    "C128_held_partial",
    "C128_ends_partial",
    "C128_call",
    "C128_refuted",
    "C128_again_refuted",
    "C128_signal",
    "C128_abort_refuted"
   ],
   "note": "False of the code once an exception's message has been dealt with: its thread is to go on, and with it every waiting thread, for good (refuted twice); and two threads that abort end the process before anything is flushed, because the handler of SIGABRT is gone after its first call (refuted). Proved: what a fatal call and a fatal signal leave behind; as long as no exception gets to g3log no fatal call returns, and the background thread ends the process by the right signal."
  },
  {
   "property": "C129",
   "status": "partial",
   "theorems": [
    "C129_undefined",
    "C129_filter",
    "C129_fatal_partial",
    "C129_signal_partial",
    "C129_refuted"
   ],
   "note": "False of the code for exceptions: exitWithDefaultSignalHandler returns for them and the null g_logger_instance is used (refuted; C129_undefined and C129_filter say exactly when). Proved for LOG(FATAL), CHECK and the signals."
  },
  {
   "property": "C130",
   "status": "partial",
   "theorems": [
    "C130_background",
    "C130_sink",
    "C130_refuted",
    "C130_sink_refuted",
    "C130_client_partial",
    "C130_once"
   ],
   "note": "False of the code for exceptions in the background thread and in the thread of a sink: the background thread waits for ever (C130_background, C130_sink; both refuted from the start of a program). Proved for the threads of the client, with g3log installed once (C130_once says when that is) and the threads of the sinks at work."
  },
  {
   "property": "C131",
   "status": "proved",
   "theorems": [
    "C131_received",
    "C131_message",
    "C131_logged",
    "C131_returns",
    "C131_fatal",
    "C131_future",
    "C131_exists"
   ],
   "note": "Weak fairness, which for a sink includes that its receive function returns. The queues are atomic FIFO queues (C01-C04, C124); for the mutex inside see C136. No bound on the time."
  },
  {
   "property": "C132",
   "status": "partial",
   "theorems": [
    "C132_refuted",
    "C132_opening_empties",
    "C132_one_byte_each_partial",
    "C132_same_second",
    "C132_names",
    "C132_as_if_alone_partial",
    "C132_messages_partial",
    "C132_apart"
   ],
   "note": "False of the code (C132_refuted: two sinks with the same directory, prefix and id created within one second, one after the other or overlapping, get the same name and the second empties and overwrites the file of the first). Proved: with files of their own (C132_apart: e.g. different prefix, id or second, in a file system without links) all sinks find their files as if alone in every interleaving; a shared file holds at each place a byte of at most one sink."
  },
  {
   "property": "C133",
   "status": "partial",
   "theorems": [
    "C133_after_shutdown_partial",
    "C133_after_crash_partial",
    "C133_runs",
    "C133_default_file",
    "C133_default_loggers",
    "C133_refuted"
   ],
   "note": "False of the code (C133_refuted: addDefaultLogger called twice with the same arguments within one second while the program logs; the first sink's line is overwritten). Proved for sinks with files of their own, at shutdown and at a fatal event; for default loggers that differ in prefix, id or second without any hypothesis about files (C133_default_loggers); C133_runs: the sinks can always run; C133_default_file: name, place and flush interval of a default logger's file."
  },
  {
   "property": "C134",
   "status": "proved",
   "theorems": [
    "C134_race_iff_unordered",
    "C134_same_location",
    "C134_no_data_race"
   ],
   "note": "The equivalence is about the existence of a race, not location by location (C134_same_location gives one direction for each location). Once flags and the start and end of threads count as mutexes do."
  },
  {
   "property": "C135",
   "status": "proved",
   "theorems": [
    "C135_weak_is_sequential",
    "C135_interleavings_allowed",
    "C135_queue",
    "C135_documented",
    "C135_log_while_switching",
    "C135_override",
    "C135_racing_differs"
   ],
   "note": "A superset of the executions of the standard: a read finds any write that is not hidden from it by happens-before, and if it is not atomic one that happens before it; modification order and the exclusiveness of read-modify-write are not required. Atomics are release/acquire. Executions in which a value is read before it is written (out of thin air) are not included; the standard excludes them for these orders. C135_interleavings_allowed: all interleavings are included. C135_racing_differs: with races it is false."
  },
  {
   "property": "C136",
   "status": "proved",
   "theorems": [
    "C136_returns",
    "C136_taken",
    "C136_pop_returns",
    "C136_delivered",
    "C136_consumer_starved",
    "C136_unfair_mutex"
   ],
   "note": "Both hypotheses are about the platform: weak fairness of the scheduler, and a mutex that starves nobody, which the standard does not promise (C136_unfair_mutex: without it a call of push may wait for ever, though the mutex is free again and again). C136_consumer_starved: with several consumers a single one may sleep for ever. Starts with an empty queue and all threads outside."
  },
  {
   "property": "C137",
   "status": "proved",
   "theorems": [
    "C137_send_returns",
    "C137_executed",
    "C137_sent_executed",
    "C137_future",
    "C137_destructor_returns",
    "C137_hangs"
   ],
   "note": "Hypotheses about the platform and the client: weak fairness, a mutex that starves nobody, callbacks that end and do not throw. C137_hangs: with a callback that does not end, what follows is not executed and the destructor does not return; send still returns (C137_send_returns does not need that callbacks end). What a client sends while the destructor runs may come after the shutdown and is then not executed (C04)."
  },
  {
   "property": "C138",
   "status": "proved",
   "theorems": [
    "C138_others",
    "C138_own",
    "C138_after_shutdown",
    "C138_after_crash"
   ],
   "note": "Hypothesis: no file is opened by two sinks (C132_apart gives it for default loggers with different names; without it C132 is false). For the content of the files of a failing sink: it opens no file twice (as C123). C138_others and C138_own do not mention the worker; C138_after_shutdown and C138_after_crash are for all that the worker has sent. Opening failures are in the calls of the sink (C55), not in the errors here."
  },
  {
   "property": "C139",
   "status": "partial",
   "theorems": [
    "C139_same_partial",
    "C139_spawned_partial",
    "C139_throws",
    "C139_refuted",
    "C139_reset"
   ],
   "note": "False of the code (C139_refuted): a function that throws, a second call, reset, and the future of a default-constructed task. C139_throws says for every spawned task that throws what happens instead. Proved: C139_same_partial for every program that the standard's class goes through without an error and without reset; C139_spawned_partial for spawn_task with any number of moves; C139_reset: what reset does in every state."
  },
  {
   "property": "C140",
   "status": "proved",
   "theorems": [
    "C140_number",
    "C140_report",
    "C140_dump",
    "C140_exception",
    "C140_signal",
    "C140_macro"
   ],
   "note": "Hypotheses: no NUL byte in the name of the handler and in a dump taken inside the logger, a date that can be formatted, codes of 32 bits. What recursion of fatal events adds to the text is the parameter warn (C24)."
  },
  {
   "property": "C141",
   "status": "partial",
   "theorems": [
    "C141_held_partial",
    "C141_flushed_partial",
    "C141_code_partial",
    "C141_ends_partial",
    "C141_refuted",
    "C141_hangs_refuted",
    "C141_twice_refuted",
    "C141_early_refuted"
   ],
   "note": "False of the code: gBlockForFatal is unset before exit is called, so the thread of a failed CHECK goes on (C141_refuted); a worker that a static object owns makes exit wait for its own thread for ever (C141_hangs_refuted); a second signal's thread calls exit again, which is undefined (C141_twice_refuted); with two failed CHECKs a thread goes on before anything was flushed (C141_early_refuted). Proved: nothing of this happens when every signal kills; with one fatal event, or only signals, nobody goes on and nothing ends before the sinks have exactly the entries up to the fatal one; the exit code is the first event's signal; without such a static object the logger's threads alone always reach the end."
  },
  {
   "property": "C142",
   "status": "partial",
   "theorems": [
    "C142_default",
    "C142_alone",
    "C142_not_ours",
    "C142_all_default",
    "C142_held",
    "C142_clear",
    "C142_ends_partial",
    "C142_hang_refuted",
    "C142_exception",
    "C142_exception_refuted"
   ],
   "note": "False of the code: in a program with a handler of its own for SIGABRT that returns, LOG(FATAL) neither ends the process nor returns (C142_hang_refuted); with vectored exception handling a documented exception that nobody handles ends in a null pointer, in every run in which nobody sets another filter or initializes logging again (C142_exception, C142_exception_refuted). Proved: no handler is changed, in every step and run; LOG(FATAL) and CHECK never return and end the process in programs that set no handlers. C142_default: the model with both options on is that of C127-C130."
  },
  {
   "property": "C143",
   "status": "partial",
   "theorems": [
    "C143_handled",
    "C143_unhandled",
    "C143_filter_back",
    "C143_ends",
    "C143_flushed_partial",
    "C143_two_refuted"
   ],
   "note": "False of the code with signal handling on when two threads have an exception each: the second ends the process while everything is still queued (C143_two_refuted; also in the default build). Proved: handled exceptions change nothing; what an unhandled one does; with one fatal message, for every schedule and all options, the process does not end before every sink has exactly what was logged before and the message (C143_flushed_partial). Hypothesis of C143_unhandled: g3log's filter is the current one."
  },
  {
   "property": "C144",
   "status": "proved",
   "theorems": [
    "C144_one",
    "C144_later",
    "C144_noticed",
    "C144_alone",
    "C144_initialized_between"
   ],
   "note": "Sequentially consistent operations count as acquire and release only. The warning's decision is related to its fatal event by happens before. C144_initialized_between: with initializeLogging between two fatal events neither gets the warning."
  },
  {
   "property": "C145",
   "status": "proved",
   "theorems": [
    "C145_found",
    "C145_last",
    "C145_publishes",
    "C145_in_order",
    "C145_released",
    "C145_lets_go",
    "C145_no_return",
    "C145_buffering",
    "C145_disagreeing"
   ],
   "note": "C145_buffering and C145_disagreeing: the executions that show that settings of two levels have no common order. The text of a level, which set assigns too, is plain data and races (C93)."
  },
  {
   "property": "C146",
   "status": "partial",
   "theorems": [
    "C146_macros",
    "C146_nothing_else",
    "C146_again",
    "C146_once",
    "C146_tell_apart",
    "C146_clash",
    "C146_named_partial",
    "C146_define_refuted",
    "C146_function"
   ],
   "note": "False of the code for the comment in loglevels.hpp: a program that defines CHANGE_G3LOG_DEBUG_TO_DBUG itself, with a library configured without that option, passes the check although its macro DEBUG replaces the name of the level (C146_define_refuted). Proved: everything else; the name of the level for programs that do not define CHANGE_G3LOG_DEBUG_TO_DBUG or G3LOG_DEBUG themselves (C146_named_partial)."
  }
 ]
}