{
 "claims": [
  {
   "property": "C01",
   "status": "proved",
   "theorems": [
    "C01_copy_constructor",
    "C01_raw_copy",
    "C01_copy_assignment",
    "C01_contents_unique"
   ],
   "note": ""
  },
  {
   "property": "C02",
   "status": "proved",
   "theorems": [
    "C02_copy_isolated",
    "C02_whole_sequences"
   ],
   "note": ""
  },
  {
   "property": "C03",
   "status": "proved",
   "theorems": [
    "C03_statements_update_trees",
    "C03_programs",
    "C03_write_is_local"
   ],
   "note": ""
  },
  {
   "property": "C04",
   "status": "proved",
   "theorems": [
    "C04_one_kind_of_content",
    "C04_type_change_discards"
   ],
   "note": ""
  },
  {
   "property": "C05",
   "status": "proved",
   "theorems": [
    "C05_equality_is_structural",
    "C05_command",
    "C05_dictionaries_by_key",
    "C05_symmetric",
    "C05_transitive",
    "C05_reflexive_iff_no_nan",
    "C05_doubles"
   ],
   "note": ""
  },
  {
   "property": "C06",
   "status": "proved",
   "theorems": [
    "C06_dictionary_is_a_map",
    "C06_remove_absent_key"
   ],
   "note": ""
  },
  {
   "property": "C07",
   "status": "proved",
   "theorems": [
    "C07_list_is_a_sequence"
   ],
   "note": ""
  },
  {
   "property": "C08",
   "status": "proved",
   "theorems": [
    "C08_failing_calls_change_nothing",
    "C08_failing_subscript",
    "C08_no_state_change_on_exception_refuted"
   ],
   "note": "Exact characterisation; the index subscript changes type before raising, shown by C08_no_state_change_on_exception_refuted."
  },
  {
   "property": "C09",
   "status": "proved",
   "theorems": [
    "C09_read_after_write",
    "C09_types_distinct",
    "C09_read_any",
    "C09_is_of_type",
    "C09_reads_are_pure",
    "C09_reading_commands"
   ],
   "note": ""
  },
  {
   "property": "C10",
   "status": "proved",
   "theorems": [
    "C10_path_lookup",
    "C10_found",
    "C10_default"
   ],
   "note": ""
  },
  {
   "property": "C11",
   "status": "proved",
   "theorems": [
    "C11_histories_stay_finite",
    "C11_finite_terminates",
    "C11_copy_returns_iff_finite",
    "C11_self_insertion_diverges",
    "C11_serialise_print_iff_finite"
   ],
   "note": ""
  },
  {
   "property": "C12",
   "status": "proved",
   "theorems": [
    "C12_round_trip",
    "C12_identity_iff",
    "C12_normal_form"
   ],
   "note": ""
  },
  {
   "property": "C13",
   "status": "proved",
   "theorems": [
    "C13_deserialise",
    "C13_reads_unique",
    "C13_undefined_iff"
   ],
   "note": ""
  },
  {
   "property": "C14",
   "status": "proved",
   "theorems": [
    "C14_absent_fields",
    "C14_message_equality",
    "C14_round_trip",
    "C14_equal_iff"
   ],
   "note": "C14_round_trip, C14_equal_iff over the byte format of C81 and C83; C14_absent_fields on tables."
  },
  {
   "property": "C15",
   "status": "proved",
   "theorems": [
    "C15_json",
    "C15_means_total_function"
   ],
   "note": "From the tree json-c returns; the tokener is a parameter."
  },
  {
   "property": "C16",
   "status": "proved",
   "theorems": [
    "C16_print",
    "C16_print_message",
    "C16_deterministic",
    "C16_not_injective"
   ],
   "note": ""
  },
  {
   "property": "C17",
   "status": "proved",
   "theorems": [
    "C17_refines_sequences",
    "C17_concatenation",
    "C17_no_leak",
    "C17_implicit_copy_refuted"
   ],
   "note": ""
  },
  {
   "property": "C18",
   "status": "proved",
   "theorems": [
    "C18_was_sent_by",
    "C18_prepend",
    "C18_remove",
    "C18_prepend_remove",
    "C18_stack",
    "C18_only_sender"
   ],
   "note": ""
  },
  {
   "property": "C19",
   "status": "proved",
   "theorems": [
    "C19_matching",
    "C19_receive"
   ],
   "note": ""
  },
  {
   "property": "C20",
   "status": "proved",
   "theorems": [
    "C20_exact",
    "C20_who",
    "C20_order",
    "C20_only",
    "C20_every",
    "C20_once"
   ],
   "note": ""
  },
  {
   "property": "C21",
   "status": "proved",
   "theorems": [
    "C21_fifo",
    "C21_numbers"
   ],
   "note": ""
  },
  {
   "property": "C22",
   "status": "proved",
   "theorems": [
    "C22_no_loss",
    "C22_account"
   ],
   "note": ""
  },
  {
   "property": "C23",
   "status": "proved",
   "theorems": [
    "C23_barrier",
    "C23_no_callback_running",
    "C23_contains",
    "C23_foreign_bus"
   ],
   "note": ""
  },
  {
   "property": "C24",
   "status": "proved",
   "theorems": [
    "C24_inert",
    "C24_contains",
    "C24_others"
   ],
   "note": ""
  },
  {
   "property": "C25",
   "status": "proved",
   "theorems": [
    "C25_no_new",
    "C25_discard",
    "C25_ends",
    "C25_stop_then_start"
   ],
   "note": ""
  },
  {
   "property": "C26",
   "status": "proved",
   "theorems": [
    "C26_create",
    "C26_get",
    "C26_forever"
   ],
   "note": ""
  },
  {
   "property": "C27",
   "status": "proved",
   "theorems": [
    "C27_publisher",
    "C27_exactly_once",
    "C27_delivered",
    "C27_root"
   ],
   "note": ""
  },
  {
   "property": "C28",
   "status": "proved",
   "theorems": [
    "C28_silent",
    "C28_publish",
    "C28_stopped",
    "C28_unserved",
    "C28_no_children"
   ],
   "note": ""
  },
  {
   "property": "C29",
   "status": "proved",
   "theorems": [
    "C29_constructor",
    "C29_target",
    "C29_forwarded_once",
    "C29_at_once",
    "C29_start",
    "C29_never_served"
   ],
   "note": ""
  },
  {
   "property": "C30",
   "status": "proved",
   "theorems": [
    "C30_leaves_start",
    "C30_effect",
    "C30_restart"
   ],
   "note": ""
  },
  {
   "property": "C31",
   "status": "proved",
   "theorems": [
    "C31_calling",
    "C31_may",
    "C31_blocks"
   ],
   "note": ""
  },
  {
   "property": "C32",
   "status": "partial",
   "theorems": [
    "C32_next_step_partial",
    "C32_next_step",
    "C32_always_refuted",
    "C32_bounded_refuted"
   ],
   "note": "Both halves are false of the code as stated: C32_always_refuted (the bus thread can wait for a Detach) and C32_bounded_refuted (callbacks that create children keep one distribution going for ever). Proved: the step is always possible when no Detach is under way, and otherwise exactly the Detach case remains. C63 states and proves the corrected form."
  },
  {
   "property": "C33",
   "status": "proved",
   "theorems": [
    "C33_only_if_raced",
    "C33_direct",
    "C33_delete_window",
    "C33_detach_window"
   ],
   "note": ""
  },
  {
   "property": "C34",
   "status": "proved",
   "theorems": [
    "C34_correlated"
   ],
   "note": ""
  },
  {
   "property": "C35",
   "status": "partial",
   "theorems": [
    "C35_at_most_once_partial",
    "C35_later_partial",
    "C35_throwing_refuted"
   ],
   "note": "Proved when no callback of the consumer throws. Otherwise false of the code: ProcessResponse erases the request only after the callback has returned, so a throwing callback is invoked again (C35_throwing_refuted). C64 states and proves the corrected form."
  },
  {
   "property": "C36",
   "status": "proved",
   "theorems": [
    "C36_invoked",
    "C36_closed",
    "C36_stays_open",
    "C36_answered"
   ],
   "note": ""
  },
  {
   "property": "C37",
   "status": "proved",
   "theorems": [
    "C37_envelope",
    "C37_request_inside",
    "C37_invoked"
   ],
   "note": ""
  },
  {
   "property": "C38",
   "status": "proved",
   "theorems": [
    "C38_malformed",
    "C38_wellformed",
    "C38_read"
   ],
   "note": "A provider with a null callback gets std::bad_function_call even for a well-formed request; C38_wellformed includes that case."
  },
  {
   "property": "C39",
   "status": "proved",
   "theorems": [
    "C39_completed",
    "C39_none",
    "C39_never_another",
    "C39_late",
    "C39_late_entered",
    "C39_defined",
    "C39_registered",
    "C39_returns",
    "C39_waits",
    "C39_woken",
    "C39_lost_notification",
    "C39_in_time_refuted"
   ],
   "note": ""
  },
  {
   "property": "C40",
   "status": "proved",
   "theorems": [
    "C40_shape",
    "C40_length",
    "C40_buffer",
    "C40_equal",
    "C40_not_injective",
    "C40_default",
    "C40_equivalence"
   ],
   "note": ""
  },
  {
   "property": "C41",
   "status": "proved",
   "theorems": [
    "C41_null",
    "C41_registers",
    "C41_publishes",
    "C41_topics",
    "C41_envelope"
   ],
   "note": ""
  },
  {
   "property": "C42",
   "status": "proved",
   "theorems": [
    "C42_instance",
    "C42_outcome",
    "C42_names"
   ],
   "note": ""
  },
  {
   "property": "C43",
   "status": "proved",
   "theorems": [
    "C43_refused",
    "C43_only",
    "C43_clash"
   ],
   "note": ""
  },
  {
   "property": "C44",
   "status": "proved",
   "theorems": [
    "C44_registered",
    "C44_refused"
   ],
   "note": "A CreateInfo that returns null is undefined behaviour (dereferenced), stated separately in C44_refused."
  },
  {
   "property": "C45",
   "status": "proved",
   "theorems": [
    "C45_balance",
    "C45_once",
    "C45_no_reload"
   ],
   "note": ""
  },
  {
   "property": "C46",
   "status": "proved",
   "theorems": [
    "C46_order",
    "C46_once",
    "C46_again"
   ],
   "note": ""
  },
  {
   "property": "C47",
   "status": "proved",
   "theorems": [
    "C47_in_order",
    "C47_call",
    "C47_outcome"
   ],
   "note": ""
  },
  {
   "property": "C48",
   "status": "proved",
   "theorems": [
    "C48_raises_iff",
    "C48_json",
    "C48_silent"
   ],
   "note": ""
  },
  {
   "property": "C49",
   "status": "proved",
   "theorems": [
    "C49_never_stopped",
    "C49_is_stopped"
   ],
   "note": ""
  },
  {
   "property": "C50",
   "status": "proved",
   "theorems": [
    "C50_stop_while_running",
    "C50_stop_before_forgotten",
    "C50_stop_null",
    "C50_stop_during_teardown",
    "C50_no_restart",
    "C50_start",
    "C50_can_return",
    "C50_raise"
   ],
   "note": ""
  },
  {
   "property": "C51",
   "status": "proved",
   "theorems": [
    "C51_one_worker",
    "C51_stop_waits",
    "C51_stop_noop",
    "C51_stop_returns",
    "C51_terminates",
    "C51_restart",
    "C51_destroyed",
    "C51_end",
    "C51_alive",
    "C51_self_clearing_refuted"
   ],
   "note": "For plugins whose Run does not clear mShouldRun itself (none in the repository does); C51_self_clearing_refuted shows the limit."
  },
  {
   "property": "C52",
   "status": "proved",
   "theorems": [
    "C52_combine",
    "C52_no_filename",
    "C52_recompose",
    "C52_extension"
   ],
   "note": ""
  },
  {
   "property": "C53",
   "status": "proved",
   "theorems": [
    "C53_listing",
    "C53_directory_filter",
    "C53_unreadable",
    "C53_filter_refuted"
   ],
   "note": ""
  },
  {
   "property": "C54",
   "status": "proved",
   "theorems": [
    "C54_target",
    "C54_whole",
    "C54_undefined"
   ],
   "note": ""
  },
  {
   "property": "C55",
   "status": "proved",
   "theorems": [
    "C55_equal",
    "C55_different",
    "C55_undefined",
    "C55_not_symmetric",
    "C55_files_ignored",
    "C55_unequal"
   ],
   "note": ""
  },
  {
   "property": "C56",
   "status": "proved",
   "theorems": [
    "C56_lines",
    "C56_order",
    "C56_all_written"
   ],
   "note": ""
  },
  {
   "property": "C57",
   "status": "proved",
   "theorems": [
    "C57_blocks",
    "C57_completes",
    "C57_how",
    "C57_exactly"
   ],
   "note": "The handler completes exactly when no thread, possibly a different one, was already interrupted in the middle of a log line (C57_exactly); otherwise it blocks for ever (C57_blocks)."
  },
  {
   "property": "C58",
   "status": "proved",
   "theorems": [
    "C58_receive",
    "C58_nothing",
    "C58_round_trip",
    "C58_unchecked"
   ],
   "note": "Over the byte format of C81 and C83."
  },
  {
   "property": "C59",
   "status": "proved",
   "theorems": [
    "C59_marked",
    "C59_no_echo",
    "C59_sends",
    "C59_once",
    "C59_all",
    "C59_receives"
   ],
   "note": ""
  },
  {
   "property": "C60",
   "status": "proved",
   "theorems": [
    "C60_star",
    "C60_star_stops",
    "C60_live",
    "C60_pair",
    "C60_parallel_forever",
    "C60_parallel_runs",
    "C60_parallel_count"
   ],
   "note": "Message-level network: zmq is assumed to deliver everything that is sent, once, over connections made beforehand; each node distributes as proved in C20/C59. Messages may be processed in any order. C60_star_stops/C60_live: the exchange ends whatever the order; C60_parallel_*: for any number (>= 2) of parallel links."
  },
  {
   "property": "C61",
   "status": "proved",
   "theorems": [
    "C61_settings",
    "C61_determined"
   ],
   "note": ""
  },
  {
   "property": "C62",
   "status": "partial",
   "theorems": [
    "C62_reports_partial",
    "C62_increasing_partial",
    "C62_early_partial",
    "C62_overlap_refuted"
   ],
   "note": "False of the code when the control handler and the service thread are inside ReportStatus at once (C62_overlap_refuted: both write the one status record). Proved for all executions in which the two calls do not overlap; checkpoints are numbers modulo 2^32."
  },
  {
   "property": "C63",
   "status": "proved",
   "theorems": [
    "C63_detach_finite",
    "C63_subscribers_lock",
    "C63_distribution_bounded",
    "C63_locks_free"
   ],
   "note": ""
  },
  {
   "property": "C64",
   "status": "proved",
   "theorems": [
    "C64_at_most_once",
    "C64_later",
    "C64_throw_keeps"
   ],
   "note": ""
  },
  {
   "property": "C65",
   "status": "proved",
   "theorems": [
    "C65_never_freed",
    "C65_reload",
    "C65_failed_creation"
   ],
   "note": ""
  },
  {
   "property": "C66",
   "status": "proved",
   "theorems": [
    "C66_undefined",
    "C66_entry",
    "C66_inevitable"
   ],
   "note": ""
  },
  {
   "property": "C67",
   "status": "proved",
   "theorems": [
    "C67_delivers",
    "C67_stops",
    "C67_tree",
    "C67_tree_stops",
    "C67_cycle"
   ],
   "note": "Same network model as C60."
  },
  {
   "property": "C68",
   "status": "proved",
   "theorems": [
    "C68_hang",
    "C68_ends",
    "C68_last",
    "C68_last_refuted",
    "C68_asked",
    "C68_obeyed",
    "C68_no_event",
    "C68_lost"
   ],
   "note": "C68_last_refuted gives the schedule with the stale last status."
  },
  {
   "property": "C69",
   "status": "proved",
   "theorems": [
    "C69_unchanged",
    "C69_taken"
   ],
   "note": ""
  },
  {
   "property": "C70",
   "status": "proved",
   "theorems": [
    "C70_repeats"
   ],
   "note": ""
  },
  {
   "property": "C71",
   "status": "proved",
   "theorems": [
    "C71_search_paths",
    "C71_order",
    "C71_last_wins",
    "C71_outcome",
    "C71_duplicate_leaks"
   ],
   "note": "All file systems and libraries, seen through stat, access, readdir and dlopen; a handle is one acquisition. The constructor is modelled with what readlink and getcwd give."
  },
  {
   "property": "C72",
   "status": "proved",
   "theorems": [
    "C72_counted",
    "C72_never_released",
    "C72_runs",
    "C72_results",
    "C72_captured",
    "C72_made",
    "C72_deleted",
    "C72_released",
    "C72_everything_released_refuted"
   ],
   "note": "One thread; captured objects of callbacks are lists chosen by the client. The expectation that everything is released once nothing is held is refuted (C72_everything_released_refuted)."
  },
  {
   "property": "C73",
   "status": "proved",
   "theorems": [
    "C73_bus",
    "C73_publisher",
    "C73_holding",
    "C73_action",
    "C73_always_defined_refuted"
   ],
   "note": "The expectation that every call on a held object is defined is refuted (C73_always_defined_refuted)."
  },
  {
   "property": "C74",
   "status": "proved",
   "theorems": [
    "C74_silent",
    "C74_empty",
    "C74_dangling",
    "C74_called"
   ],
   "note": "Bus and Request are run together in SyncModel.v. C74_silent is about the bus alone; C74_empty gives the return value, the timeout and the open request; C74_dangling the undefined behaviour."
  },
  {
   "property": "C75",
   "status": "proved",
   "theorems": [
    "C75_source",
    "C75_answered",
    "C75_failed"
   ],
   "note": "Composes C34, C36 and C39 over the product of BusModel and RequestModel."
  },
  {
   "property": "C76",
   "status": "proved",
   "theorems": [
    "C76_reads",
    "C76_writes",
    "C76_threads",
    "C76_exclusive",
    "C76_guarded",
    "C76_exact"
   ],
   "note": "Sequentially consistent interleavings at the granularity of BusModel; a call of a std::function counts as one read at its start. Destructors are not included."
  },
  {
   "property": "C77",
   "status": "proved",
   "theorems": [
    "C77_orderly",
    "C77_creating",
    "C77_creating_consumer",
    "C77_requests",
    "C77_response"
   ],
   "note": "Starting two threads in Start of one root bus is outside BusModel."
  },
  {
   "property": "C78",
   "status": "proved",
   "theorems": [
    "C78_wrong_type",
    "C78_string",
    "C78_kill",
    "C78_others",
    "C78_answers",
    "C78_throws",
    "C78_once",
    "C78_gets_on",
    "C78_initialize",
    "C78_leftover"
   ],
   "note": "C78_wrong_type, C78_string and C78_kill on the subscriber; C78_answers, C78_throws and C78_once on the provider; C78_initialize and C78_leftover on the plugin's life cycle."
  },
  {
   "property": "C79",
   "status": "proved",
   "theorems": [
    "C79_code",
    "C79_safe",
    "C79_unsafe",
    "C79_exact",
    "C79_when",
    "C79_bus",
    "C79_refuted"
   ],
   "note": "C79_safe, C79_unsafe and their combination C79_exact; C79_when on the step; C79_bus on buses; C79_refuted shows that 'closed code is never run' is false of the code for a plugin that forgets its subscriber. SysInfo and Link as Examples."
  },
  {
   "property": "C80",
   "status": "proved",
   "theorems": [
    "C80_exit",
    "C80_abort",
    "C80_goes_on",
    "C80_signal",
    "C80_defined"
   ],
   "note": "C80_exit, C80_abort, C80_goes_on, C80_signal. 'Plugins are always stopped before the program ends' is false of the code; C80_abort says when."
  },
  {
   "property": "C81",
   "status": "proved",
   "theorems": [
    "C81_message",
    "C81_otherwise",
    "C81_unique",
    "C81_bounds"
   ],
   "note": "C81_message, C81_otherwise, C81_unique, C81_bounds. The FlatBuffers accessors are modelled after version 1.10; the library is not part of the repository. Every read outside the block counts as undefined behaviour."
  },
  {
   "property": "C82",
   "status": "proved",
   "theorems": [
    "C82_small_bytes_large_message"
   ],
   "note": "C82_small_bytes_large_message."
  },
  {
   "property": "C83",
   "status": "proved",
   "theorems": [
    "C83_written",
    "C83_injective"
   ],
   "note": "C83_written, C83_injective. FlatBufferBuilder (alignment, vtable sharing, offsets from the end) is modelled after version 1.10; the library is not part of the repository."
  },
  {
   "property": "C84",
   "status": "proved",
   "theorems": [
    "C84_kept",
    "C84_replaced"
   ],
   "note": "C84_kept, C84_replaced; that deletion through its own bus waits is C31_blocks. The model shows that the function is gone; what the C++ then does is undefined and not modelled."
  },
  {
   "property": "C85",
   "status": "proved",
   "theorems": [
    "C85_dies",
    "C85_safe",
    "C85_before",
    "C85_cause",
    "C85_swapped",
    "C85_kills",
    "C85_join",
    "C85_others"
   ],
   "note": "Of Run only the loop test and the publications are modelled; a plugin's Deinitialize is a list of calls to the bus. C85_kills shows the fault of the code's order, C85_swapped that the other order avoids it."
  },
  {
   "property": "C86",
   "status": "proved",
   "theorems": [
    "C86_safe",
    "C86_clean",
    "C86_ends",
    "C86_double",
    "C86_null",
    "C86_abort",
    "C86_restart",
    "C86_sends",
    "C86_polls"
   ],
   "note": "C86_safe, C86_clean and C86_ends are for calls in order; C86_double, C86_null, C86_abort and C86_restart say what happens otherwise."
  },
  {
   "property": "C87",
   "status": "proved",
   "theorems": [
    "C87_paths",
    "C87_recompose",
    "C87_slashes",
    "C87_extension",
    "C87_kinds",
    "C87_missing_refuted",
    "C87_listing",
    "C87_failed",
    "C87_executable",
    "C87_directory",
    "C87_dll",
    "C87_search",
    "C87_stray",
    "C87_working_directory",
    "C87_working_exact",
    "C87_search_paths"
   ],
   "note": "That only existing paths are directories is false of the code: C87_missing_refuted. Reading unwritten memory is modelled as reading arbitrary characters, and as undefined where the read leaves the buffer."
  },
  {
   "property": "C88",
   "status": "proved",
   "theorems": [
    "C88_command",
    "C88_undefined",
    "C88_handles",
    "C88_throws",
    "C88_install",
    "C88_uninstall",
    "C88_history",
    "C88_others",
    "C88_long_path",
    "C88_started",
    "C88_started_refuted"
   ],
   "note": "That the installed program is the one started is false of the code for paths with spaces: C88_started_refuted. How the control manager looks for the program is modelled after the documentation of CreateProcess."
  },
  {
   "property": "C89",
   "status": "proved",
   "theorems": [
    "C89_refines",
    "C89_ends",
    "C89_unix",
    "C89_windows",
    "C89_windows_few",
    "C89_twice_refuted",
    "C89_osx",
    "C89_undefined",
    "C89_abort",
    "C89_constructor"
   ],
   "note": "What sigaction, Microsoft's signal and abort do is taken from their documentation. A handler runs as one step. C89_twice_refuted is the witness that a second Ctrl+C on Windows loses the orderly end."
  },
  {
   "property": "C90",
   "status": "proved",
   "theorems": [
    "C90_heard",
    "C90_told",
    "C90_works",
    "C90_afterwards",
    "C90_spoilt",
    "C90_undefined",
    "C90_receive",
    "C90_torn",
    "C90_taken",
    "C90_spins",
    "C90_told_refuted"
   ],
   "note": "ZeroMQ's behaviour is taken from its documentation: a failed call leaves the socket as it was, frames sent with ZMQ_SNDMORE wait for the last one, a subscription is a prefix of the first frame. C90_told_refuted: success is reported for a message nobody hears."
  },
  {
   "property": "C91",
   "status": "proved",
   "theorems": [
    "C91_refines",
    "C91_settles",
    "C91_star",
    "C91_tree",
    "C91_cycle",
    "C91_star_most",
    "C91_node",
    "C91_taken"
   ],
   "note": "Assumes that ZeroMQ delivers every message once to every connected peer; each link's callback is set on its own subscriber only."
  },
  {
   "property": "C92",
   "status": "proved",
   "theorems": [
    "C92_projects",
    "C92_exit",
    "C92_raises",
    "C92_started",
    "C92_refused",
    "C92_places",
    "C92_undefined",
    "C92_null",
    "C92_clean",
    "C92_alone",
    "C92_signal",
    "C92_arguments",
    "C92_goes_on",
    "C92_stops"
   ],
   "note": "Start-up is one step. Plugins do not use the plugin manager; their Stop and Deinitialize return. What json-c's parser gives for the file's text is a parameter."
  },
  {
   "property": "C93",
   "status": "proved",
   "theorems": [
    "C93_running",
    "C93_starts",
    "C93_ends",
    "C93_digits",
    "C93_settings",
    "C93_shipped"
   ],
   "note": "Start-up is one step. That making publishers, subscribers and an action provider on an attached bus does not throw is C19 and C78."
  },
  {
   "property": "C94",
   "status": "proved",
   "theorems": [
    "C94_order_data",
    "C94_order_message",
    "C94_tree_data",
    "C94_tree_message",
    "C94_star",
    "C94_star_data",
    "C94_most"
   ],
   "note": "ZeroMQ delivers every message once, in any order; connections exist beforehand (as in C91)."
  },
  {
   "property": "C95",
   "status": "proved",
   "theorems": [
    "C95_wired",
    "C95_once",
    "C95_matched",
    "C95_star",
    "C95_bare",
    "C95_self",
    "C95_default_instances",
    "C95_default"
   ],
   "note": "Binding and connecting succeed. Which address leads where is a parameter. The files' texts are taken as the JSON values written out in WiringProps.v; the tokener is json-c's."
  },
  {
   "property": "C96",
   "status": "proved",
   "theorems": [
    "C96_origin",
    "C96_correlated",
    "C96_envelope",
    "C96_provider",
    "C96_provider_star",
    "C96_answered",
    "C96_answered_star",
    "C96_provider_tree",
    "C96_answered_tree"
   ],
   "note": "At rest; the exactness claims assume that no message is lost (no callback throws, the root bus is not stopped in between), that links, provider and consumer stay registered, and for answers that the invocation id is not used for two requests or before the request. zmq delivers every message once, as in C91."
  },
  {
   "property": "C97",
   "status": "proved",
   "theorems": [
    "C97_source",
    "C97_waits",
    "C97_inside",
    "C97_answered",
    "C97_answered_star",
    "C97_answered_tree",
    "C97_late",
    "C97_late_star"
   ],
   "note": "C97_late and C97_late_star show a defect: a provider on another process that answers after the timeout (ActionConsumer.cpp:64-70) makes the caller's process access dead locals. Exactness as in C96: no message lost, links and consumer registered, invocation ids not reused. One call of Request at a time is followed; others are ordinary steps of the bus."
  },
  {
   "property": "C98",
   "status": "proved",
   "theorems": [
    "C98_lines",
    "C98_first",
    "C98_rounds",
    "C98_published",
    "C98_silent",
    "C98_flag",
    "C98_stop",
    "C98_goes_on"
   ],
   "note": "C98_unsent_case shows that \"Sent datagram\" is also written when the publisher has been deleted and nothing is sent. That a line is written whole is C56; how the lambdas end is C78."
  },
  {
   "property": "C99",
   "status": "proved",
   "theorems": [
    "C99_same",
    "C99_load",
    "C99_opened",
    "C99_success",
    "C99_refused",
    "C99_undefined",
    "C99_all",
    "C99_all_undefined",
    "C99_unload",
    "C99_unload_undefined",
    "C99_instantiate",
    "C99_counts"
   ],
   "note": "Stated of the calls of the log; C99_paper_case shows that two different calls can look the same as text. That a line is written whole is C56."
  }
 ]
}