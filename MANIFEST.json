{
 "claims": [
  {
   "property": "C01",
   "status": "proved",
   "theorems": [
    "C01_lfs_linearizable",
    "C01_lfs_conservation",
    "C01_few_calls",
    "C01_lfs_index_next_race_refuted"
   ],
   "note": "On sequentially consistent memory (the C++ memory model: C88). The last theorem: the plain accesses of index_next race."
  },
  {
   "property": "C02",
   "status": "proved",
   "theorems": [
    "C02_lfs_sequential",
    "C02_lfs_large_capacity_refuted"
   ],
   "note": "The refuted theorem: a larger capacity (accepted by the constructor) breaks it."
  },
  {
   "property": "C03",
   "status": "proved",
   "theorems": [
    "C03_pool_exclusive",
    "C03_pool_shared",
    "C03_pool_concurrent"
   ],
   "note": "Sequential histories in full, and concurrent ones in which no call overlaps 65536 or more others (beyond it: C112)."
  },
  {
   "property": "C04",
   "status": "proved",
   "theorems": [
    "C04_deleted_exactly_once"
   ],
   "note": ""
  },
  {
   "property": "C05",
   "status": "proved",
   "theorems": [
    "C05_publish",
    "C05_publish_content",
    "C05_drop",
    "C05_accounting"
   ],
   "note": ""
  },
  {
   "property": "C06",
   "status": "proved",
   "theorems": [
    "C06_emit_exact",
    "C06_right_callback",
    "C06_call_recorded"
   ],
   "note": "Fewer than 2^32 registrations, as the property says."
  },
  {
   "property": "C07",
   "status": "proved",
   "theorems": [
    "C07_ids_unique",
    "C07_removal",
    "C07_state_is_log",
    "C07_id_wrap_refuted"
   ],
   "note": "The bound on registrations in the property is shown necessary by C07_id_wrap_refuted."
  },
  {
   "property": "C08",
   "status": "proved",
   "theorems": [
    "C08_once",
    "C06_call_recorded",
    "C08_only_one_off_removed_by_emissions"
   ],
   "note": ""
  },
  {
   "property": "C09",
   "status": "proved",
   "theorems": [
    "C09_multi_refines"
   ],
   "note": "Sequential histories, no call from inside a callback."
  },
  {
   "property": "C10",
   "status": "proved",
   "theorems": [
    "C10_stats_no_removal",
    "C10_stats"
   ],
   "note": ""
  },
  {
   "property": "C100",
   "status": "partial",
   "theorems": [
    "C100_after_foreign_exception_refuted",
    "C100_second_stop_refuted",
    "C79_stop_returns"
   ],
   "note": "False of the code in both cases: the stop never returns (refuted). The ordinary case is C79."
  },
  {
   "property": "C101",
   "status": "partial",
   "theorems": [
    "C101_halt_refuted",
    "C101_halt_before_refuted",
    "C80_alerted_stops"
   ],
   "note": "False of the code: halt() does not alert the barrier, so run() never returns unless somebody else alerts it (refuted); then it does (C80_alerted_stops)."
  },
  {
   "property": "C102",
   "status": "partial",
   "theorems": [
    "C102_error_misreported_refuted",
    "C102_long_paths_collide_refuted",
    "C102_accept_large_refuted"
   ],
   "note": "False of the code: the exception is about close() and the number is closed twice; longer paths are cut silently; a descriptor of 1024 or more writes outside of the fd_set (all refuted)."
  },
  {
   "property": "C103",
   "status": "partial",
   "theorems": [
    "C103_callback_changes_table_refuted",
    "C83_no_deadlock"
   ],
   "note": "False of the code: such a callback blocks for ever, and everybody else with it (refuted). Proved without it: C83_no_deadlock."
  },
  {
   "property": "C104",
   "status": "partial",
   "theorems": [
    "C104_size_one_refuted",
    "C104_size_zero_refuted",
    "C104_remaining_negative_refuted"
   ],
   "note": "False of the code: sizes 0 and 1 are accepted by the check; with several producers remaining_capacity can be negative (refuted)."
  },
  {
   "property": "C105",
   "status": "partial",
   "theorems": [
    "C105_alert_ignored_refuted",
    "C85_falls_back"
   ],
   "note": "False of the code: the loop does not look at the alert, so a halt is not noticed before the fallback (refuted); it does fall back in the end (C85_falls_back)."
  },
  {
   "property": "C106",
   "status": "proved",
   "theorems": [
    "C106_no_deadlock",
    "C106_ordered"
   ],
   "note": ""
  },
  {
   "property": "C107",
   "status": "proved",
   "theorems": [
    "C107_flow",
    "C107_newest_kept",
    "C107_everything_arrives",
    "C107_stops_in_order"
   ],
   "note": "Per-source order in every schedule of every network; arrival and stops under fair schedules for networks without cycles."
  },
  {
   "property": "C108",
   "status": "partial",
   "theorems": [
    "C108_own_queue_refuted",
    "C108_stop_order_refuted",
    "C107_everything_arrives",
    "C107_stops_in_order"
   ],
   "note": "False of the code, for every capacity: a listener that publishes to its own provider can block its polling thread for ever, and stop() of a provider does not return if its downstream provider was stopped first and is full (refuted). Proved without cycles and for stops in the direction of the events (C107)."
  },
  {
   "property": "C109",
   "status": "proved",
   "theorems": [
    "C109_accounting",
    "C109_refused_only_if_full",
    "C109_everything_handled",
    "C109_stops_any_order"
   ],
   "note": ""
  },
  {
   "property": "C11",
   "status": "proved",
   "theorems": [
    "C11_single_refines"
   ],
   "note": "Sequential histories."
  },
  {
   "property": "C110",
   "status": "proved",
   "theorems": [
    "C110_in_order",
    "C110_one_at_a_time",
    "C110_one_shot",
    "C110_no_publication_after_stop",
    "C110_after_stop",
    "C110_nothing_waiting",
    "C110_progress"
   ],
   "note": ""
  },
  {
   "property": "C111",
   "status": "partial",
   "theorems": [
    "C111_stop_is_final_refuted",
    "C110_after_stop",
    "C110_nothing_waiting"
   ],
   "note": "False of the code: for every m a schedule with m executions after the stop has returned (C111_stop_is_final_refuted). What does hold is C110."
  },
  {
   "property": "C112",
   "status": "partial",
   "theorems": [
    "C112_tag_wrap_refuted",
    "C01_lfs_tag_wrap_refuted",
    "C01_lfs_linearizable_partial",
    "C01_lfs_conservation_partial"
   ],
   "note": "False of the code: a 16-bit tag goes round. Proved when the tag of no stale snapshot has gone round, which C01 derives from the number of overlapping calls."
  },
  {
   "property": "C113",
   "status": "proved",
   "theorems": [
    "C113_no_race",
    "C113_serialisable",
    "C113_in_order",
    "C113_all_return"
   ],
   "note": ""
  },
  {
   "property": "C114",
   "status": "partial",
   "theorems": [
    "C114_service_refuted",
    "C114_publication_refuted",
    "C114_start_refuted"
   ],
   "note": "False of the code (three schedules). What holds is C113."
  },
  {
   "property": "C115",
   "status": "proved",
   "theorems": [
    "C115_event_loop",
    "C115_multiplexer",
    "C115_silent_after",
    "C115_returns",
    "C115_stops_return",
    "C115_terminated"
   ],
   "note": ""
  },
  {
   "property": "C116",
   "status": "partial",
   "theorems": [
    "C116_destroy_started_never_returns_refuted",
    "C116_destroy_started_terminates_refuted",
    "C116_freed_use_refuted",
    "C116_mux_timeout_unreported_refuted",
    "C116_mux_timeout_terminates_refuted",
    "C116_timeout_stop_hangs_refuted"
   ],
   "note": "False of the code. What holds is C115."
  },
  {
   "property": "C117",
   "status": "proved",
   "theorems": [
    "C117_content",
    "C117_exclusive",
    "C117_no_leak",
    "C117_all_back"
   ],
   "note": "The pool stack and the queue are atomic here; their own concurrency is C01, C03, C16, C24."
  },
  {
   "property": "C118",
   "status": "proved",
   "theorems": [
    "C118_quiet",
    "C118_quiet_timed",
    "C118_pushes_return",
    "C118_pops_return",
    "C118_rest"
   ],
   "note": "C118_quiet needs no timed pop; with timed pops (C118_quiet_timed) the alternative is the undefined behaviour refuted in C18."
  },
  {
   "property": "C119",
   "status": "partial",
   "theorems": [
    "C08_once_refuted",
    "C08_once_two_threads_refuted",
    "C08_once"
   ],
   "note": "False of the code (refuted). What holds is C08."
  },
  {
   "property": "C12",
   "status": "proved",
   "theorems": [
    "C12_removed_name_silent_multi_single",
    "C12_safe"
   ],
   "note": ""
  },
  {
   "property": "C120",
   "status": "partial",
   "theorems": [
    "C12_safe_refuted",
    "C12_safe",
    "C12_removed_name_silent_multi_single"
   ],
   "note": "False of the code (refuted). What holds is C12."
  },
  {
   "property": "C121",
   "status": "partial",
   "theorems": [
    "C13_answered_twice_refuted",
    "C13_throw_refuted",
    "C13_answers"
   ],
   "note": "False of the code (refuted). What holds is C13."
  },
  {
   "property": "C122",
   "status": "partial",
   "theorems": [
    "C19_zero_refuted",
    "C19_copy_refuted",
    "C19_nonblocking"
   ],
   "note": "False of the code for the blocking pushes (they block for ever) and for copies. What holds is C19."
  },
  {
   "property": "C123",
   "status": "partial",
   "theorems": [
    "C20_lost_wakeup_refuted",
    "C20_swap_refuted",
    "C20_consumers_woken",
    "C20_producers_woken"
   ],
   "note": "False of the code (refuted). What holds is C20."
  },
  {
   "property": "C124",
   "status": "partial",
   "theorems": [
    "C22_refuted",
    "C22_forever",
    "C22_stops"
   ],
   "note": "False of the code (refuted). What holds is C22."
  },
  {
   "property": "C125",
   "status": "partial",
   "theorems": [
    "C27_start_stop_refuted",
    "C27_halt_before_run_refuted",
    "C27_stops"
   ],
   "note": "False of the code (refuted). What holds is C27."
  },
  {
   "property": "C126",
   "status": "partial",
   "theorems": [
    "C29_refuted",
    "C29_not_running_never_handled",
    "C29_stop_drops_the_rest"
   ],
   "note": "False of the code for every history (C29_not_running_never_handled)."
  },
  {
   "property": "C127",
   "status": "partial",
   "theorems": [
    "C31_held_refuted",
    "C31_model_event_refuted"
   ],
   "note": "False of the code (refuted). What holds is C31."
  },
  {
   "property": "C128",
   "status": "partial",
   "theorems": [
    "C34_reset_refuted",
    "C34_reset_fresh"
   ],
   "note": "False of the code (refuted). What holds is C34."
  },
  {
   "property": "C129",
   "status": "partial",
   "theorems": [
    "C39_overwrite_refuted",
    "C39_first_write_wins"
   ],
   "note": "False of the code (refuted). What holds is C39."
  },
  {
   "property": "C13",
   "status": "proved",
   "theorems": [
    "C13_answers"
   ],
   "note": ""
  },
  {
   "property": "C130",
   "status": "partial",
   "theorems": [
    "C41_detach_refuted",
    "C41_publication_detach_clears",
    "C41_detach_exact"
   ],
   "note": "False of the code (refuted). What holds is C41."
  },
  {
   "property": "C131",
   "status": "partial",
   "theorems": [
    "C51_process_sees_stale_event_refuted",
    "C51_process_fresh"
   ],
   "note": "False of the code (refuted). What holds is C51."
  },
  {
   "property": "C132",
   "status": "partial",
   "theorems": [
    "C52_removed_not_invoked_refuted",
    "C52_removed_not_invoked"
   ],
   "note": "False of the code (refuted). What holds is C52."
  },
  {
   "property": "C133",
   "status": "partial",
   "theorems": [
    "C53_single_refuted",
    "C53_safe_refuted",
    "C53_multi_no_null"
   ],
   "note": "False of the code (refuted). What holds is C53."
  },
  {
   "property": "C134",
   "status": "partial",
   "theorems": [
    "C54_stats_query_refuted",
    "C54_single_refuted",
    "C54_multi"
   ],
   "note": "False of the code (refuted). What holds is C54."
  },
  {
   "property": "C135",
   "status": "partial",
   "theorems": [
    "C56_refuted",
    "C56_no_termination"
   ],
   "note": "False of the code (refuted). What holds is C56."
  },
  {
   "property": "C136",
   "status": "partial",
   "theorems": [
    "C59_lite_refuted",
    "C59_wakes"
   ],
   "note": "False of the code (refuted). What holds is C59."
  },
  {
   "property": "C137",
   "status": "partial",
   "theorems": [
    "C60_reentrant_refuted",
    "C60_register_inside_refuted",
    "C60_only_inside",
    "C60_observers_agree"
   ],
   "note": "False of the code (refuted). What holds is C60."
  },
  {
   "property": "C138",
   "status": "partial",
   "theorems": [
    "C61_colon_refuted",
    "C61_listener_own_machine"
   ],
   "note": "False of the code (refuted). What holds is C61."
  },
  {
   "property": "C139",
   "status": "partial",
   "theorems": [
    "C65_discards_refuted",
    "C65_discards_exact"
   ],
   "note": "False of the code (refuted). What holds is C65."
  },
  {
   "property": "C14",
   "status": "proved",
   "theorems": [
    "C14_below_peak",
    "C14_room"
   ],
   "note": ""
  },
  {
   "property": "C140",
   "status": "partial",
   "theorems": [
    "C66_released_refuted",
    "C66_released_after_handling"
   ],
   "note": "False of the code (refuted). What holds is C66."
  },
  {
   "property": "C141",
   "status": "partial",
   "theorems": [
    "C68_truncated_refuted",
    "C68_always_a_prefix"
   ],
   "note": "False of the code (refuted). What holds is C68."
  },
  {
   "property": "C142",
   "status": "partial",
   "theorems": [
    "C70_refuted",
    "C70_load_refuted",
    "C70_turns"
   ],
   "note": "False of the code (refuted). What holds is C70."
  },
  {
   "property": "C143",
   "status": "partial",
   "theorems": [
    "C72_register_again_refuted",
    "C72_framing_refuted",
    "C72_dispatch"
   ],
   "note": "False of the code (refuted). What holds is C72."
  },
  {
   "property": "C144",
   "status": "partial",
   "theorems": [
    "C73_stale_bytes_refuted",
    "C73_binary_length"
   ],
   "note": "False of the code (refuted). What holds is C73."
  },
  {
   "property": "C145",
   "status": "partial",
   "theorems": [
    "C75_running_refuted",
    "C75_stopped_first"
   ],
   "note": "False of the code (refuted). What holds is C75."
  },
  {
   "property": "C146",
   "status": "partial",
   "theorems": [
    "C10_stats_available_refuted",
    "C10_stats_never_throws_refuted",
    "C10_stats"
   ],
   "note": "False of the code (refuted). What holds is C10."
  },
  {
   "property": "C147",
   "status": "partial",
   "theorems": [
    "C18_spurious_refuted",
    "C18_stolen_refuted",
    "C18_single_consumer"
   ],
   "note": "False of the code (refuted). What holds is C18."
  },
  {
   "property": "C148",
   "status": "partial",
   "theorems": [
    "C57_refuted",
    "C57_stopped_first"
   ],
   "note": "False of the code (refuted). What holds is C57."
  },
  {
   "property": "C149",
   "status": "proved",
   "theorems": [
    "C149_scans"
   ],
   "note": ""
  },
  {
   "property": "C15",
   "status": "proved",
   "theorems": [
    "C15_counter_and_event",
    "C15_any_number"
   ],
   "note": "The counter is a 32-bit int: equality for fewer than 2^31 events, congruence beyond."
  },
  {
   "property": "C150",
   "status": "partial",
   "theorems": [
    "C150_start_while_publishing_refuted",
    "C150_two_starts_refuted",
    "C150_double_free_refuted",
    "C149_scans"
   ],
   "note": "False of the code (refuted, the first for every ring whose vector is full: when the second, third, fifth, ... consumer is started). What holds is C149."
  },
  {
   "property": "C151",
   "status": "proved",
   "theorems": [
    "C151_read_in_order",
    "C151_all_read",
    "C151_answers",
    "C151_refused_only_if_full",
    "C151_returns"
   ],
   "note": ""
  },
  {
   "property": "C152",
   "status": "partial",
   "theorems": [
    "C152_lost_refuted",
    "C152_unwritten_refuted",
    "C151_read_in_order",
    "C151_all_read"
   ],
   "note": "False of the code (refuted for every ring size; the provider says nowhere that one thread only may publish). What holds is C151."
  },
  {
   "property": "C153",
   "status": "partial",
   "theorems": [
    "C14_reentrant_request_refuted",
    "C14_mt_refuted",
    "C14_mt_self_deadlock",
    "C14_below_peak"
   ],
   "note": "False of the code (refuted). What holds is C14."
  },
  {
   "property": "C154",
   "status": "partial",
   "theorems": [
    "C47_stopped_in_time_refuted",
    "C47_name_in_use_refuted",
    "C47_destroyed_in_use_refuted",
    "C47_stopped_at_once"
   ],
   "note": "False of the code (refuted). What holds is C47."
  },
  {
   "property": "C155",
   "status": "partial",
   "theorems": [
    "C62_missing_reported_found_refuted",
    "C62_set_ignored_refuted",
    "C62_get_string"
   ],
   "note": "False of the code (refuted). What holds is C62."
  },
  {
   "property": "C156",
   "status": "partial",
   "theorems": [
    "C78_refuted",
    "C78_ended_consumer_starves_all",
    "C78_then_all_refused",
    "C78_freed_memory_read"
   ],
   "note": "False of the code (refuted). What holds is C78."
  },
  {
   "property": "C157",
   "status": "partial",
   "theorems": [
    "C90_finalized_before_deleted_refuted",
    "C90_finalized_exactly"
   ],
   "note": "False of the code (refuted). What holds is C90."
  },
  {
   "property": "C158",
   "status": "partial",
   "theorems": [
    "C91_report_refuted",
    "C91_report"
   ],
   "note": "False of the code (refuted). What holds is C91."
  },
  {
   "property": "C159",
   "status": "partial",
   "theorems": [
    "C92_drain_refuted",
    "C92_crash_refuted",
    "C92_throw_silences",
    "C92_delivered"
   ],
   "note": "False of the code (refuted). What holds is C92."
  },
  {
   "property": "C16",
   "status": "proved",
   "theorems": [
    "C16_linearizable",
    "C16_fifo_bounded"
   ],
   "note": "Critical sections are atomic steps."
  },
  {
   "property": "C160",
   "status": "partial",
   "theorems": [
    "C93_no_overrun_refuted",
    "C93_overflow_refuted",
    "C93_no_overrun"
   ],
   "note": "False of the code (refuted). What holds is C93."
  },
  {
   "property": "C161",
   "status": "partial",
   "theorems": [
    "C94_remove_actions_refuted",
    "C94_restart_reruns_entry_actions_refuted"
   ],
   "note": "False of the code (refuted). What holds is C94."
  },
  {
   "property": "C162",
   "status": "partial",
   "theorems": [
    "C95_blank_in_value_refuted",
    "C95_tab_line_refuted",
    "C95_hex_refuted",
    "C95_blank_in_key_refuted",
    "C95_crlf_refuted",
    "C95_get_string"
   ],
   "note": "False of the code (refuted). What holds is C95."
  },
  {
   "property": "C163",
   "status": "partial",
   "theorems": [
    "C96_skips_other_types_refuted",
    "C96_merge"
   ],
   "note": "False of the code (refuted). What holds is C96."
  },
  {
   "property": "C164",
   "status": "partial",
   "theorems": [
    "C97_stopped_refuted",
    "C97_concurrent_attach_and_stop_refuted"
   ],
   "note": "False of the code (refuted). What holds is C97."
  },
  {
   "property": "C165",
   "status": "partial",
   "theorems": [
    "C98_short_message_refuted",
    "C98_bounds"
   ],
   "note": "False of the code (refuted). What holds is C98."
  },
  {
   "property": "C166",
   "status": "partial",
   "theorems": [
    "C106_swap_deadlock_refuted",
    "C106_ordered"
   ],
   "note": "False of the code (refuted). What holds is C106."
  },
  {
   "property": "C167",
   "status": "proved",
   "theorems": [
    "C167_get_hex",
    "C167_get_bool",
    "C167_no_digits_rejected",
    "C167_trailing_ignored",
    "C167_blank_text_refused"
   ],
   "note": "libstdc++ behaviour of istringstream >> int/bool; float is not modelled."
  },
  {
   "property": "C168",
   "status": "partial",
   "theorems": [
    "C168_words_refuted",
    "C168_hex_range_refuted",
    "C167_get_hex",
    "C167_get_bool"
   ],
   "note": "False of the code (refuted). What holds is C167."
  },
  {
   "property": "C169",
   "status": "proved",
   "theorems": [
    "C169_by_name",
    "C169_alive",
    "C169_returns"
   ],
   "note": "setContainer of the base class Subscriber (not in the repository) is taken to store the container."
  },
  {
   "property": "C17",
   "status": "proved",
   "theorems": [
    "C17_accounting",
    "C17_force_minimal",
    "C17_force_never_waits"
   ],
   "note": ""
  },
  {
   "property": "C170",
   "status": "partial",
   "theorems": [
    "C170_refuted",
    "C169_by_name",
    "C169_alive"
   ],
   "note": "False of the code (refuted for every name: the map has no lock). What holds is C169."
  },
  {
   "property": "C171",
   "status": "proved",
   "theorems": [
    "C171_ordered",
    "C171_popped",
    "C171_conservation"
   ],
   "note": "The model of C88 with acquiring loads. That compiled code on x86 keeps the order of the accesses in the source (in particular of the plain links) is assumed."
  },
  {
   "property": "C172",
   "status": "proved",
   "theorems": [
    "C172_ordered",
    "C172_reads"
   ],
   "note": "The model of C87 with synchronising flags. That compiled code on x86 keeps the order of the accesses in the source (the flags are plain ints) is assumed."
  },
  {
   "property": "C173",
   "status": "proved",
   "theorems": [
    "C173_released",
    "C173_nothing_to_close",
    "C173_moved_from"
   ],
   "note": "What holds of C44."
  },
  {
   "property": "C174",
   "status": "proved",
   "theorems": [
    "C174_names_apart",
    "C174_nobody",
    "C174_registry_multi",
    "C174_registry_safe"
   ],
   "note": "Sequential calls. With C54 the subscriber of a name is the registry of the listeners of that name."
  },
  {
   "property": "C175",
   "status": "partial",
   "theorems": [
    "C175_single_refuted",
    "C174_names_apart"
   ],
   "note": "False of the code (refuted for every pair of names). What holds is C174."
  },
  {
   "property": "C176",
   "status": "proved",
   "theorems": [
    "C176_never_more",
    "C176_exact",
    "C176_pool_complete",
    "C176_handed_on",
    "C176_pooled"
   ],
   "note": "Getting and returning a pooled object are single steps (C01, C88, C171 are about the stack)."
  },
  {
   "property": "C177",
   "status": "partial",
   "theorems": [
    "C177_refuted",
    "C176_never_more",
    "C176_exact"
   ],
   "note": "False of the code (refuted for every pool size). What holds is C176."
  },
  {
   "property": "C178",
   "status": "partial",
   "theorems": [
    "C178_refuted",
    "C176_exact"
   ],
   "note": "False of the code (refuted for every pool size and number of publications). What holds is C176."
  },
  {
   "property": "C179",
   "status": "proved",
   "theorems": [
    "C179_waits",
    "C179_ends",
    "C179_enough"
   ],
   "note": "Non-negative template arguments (the defaults are 100 and 200). The blocking strategies are in C16, C89 and the phased one in C85."
  },
  {
   "property": "C18",
   "status": "proved",
   "theorems": [
    "C18_single_consumer"
   ],
   "note": ""
  },
  {
   "property": "C180",
   "status": "proved",
   "theorems": [
    "C180_reached",
    "C180_tasks_run"
   ],
   "note": "Sequential calls; ids of the safe emitter do not wrap (fewer than 2^32 calls)."
  },
  {
   "property": "C181",
   "status": "partial",
   "theorems": [
    "C181_single_refuted",
    "C181_multi_refuted",
    "C180_reached"
   ],
   "note": "False of the code (refuted for every name and number of functions). What holds is C180."
  },
  {
   "property": "C182",
   "status": "proved",
   "theorems": [
    "C182_not_held",
    "C182_enters"
   ],
   "note": "A callback that calls the handler of its own thread blocks for ever instead (C14_mt_self_deadlock): such a thread is inside its call."
  },
  {
   "property": "C183",
   "status": "proved",
   "theorems": [
    "C183_is_running"
   ],
   "note": ""
  },
  {
   "property": "C184",
   "status": "partial",
   "theorems": [
    "C184_refuted",
    "C183_is_running"
   ],
   "note": "False of the code. What holds is C183."
  },
  {
   "property": "C185",
   "status": "proved",
   "theorems": [
    "C185_destructor_returns",
    "C185_stopped_first"
   ],
   "note": "Fair schedules: five rounds with a step of each thread. Without stop() first, the alternative outcome is the use of a destroyed object (C148)."
  },
  {
   "property": "C186",
   "status": "proved",
   "theorems": [
    "C186_stats",
    "C186_other_ids",
    "C186_none"
   ],
   "note": "Sequential histories."
  },
  {
   "property": "C187",
   "status": "proved",
   "theorems": [
    "C187_no_dangling",
    "C187_exact"
   ],
   "note": "Sequential calls; the names of the statistics are given with the registration (the SDK computes them)."
  },
  {
   "property": "C188",
   "status": "partial",
   "theorems": [
    "C188_same_name_refuted",
    "C188_two_providers_refuted",
    "C188_set_container_twice_refuted",
    "C188_other_container_refuted",
    "C188_detach_reads_refuted",
    "C187_no_dangling"
   ],
   "note": "False of the code. What holds is C187."
  },
  {
   "property": "C189",
   "status": "proved",
   "theorems": [
    "C189_stop_returns",
    "C189_destroy_returns",
    "C189_silent_when_stopped",
    "C189_forwarded"
   ],
   "note": "One calling thread; sequentially consistent memory."
  },
  {
   "property": "C19",
   "status": "proved",
   "theorems": [
    "C19_nonblocking",
    "C19_copy_linearizable",
    "C19_copy_first"
   ],
   "note": ""
  },
  {
   "property": "C190",
   "status": "partial",
   "theorems": [
    "C190_stop_hangs_refuted",
    "C189_stop_returns"
   ],
   "note": "False of the code. What holds is C189."
  },
  {
   "property": "C191",
   "status": "partial",
   "theorems": [
    "C191_nothing_before_publication",
    "C191_failed_counted_refuted"
   ],
   "note": "False of the code in general; the first theorem is what holds until the next publication."
  },
  {
   "property": "C192",
   "status": "proved",
   "theorems": [
    "C192_constructor",
    "C192_starts_the_model"
   ],
   "note": "The second theorem: this is the state the model of C01, C02 starts from. Capacities over 65535 are refuted in C02_lfs_large_capacity_refuted."
  },
  {
   "property": "C193",
   "status": "partial",
   "theorems": [
    "C193_zero_refuted",
    "C192_constructor"
   ],
   "note": "False of the code (refuted). What holds is C192."
  },
  {
   "property": "C194",
   "status": "proved",
   "theorems": [
    "C194_entry_actions",
    "C194_periodic_actions",
    "C194_one_off_actions"
   ],
   "note": "Reading the file is cereal's: a file is taken to contain a description."
  },
  {
   "property": "C195",
   "status": "partial",
   "theorems": [
    "C195_empty_id_refuted",
    "C194_entry_actions"
   ],
   "note": "False of the code (refuted). What holds is C194."
  },
  {
   "property": "C196",
   "status": "proved",
   "theorems": [
    "C196_accounting",
    "C196_one_thread"
   ],
   "note": "Taking an element from the pool and giving it back are single steps here (the lock-free stack is C01 and following)."
  },
  {
   "property": "C197",
   "status": "partial",
   "theorems": [
    "C197_leak_refuted",
    "C196_accounting",
    "C196_one_thread"
   ],
   "note": "False of the code (refuted). What holds is C196."
  },
  {
   "property": "C198",
   "status": "proved",
   "theorems": [
    "C198_container_lists_listeners"
   ],
   "note": "The name of a statistics object is computed by the SDK (not in the repository): it is taken to be the pair of listener and event."
  },
  {
   "property": "C199",
   "status": "partial",
   "theorems": [
    "C199_mixed_refuted",
    "C198_container_lists_listeners"
   ],
   "note": "False of the code (refuted). What holds is C198."
  },
  {
   "property": "C20",
   "status": "proved",
   "theorems": [
    "C20_consumers_woken",
    "C20_producers_woken"
   ],
   "note": "That such a state is reached under fair scheduling, and that calls return, is C118."
  },
  {
   "property": "C200",
   "status": "partial",
   "theorems": [
    "C200_link_race_refuted",
    "C200_stale_link_refuted",
    "C201_handed_over",
    "C201_content_race_free"
   ],
   "note": "False of the code (refuted). What holds is C201, and C01 on sequentially consistent memory."
  },
  {
   "property": "C201",
   "status": "proved",
   "theorems": [
    "C201_handed_over",
    "C201_content_race_free",
    "C201_answers",
    "C201_tags",
    "C201_values",
    "C201_once",
    "C201_nothing_lost",
    "C201_new_stack",
    "C201_drain"
   ],
   "note": "That calls take only nodes that are on the list is C01 on sequentially consistent memory; on weak memory it may fail (C200)."
  },
  {
   "property": "C202",
   "status": "proved",
   "theorems": [
    "C202_own_bytes",
    "C202_server_survives",
    "C202_exchange",
    "C202_completes",
    "C202_gone"
   ],
   "note": "About the example programs, built on the ProtocolSimple model of C43; descriptors other than 0 (C43_descriptor_zero_refuted)."
  },
  {
   "property": "C203",
   "status": "partial",
   "theorems": [
    "C203_other_client_refuted",
    "C203_idle_refuted",
    "C202_exchange"
   ],
   "note": "False of the code (refuted). What holds is C202."
  },
  {
   "property": "C204",
   "status": "proved",
   "theorems": [
    "C204_set_up_first",
    "C204_register_any_time",
    "C204_answers"
   ],
   "note": "Without a container. A read of a plain object gives the latest write as a whole, which is exact where there is no race; in C204_register_any_time the event name may be raced on (C205)."
  },
  {
   "property": "C205",
   "status": "partial",
   "theorems": [
    "C205_refuted",
    "C205_name_race_refuted",
    "C205_callback_race_refuted",
    "C205_wrong_listener_refuted",
    "C204_set_up_first",
    "C204_register_any_time"
   ],
   "note": "False of the code (refuted). What holds is C204."
  },
  {
   "property": "C21",
   "status": "proved",
   "theorems": [
    "C21_flow",
    "C21_order",
    "C21_blocking_exact"
   ],
   "note": ""
  },
  {
   "property": "C22",
   "status": "proved",
   "theorems": [
    "C22_stops",
    "C22_starts",
    "C22_stopped"
   ],
   "note": ""
  },
  {
   "property": "C23",
   "status": "proved",
   "theorems": [
    "C23_contiguous",
    "C23_no_overrun",
    "C23_refusal_justified",
    "C23_claim_fits",
    "C23_content",
    "C23_lazy_publish_refuted",
    "C23_late_registration_refuted"
   ],
   "note": "The two refuted theorems show that the proviso of the statement is necessary."
  },
  {
   "property": "C24",
   "status": "proved",
   "theorems": [
    "C24_unique",
    "C24_refusal_justified"
   ],
   "note": ""
  },
  {
   "property": "C25",
   "status": "proved",
   "theorems": [
    "C25_only_published",
    "C25_content",
    "C25_is_available",
    "C25_all_published",
    "C25_becomes_visible"
   ],
   "note": "Beyond the range of the statement C93_no_overrun_refuted shows a wrong event being delivered; memory is sequentially consistent in the model."
  },
  {
   "property": "C26",
   "status": "proved",
   "theorems": [
    "C26_exactly_once",
    "C26_end_of_batch"
   ],
   "note": "Exceptions other than std::exception end the processor (C27)."
  },
  {
   "property": "C27",
   "status": "proved",
   "theorems": [
    "C27_stops"
   ],
   "note": ""
  },
  {
   "property": "C28",
   "status": "proved",
   "theorems": [
    "C28_order",
    "C28_program_order",
    "C28_only_own_name",
    "C28_calls_in_order",
    "C28_every_listener",
    "C28_at_most_once",
    "C28_all_handled",
    "C28_throw_skips_listeners"
   ],
   "note": "C28_throw_skips_listeners shows the exception in the statement is needed."
  },
  {
   "property": "C29",
   "status": "proved",
   "theorems": [
    "C29_running_is_handled",
    "C29_loop_catches_up",
    "C29_handled_in_order",
    "C29_never_refused_before_start",
    "C29_not_running_never_handled",
    "C29_stop_drops_the_rest"
   ],
   "note": ""
  },
  {
   "property": "C30",
   "status": "proved",
   "theorems": [
    "C30_newest",
    "C30_batch"
   ],
   "note": ""
  },
  {
   "property": "C31",
   "status": "proved",
   "theorems": [
    "C31_held",
    "C31_unconsumed"
   ],
   "note": ""
  },
  {
   "property": "C32",
   "status": "proved",
   "theorems": [
    "C32_update",
    "C32_start",
    "C32_stop",
    "C32_enqueue_and_update",
    "C32_stopped",
    "C32_history",
    "C32_deterministic"
   ],
   "note": "update and start are proved to completion with observers that do not call the machine; the history theorem holds for arbitrary re-entrant observers. Re-entrant notification order is C60."
  },
  {
   "property": "C33",
   "status": "proved",
   "theorems": [
    "C33_current_is_described",
    "C33_only_described_transitions",
    "C33_undescribed_target_stuck",
    "C33_undescribed_target_refuted"
   ],
   "note": "For well-formed descriptions, as stated; the refuted theorem: the factory accepts an undescribed target, which leaves the machine stuck."
  },
  {
   "property": "C34",
   "status": "proved",
   "theorems": [
    "C34_reset",
    "C34_reset_fresh",
    "C34_fresh_reachable"
   ],
   "note": ""
  },
  {
   "property": "C35",
   "status": "proved",
   "theorems": [
    "C35_listener",
    "C35_one_off_at_most_once"
   ],
   "note": ""
  },
  {
   "property": "C36",
   "status": "proved",
   "theorems": [
    "C36_contents",
    "C36_no_separator_rejected",
    "C36_no_key_rejected",
    "C36_no_value_rejected",
    "C36_get_missing",
    "C36_get_int"
   ],
   "note": ""
  },
  {
   "property": "C37",
   "status": "proved",
   "theorems": [
    "C37_latest_on_path",
    "C37_environment",
    "C37_collision_refuted"
   ],
   "note": "C37_latest_on_path holds for all keys; the refuted theorem: with '/' in keys two different (root, key) pairs collide."
  },
  {
   "property": "C38",
   "status": "proved",
   "theorems": [
    "C38_result",
    "C38_keeps"
   ],
   "note": ""
  },
  {
   "property": "C39",
   "status": "proved",
   "theorems": [
    "C39_first_write_wins",
    "C39_type_mismatch_refused",
    "C39_get_own_type",
    "C39_copy_keeps",
    "C39_copy_adds",
    "C39_copy_nothing_else"
   ],
   "note": ""
  },
  {
   "property": "C40",
   "status": "proved",
   "theorems": [
    "C40_mem_env",
    "C40_root_ignored_refuted"
   ],
   "note": "Proved for the key (root is ignored by this environment, shown separately)."
  },
  {
   "property": "C41",
   "status": "proved",
   "theorems": [
    "C41_detach_exact"
   ],
   "note": ""
  },
  {
   "property": "C42",
   "status": "proved",
   "theorems": [
    "C42_started_while_running",
    "C42_stop_stops_all",
    "C42_concurrent_attach_and_start",
    "C42_concurrent_never_started"
   ],
   "note": ""
  },
  {
   "property": "C43",
   "status": "proved",
   "theorems": [
    "C43_received_is_sent",
    "C43_no_exception",
    "C43_always_received",
    "C43_descriptor_zero_refuted",
    "C43_no_capacity_refuted"
   ],
   "note": "The two refuted theorems show that the hypotheses (descriptor not 0, spare capacity in a fresh std::string) are needed."
  },
  {
   "property": "C44",
   "status": "partial",
   "theorems": [
    "C44_closed_object_partial",
    "C44_success_throws",
    "C44_failure_returns",
    "C44_stale_eintr",
    "C44_refuted",
    "C44_closes_foreign_descriptor_refuted"
   ],
   "note": "False of the code (the test of the result is inverted): the theorems give the exact behaviour. What holds is C173, and C69 without explicit close()."
  },
  {
   "property": "C45",
   "status": "proved",
   "theorems": [
    "C45_round_trip",
    "C45_identity",
    "C45_stream_in_bounds"
   ],
   "note": ""
  },
  {
   "property": "C46",
   "status": "proved",
   "theorems": [
    "C46_update_reaches",
    "C46_whole_configuration",
    "C46_own_updates_ignored",
    "C46_other_keys_ignored",
    "C46_same_millisecond_refuted"
   ],
   "note": "The refuted theorem: environments created in the same millisecond ignore each other for ever."
  },
  {
   "property": "C47",
   "status": "proved",
   "theorems": [
    "C76_one_shot_at_most_once",
    "C47_stopped_at_once"
   ],
   "note": ""
  },
  {
   "property": "C48",
   "status": "proved",
   "theorems": [
    "C48_answers_have_the_requested_type",
    "C48_publisher_by_name",
    "C48_subscriber_by_name",
    "C48_one_scheduler",
    "C48_types_refuted"
   ],
   "note": "C48_types_refuted: without the hypothesis on the program the answer is silently of another type, or a destroyed object."
  },
  {
   "property": "C49",
   "status": "proved",
   "theorems": [
    "C49_after_dependencies"
   ],
   "note": ""
  },
  {
   "property": "C50",
   "status": "proved",
   "theorems": [
    "C50_events_drive_the_service",
    "C50_destroyed_service_called_refuted"
   ],
   "note": "The refuted theorem: the destructor does not unregister, so a destroyed service is called."
  },
  {
   "property": "C51",
   "status": "proved",
   "theorems": [
    "C51_process_fresh"
   ],
   "note": ""
  },
  {
   "property": "C52",
   "status": "proved",
   "theorems": [
    "C52_removed_not_invoked"
   ],
   "note": ""
  },
  {
   "property": "C53",
   "status": "proved",
   "theorems": [
    "C53_multi_no_null",
    "C53_single"
   ],
   "note": ""
  },
  {
   "property": "C54",
   "status": "proved",
   "theorems": [
    "C54_multi",
    "C54_safe"
   ],
   "note": ""
  },
  {
   "property": "C55",
   "status": "proved",
   "theorems": [
    "C55_exclusive",
    "C55_all_released",
    "C55_bounded_steps"
   ],
   "note": ""
  },
  {
   "property": "C56",
   "status": "proved",
   "theorems": [
    "C56_no_termination"
   ],
   "note": ""
  },
  {
   "property": "C57",
   "status": "proved",
   "theorems": [
    "C57_stopped_first",
    "C57_not_destroyed"
   ],
   "note": ""
  },
  {
   "property": "C58",
   "status": "proved",
   "theorems": [
    "C58_failed_never_delivered",
    "C58_content"
   ],
   "note": "One publishing thread. A process function that throws is taken not to have changed the event before (what it wrote is overwritten by the publication that reuses the slot; see C127 for events that listeners keep)."
  },
  {
   "property": "C59",
   "status": "proved",
   "theorems": [
    "C59_wakes"
   ],
   "note": ""
  },
  {
   "property": "C60",
   "status": "proved",
   "theorems": [
    "C60_observers_agree"
   ],
   "note": ""
  },
  {
   "property": "C61",
   "status": "proved",
   "theorems": [
    "C61_listener_own_machine",
    "C61_other_names_run_nothing"
   ],
   "note": ""
  },
  {
   "property": "C62",
   "status": "proved",
   "theorems": [
    "C62_file_string",
    "C62_file_int",
    "C62_file_bool",
    "C62_file_duplicate",
    "C62_get_string",
    "C62_get_int",
    "C62_get_bool",
    "C62_load_file"
   ],
   "note": "From the text of the file (any layout with blanks, comments and empty lines) to the result of the getters. Float values are not modelled."
  },
  {
   "property": "C63",
   "status": "proved",
   "theorems": [
    "C63_discards",
    "C63_discards_in_words"
   ],
   "note": "For fewer than 2^32 registrations."
  },
  {
   "property": "C64",
   "status": "proved",
   "theorems": [
    "C64_sequence"
   ],
   "note": ""
  },
  {
   "property": "C65",
   "status": "proved",
   "theorems": [
    "C65_discards_exact",
    "C65_discards_never_over"
   ],
   "note": ""
  },
  {
   "property": "C66",
   "status": "proved",
   "theorems": [
    "C66_released_after_handling"
   ],
   "note": ""
  },
  {
   "property": "C67",
   "status": "proved",
   "theorems": [
    "C67_running_events_are_handled",
    "C67_handled_was_accepted",
    "C29_handled_in_order"
   ],
   "note": ""
  },
  {
   "property": "C68",
   "status": "proved",
   "theorems": [
    "C68_always_a_prefix"
   ],
   "note": ""
  },
  {
   "property": "C69",
   "status": "proved",
   "theorems": [
    "C69_one_owner",
    "C69_others_untouched",
    "C69_all_closed_at_the_end"
   ],
   "note": ""
  },
  {
   "property": "C70",
   "status": "proved",
   "theorems": [
    "C70_turns"
   ],
   "note": ""
  },
  {
   "property": "C71",
   "status": "proved",
   "theorems": [
    "C71_end_to_end",
    "C71_end_to_end_exact",
    "C71_exact_content"
   ],
   "note": ""
  },
  {
   "property": "C72",
   "status": "proved",
   "theorems": [
    "C72_dispatch",
    "C72_unregistered_gets_nothing"
   ],
   "note": ""
  },
  {
   "property": "C73",
   "status": "proved",
   "theorems": [
    "C73_starts_with_event",
    "C73_binary_length"
   ],
   "note": ""
  },
  {
   "property": "C74",
   "status": "proved",
   "theorems": [
    "C74_one_channel_per_topic"
   ],
   "note": ""
  },
  {
   "property": "C75",
   "status": "proved",
   "theorems": [
    "C75_stopped_first"
   ],
   "note": ""
  },
  {
   "property": "C76",
   "status": "proved",
   "theorems": [
    "C76_one_shot_at_most_once",
    "C76_stop_is_final",
    "C76_at_most_one_after_stop",
    "C76_not_terminated",
    "C76_stop_returns",
    "C76_repeats"
   ],
   "note": "All schedules of the calling thread and of any number of task threads."
  },
  {
   "property": "C77",
   "status": "proved",
   "theorems": [
    "C77_reentrant_emit",
    "C77_single_reentrant_emit",
    "C77_register_inside_refuted",
    "C77_remove_inside_refuted",
    "C77_single_remove_inside_refuted"
   ],
   "note": "The _refuted theorems show that the rule in the statement is necessary."
  },
  {
   "property": "C78",
   "status": "proved",
   "theorems": [
    "C78_removed_first",
    "C78_room"
   ],
   "note": ""
  },
  {
   "property": "C79",
   "status": "proved",
   "theorems": [
    "C79_stop_returns"
   ],
   "note": ""
  },
  {
   "property": "C80",
   "status": "proved",
   "theorems": [
    "C80_cursor",
    "C80_sequence",
    "C80_sequence_mono",
    "C80_follows",
    "C80_alerted_stops",
    "C80_run_forgets_alerts",
    "C80_running"
   ],
   "note": ""
  },
  {
   "property": "C81",
   "status": "proved",
   "theorems": [
    "C81_order",
    "C81_accounting",
    "C81_count",
    "C81_oldest_discarded",
    "C81_blocking_lossless",
    "C81_discarding_returns",
    "C81_delivered",
    "C81_blocking_returns",
    "C81_blocking_needs_poller",
    "C81_stop",
    "C81_started",
    "C81_started_delivers"
   ],
   "note": "The behaviour of the queue library is a hypothesis, stated in the property; C81_blocking_needs_poller shows that the poller is needed."
  },
  {
   "property": "C82",
   "status": "proved",
   "theorems": [
    "C82_constructed_iff",
    "C82_server_iff",
    "C82_client_iff",
    "C82_constructed_closes_nothing",
    "C82_closes_only_own",
    "C82_socket_fails",
    "C82_failed_releases",
    "C82_interrupted",
    "C82_path",
    "C82_paths_distinct",
    "C82_accept",
    "C82_accept_timeout"
   ],
   "note": ""
  },
  {
   "property": "C83",
   "status": "proved",
   "theorems": [
    "C83_calls_registered",
    "C83_unregister_waits",
    "C83_unregister_final",
    "C83_one_at_a_time",
    "C83_no_deadlock",
    "C83_delivered",
    "C83_looked_up"
   ],
   "note": ""
  },
  {
   "property": "C84",
   "status": "proved",
   "theorems": [
    "C84_slot",
    "C84_slot_and_lap",
    "C84_slot_shared",
    "C84_window",
    "C84_size_accepted",
    "C84_log2",
    "C84_log2_terminates",
    "C84_log2_pow",
    "C84_minimum",
    "C84_group",
    "C84_remaining_safe",
    "C84_remaining_exact",
    "C84_remaining_single"
   ],
   "note": ""
  },
  {
   "property": "C85",
   "status": "proved",
   "theorems": [
    "C85_returns_first",
    "C85_returns_at_once",
    "C85_falls_back"
   ],
   "note": ""
  },
  {
   "property": "C86",
   "status": "proved",
   "theorems": [
    "C86_race_free",
    "C86_reads",
    "C86_published_first"
   ],
   "note": "Consumers registered before the first publication; see C87 and the defect list for late registration."
  },
  {
   "property": "C87",
   "status": "partial",
   "theorems": [
    "C87_race_free_partial",
    "C87_reads_partial",
    "C87_flags_race_refuted",
    "C87_before_start_refuted"
   ],
   "note": "Proved if the flags were atomics and the consumers are registered before the first publication. Defects: the flags are plain ints, so they and the slots race; before the loop is started two producers can write one slot at once."
  },
  {
   "property": "C88",
   "status": "partial",
   "theorems": [
    "C88_race_free_partial",
    "C88_popped_partial",
    "C88_conservation_partial",
    "C88_stale_link_refuted"
   ],
   "note": "Proved if the load at lock_free_stack.h 112 were acquire (one word) and the links were atomics; as written (relaxed) elements can be lost: refuted by a concrete execution."
  },
  {
   "property": "C89",
   "status": "proved",
   "theorems": [
    "C89_no_lost_wakeup",
    "C89_in_order",
    "C89_drains"
   ],
   "note": "Sequentially consistent memory (C59 has the store buffer for one consumer); consumers without dependencies between them."
  },
  {
   "property": "C90",
   "status": "proved",
   "theorems": [
    "C90_finalized_exactly",
    "C90_finalized"
   ],
   "note": ""
  },
  {
   "property": "C91",
   "status": "proved",
   "theorems": [
    "C91_report"
   ],
   "note": ""
  },
  {
   "property": "C92",
   "status": "proved",
   "theorems": [
    "C92_delivered",
    "C92_drain",
    "C92_no_crash",
    "C92_only_the_pop_crashes"
   ],
   "note": ""
  },
  {
   "property": "C93",
   "status": "proved",
   "theorems": [
    "C93_no_overrun",
    "C93_claim_fits"
   ],
   "note": ""
  },
  {
   "property": "C94",
   "status": "proved",
   "theorems": [
    "C94_remove_actions"
   ],
   "note": ""
  },
  {
   "property": "C95",
   "status": "proved",
   "theorems": [
    "C95_get_string"
   ],
   "note": ""
  },
  {
   "property": "C96",
   "status": "proved",
   "theorems": [
    "C96_merge"
   ],
   "note": ""
  },
  {
   "property": "C97",
   "status": "proved",
   "theorems": [
    "C97_stopped_while_not_running",
    "C97_never_started",
    "C97_detached_keeps_running_refuted"
   ],
   "note": "The refuted theorem: an object detached while the container ran keeps running after stop(), so the statement is about attached objects."
  },
  {
   "property": "C98",
   "status": "proved",
   "theorems": [
    "C98_bounds"
   ],
   "note": ""
  },
  {
   "property": "C99",
   "status": "partial",
   "theorems": [
    "C99_types_refuted",
    "C74_one_channel_per_topic"
   ],
   "note": "False of the code: the type is ignored, the second caller gets a channel of another type cast to its own (refuted). Proved: the same channel exactly for the same kind and topic."
  }
 ]
}