{
 "claims": [
  {
   "property": "C01",
   "status": "proved",
   "theorems": [
    "C01_int32_roundtrip",
    "C01_int16_roundtrip",
    "C01_int32_decodes_everything",
    "C01_int16_decodes_everything"
   ],
   "note": ""
  },
  {
   "property": "C02",
   "status": "proved",
   "theorems": [
    "C02_string_roundtrip",
    "C02_read_string_exactly"
   ],
   "note": ""
  },
  {
   "property": "C03",
   "status": "proved",
   "theorems": [
    "C03_int32_array_roundtrip",
    "C03_int16_array_roundtrip"
   ],
   "note": ""
  },
  {
   "property": "C04",
   "status": "proved",
   "theorems": [
    "C04_failed_read_consumes_nothing"
   ],
   "note": ""
  },
  {
   "property": "C05",
   "status": "proved",
   "theorems": [
    "C05_successful_read_consumes_exactly"
   ],
   "note": ""
  },
  {
   "property": "C06",
   "status": "proved",
   "theorems": [
    "C06_read_bytes_exactly",
    "C06_read_int32_array_exactly",
    "C06_read_int16_array_exactly"
   ],
   "note": ""
  },
  {
   "property": "C07",
   "status": "proved",
   "theorems": [
    "C07_writes_only_append"
   ],
   "note": ""
  },
  {
   "property": "C08",
   "status": "proved",
   "theorems": [
    "C08_standard_frame_survives",
    "C08_startup_frame_survives"
   ],
   "note": ""
  },
  {
   "property": "C09",
   "status": "proved",
   "theorems": [
    "C09_standard_segmentation",
    "C09_startup_segmentation"
   ],
   "note": ""
  },
  {
   "property": "C10",
   "status": "proved",
   "theorems": [
    "C10_frames_in_order",
    "C10_startup_then_frames"
   ],
   "note": ""
  },
  {
   "property": "C11",
   "status": "proved",
   "theorems": [
    "C11_standard_truncated",
    "C11_startup_truncated",
    "C11_standard_only_complete",
    "C11_startup_only_complete"
   ],
   "note": ""
  },
  {
   "property": "C12",
   "status": "proved",
   "theorems": [
    "C12_standard_every_length",
    "C12_startup_every_length",
    "C12_illegal_length_rejected_refuted"
   ],
   "note": "The behaviour for every length field is proved; the user's expectation that an illegal length is rejected is refuted by C12_illegal_length_rejected_refuted."
  },
  {
   "property": "C13",
   "status": "proved",
   "theorems": [
    "C13_length_header"
   ],
   "note": ""
  },
  {
   "property": "C14",
   "status": "proved",
   "theorems": [
    "C14_frame_then_parse"
   ],
   "note": ""
  },
  {
   "property": "C15",
   "status": "proved",
   "theorems": [
    "C15_send_recv",
    "C15_send_recv_startup",
    "C15_send_recv_sequence"
   ],
   "note": ""
  },
  {
   "property": "C16",
   "status": "proved",
   "theorems": [
    "C16_negotiate_received_refuted",
    "C16_own_parser"
   ],
   "note": "The statement is the proved negative fact; the expectation that NegotiateProtocolVersion can be received is refuted for every such packet."
  },
  {
   "property": "C17",
   "status": "proved",
   "theorems": [
    "C17_other_type_rejected",
    "C17_startup_frame_rejected"
   ],
   "note": ""
  },
  {
   "property": "C18",
   "status": "proved",
   "theorems": [
    "C18_forwarded_body_is_prefix",
    "C18_forwarded_startup_is_prefix",
    "C18_parser_prefix"
   ],
   "note": ""
  },
  {
   "property": "C19",
   "status": "proved",
   "theorems": [
    "C19_backend_forwarded_verbatim"
   ],
   "note": ""
  },
  {
   "property": "C20",
   "status": "proved",
   "theorems": [
    "C20_frontend_forwarded_verbatim"
   ],
   "note": ""
  },
  {
   "property": "C21",
   "status": "proved",
   "theorems": [
    "C21_sync_forwarded_refuted",
    "C21_describe_forwarded_refuted",
    "C21_describe_crash_refuted",
    "C21_execute_forwarded_refuted",
    "C21_execute_exact",
    "C21_execute_verbatim",
    "C21_describe_verbatim_refuted"
   ],
   "note": "The statement is the proved negative fact; verbatim forwarding of Sync/Describe/Execute is refuted for every packet of the stated kinds. Describe packets of 80KB and more and Execute with a row limit of 2^24 or more are not covered."
  },
  {
   "property": "C22",
   "status": "proved",
   "theorems": [
    "C22_known_codes_forwarded",
    "C22_auth_code_refuted",
    "C22_response_without_nul_refuted",
    "C22_response_with_nul_refuted"
   ],
   "note": "Exact: accepted codes are forwarded verbatim, all others rejected; 'p' bodies other than a C string are rejected or truncated."
  },
  {
   "property": "C23",
   "status": "proved",
   "theorems": [
    "C23_crash_set",
    "C23_loops_terminate"
   ],
   "note": "Exact crash set (iff); the expectation that nothing crashes is refuted by the example next to it."
  },
  {
   "property": "C24",
   "status": "proved",
   "theorems": [
    "C24_startup_total"
   ],
   "note": ""
  },
  {
   "property": "C25",
   "status": "proved",
   "theorems": [
    "C25_nulls_preserved"
   ],
   "note": ""
  },
  {
   "property": "C26",
   "status": "proved",
   "theorems": [
    "C26_first_occurrence"
   ],
   "note": ""
  },
  {
   "property": "C27",
   "status": "proved",
   "theorems": [
    "C27_decoded_no_larger",
    "C27_negotiate_negative_count_crashes"
   ],
   "note": ""
  },
  {
   "property": "C28",
   "status": "proved",
   "theorems": [
    "C28_settings_exact"
   ],
   "note": ""
  },
  {
   "property": "C29",
   "status": "proved",
   "theorems": [
    "C29_accepts_exactly",
    "C29_refusal"
   ],
   "note": ""
  },
  {
   "property": "C30",
   "status": "proved",
   "theorems": [
    "C30_order_irrelevant",
    "C30_first_value_wins"
   ],
   "note": ""
  },
  {
   "property": "C31",
   "status": "proved",
   "theorems": [
    "C31_database_default"
   ],
   "note": ""
  },
  {
   "property": "C32",
   "status": "proved",
   "theorems": [
    "C32_one_fire_wins",
    "C32_fire_progress",
    "C32_fire_bounded"
   ],
   "note": ""
  },
  {
   "property": "C33",
   "status": "proved",
   "theorems": [
    "C33_visible_after_return",
    "C33_not_before_call",
    "C33_observations_stable"
   ],
   "note": ""
  },
  {
   "property": "C34",
   "status": "proved",
   "theorems": [
    "C34_get_returns_fresh"
   ],
   "note": ""
  },
  {
   "property": "C35",
   "status": "proved",
   "theorems": [
    "C35_refusal_means_closed",
    "C35_closed_means_refusal"
   ],
   "note": ""
  },
  {
   "property": "C36",
   "status": "proved",
   "theorems": [
    "C36_exactly_the_relevant_updates",
    "C36_delivered_in_order"
   ],
   "note": ""
  },
  {
   "property": "C37",
   "status": "proved",
   "theorems": [
    "C37_installed_is_sourced",
    "C37_one_monitor",
    "C37_monitor_history",
    "C37_current_is_newest"
   ],
   "note": ""
  },
  {
   "property": "C38",
   "status": "proved",
   "theorems": [
    "C38_doom_is_forever",
    "C38_otherwise_released",
    "C38_cached_get_returns",
    "C38_get_deadlocks_itself_refuted",
    "C38_close_deadlocks_refuted",
    "C38_two_updates_deadlock_refuted"
   ],
   "note": "Exact characterisation of the deadlock states plus three schedules reaching them (the _refuted theorems)."
  },
  {
   "property": "C39",
   "status": "proved",
   "theorems": [
    "C39_polite_clients_never_crash",
    "C39_only_crash",
    "C39_server_start_crashes_refuted"
   ],
   "note": "Safety under the client rule, the only possible crash, and the schedule by which Server.Start's use crashes (_refuted)."
  },
  {
   "property": "C40",
   "status": "proved",
   "theorems": [
    "C40_write_sections_exclusive",
    "C40_readers_excluded"
   ],
   "note": ""
  },
  {
   "property": "C41",
   "status": "proved",
   "theorems": [
    "C41_monitor_exit_means_closed",
    "C41_closed_source_closes",
    "C41_close_takes_effect_once",
    "C41_second_close_returns_at_once",
    "C41_no_subscription_after_close_refuted"
   ],
   "note": "The _refuted theorem shows that a subscription can outlive a completed Close."
  },
  {
   "property": "C42",
   "status": "proved",
   "theorems": [
    "C42_only_refusals_before_connect",
    "C42_each_request_answered"
   ],
   "note": ""
  },
  {
   "property": "C43",
   "status": "proved",
   "theorems": [
    "C43_negotiation_bounded_refuted"
   ],
   "note": "The statement is the proved negative fact (for every n)."
  },
  {
   "property": "C44",
   "status": "proved",
   "theorems": [
    "C44_checked_before_dialling",
    "C44_startup_forwarded_first"
   ],
   "note": ""
  },
  {
   "property": "C45",
   "status": "proved",
   "theorems": [
    "C45_single_database_parameter",
    "C45_only_configured_database_refuted"
   ],
   "note": "Exact check proved; the smuggled second parameter is the _refuted theorem."
  },
  {
   "property": "C46",
   "status": "proved",
   "theorems": [
    "C46_rejection_is_silent",
    "C46_error_response_refuted"
   ],
   "note": "Proved for every execution; the _refuted theorem is a database mismatch answered with no bytes."
  },
  {
   "property": "C47",
   "status": "proved",
   "theorems": [
    "C47_asked_once",
    "C47_same_snapshot",
    "C47_failure_reported"
   ],
   "note": ""
  },
  {
   "property": "C48",
   "status": "proved",
   "theorems": [
    "C48_client_to_database"
   ],
   "note": ""
  },
  {
   "property": "C49",
   "status": "proved",
   "theorems": [
    "C49_database_to_client"
   ],
   "note": ""
  },
  {
   "property": "C50",
   "status": "proved",
   "theorems": [
    "C50_verbatim_to_client",
    "C50_verbatim_to_database"
   ],
   "note": ""
  },
  {
   "property": "C51",
   "status": "proved",
   "theorems": [
    "C51_quiescent_means_forwarded",
    "C51_internal_steps_terminate"
   ],
   "note": ""
  },
  {
   "property": "C52",
   "status": "proved",
   "theorems": [
    "C52_channel_capacity",
    "C52_at_most_131_pending"
   ],
   "note": ""
  },
  {
   "property": "C53",
   "status": "proved",
   "theorems": [
    "C53_blocked_only_by_full_channel",
    "C53_directions_independent_refuted"
   ],
   "note": "Exact blocking condition, and the state in which the client is blocked (_refuted)."
  },
  {
   "property": "C54",
   "status": "proved",
   "theorems": [
    "C54_start_waits_for_close",
    "C54_hangup_ends_session_refuted"
   ],
   "note": "Proved for every execution without an external Close; the _refuted theorem is the double hangup."
  },
  {
   "property": "C55",
   "status": "proved",
   "theorems": [
    "C55_crash_causes",
    "C55_message_in_hand",
    "C55_close_is_safe_in_pump_refuted",
    "C55_close_is_safe_processing_refuted"
   ],
   "note": "Causes proved for every execution with a url.Parse that does not panic; two crashing schedules (_refuted)."
  },
  {
   "property": "C56",
   "status": "proved",
   "theorems": [
    "C56_close_releases",
    "C56_no_leak_refuted"
   ],
   "note": "Released resources characterised; the leak schedule is the _refuted theorem."
  },
  {
   "property": "C57",
   "status": "proved",
   "theorems": [
    "C57_closed_once",
    "C57_later_calls_do_nothing",
    "C57_close_never_deadlocks"
   ],
   "note": ""
  },
  {
   "property": "C58",
   "status": "proved",
   "theorems": [
    "C58_first_failure",
    "C58_closed_session"
   ],
   "note": ""
  },
  {
   "property": "C59",
   "status": "proved",
   "theorems": [
    "C59_forwarded_is_logged",
    "C59_passwords_not_logged_refuted"
   ],
   "note": "Proved for every message forwarded; concrete password in the _refuted theorem."
  },
  {
   "property": "C60",
   "status": "proved",
   "theorems": [
    "C60_start_once",
    "C60_start_results",
    "C60_at_most_one_other_result"
   ],
   "note": ""
  },
  {
   "property": "C61",
   "status": "proved",
   "theorems": [
    "C61_one_active_listener",
    "C61_current_listener_open",
    "C61_no_accept_after_close",
    "C61_closed_once"
   ],
   "note": ""
  },
  {
   "property": "C62",
   "status": "proved",
   "theorems": [
    "C62_current_is_last_installed",
    "C62_newest_configuration_wins_refuted"
   ],
   "note": "Last-installed proved for every execution; the _refuted theorem is the schedule by which the older configuration wins."
  },
  {
   "property": "C63",
   "status": "proved",
   "theorems": [
    "C63_close_sweeps",
    "C63_what_close_waits_for",
    "C63_otherwise_not_stuck",
    "C63_bounded",
    "C63_late_session_refuted",
    "C63_late_listener_refuted"
   ],
   "note": "Proved for every execution, including the exact set of latecomers Close can wait for and a bound on the server's own actions; the two _refuted theorems are schedules ending in the watchdog's crash. A session told to close is assumed to end (C78 is the session's side)."
  },
  {
   "property": "C64",
   "status": "proved",
   "theorems": [
    "C64_goroutines_gone",
    "C64_nothing_starts_after_close_refuted"
   ],
   "note": "Proved for the goroutines the wait group counts; the _refuted theorem shows a goroutine and a listener created after Close returned."
  },
  {
   "property": "C65",
   "status": "proved",
   "theorems": [
    "C65_session_table"
   ],
   "note": ""
  },
  {
   "property": "C66",
   "status": "proved",
   "theorems": [
    "C66_late_serve_conn",
    "C66_late_serve",
    "C66_late_start"
   ],
   "note": ""
  },
  {
   "property": "C67",
   "status": "proved",
   "theorems": [
    "C67_one_close_acts",
    "C67_close_results",
    "C67_later_close_is_immediate"
   ],
   "note": ""
  },
  {
   "property": "C68",
   "status": "proved",
   "theorems": [
    "C68_returned_connections",
    "C68_every_connection_closed_refuted"
   ],
   "note": "Exact alternatives proved; the _refuted theorem is a connection nobody closes."
  },
  {
   "property": "C69",
   "status": "proved",
   "theorems": [
    "C69_exit_code",
    "C69_server_runs_iff",
    "C69_one_message",
    "C69_requested_file",
    "C69_info_only"
   ],
   "note": ""
  },
  {
   "property": "C70",
   "status": "proved",
   "theorems": [
    "C70_initial_then_reloads",
    "C70_nothing_before_it_is_loaded",
    "C70_reads_are_current",
    "C70_one_reload_per_write",
    "C70_newest_wins",
    "C70_reload_reaches_server",
    "C70_early_change_refuted"
   ],
   "note": "C70_early_change_refuted: a change between the initial load and watcher.Add is lost."
  },
  {
   "property": "C71",
   "status": "proved",
   "theorems": [
    "C71_right_callback",
    "C71_one_at_a_time"
   ],
   "note": ""
  },
  {
   "property": "C72",
   "status": "proved",
   "theorems": [
    "C72_only_writes_reload",
    "C72_replacement_reloads_refuted"
   ],
   "note": "C72_replacement_reloads_refuted shows the refuted expectation with a concrete execution."
  },
  {
   "property": "C73",
   "status": "proved",
   "theorems": [
    "C73_stop_crashes_unless",
    "C73_first_stop_is_safe",
    "C73_stop_takes_effect",
    "C73_nothing_after_the_end",
    "C73_no_callback_after_stop_refuted"
   ],
   "note": "C73_no_callback_after_stop_refuted: select may prefer a file event over the closed channel."
  },
  {
   "property": "C74",
   "status": "proved",
   "theorems": [
    "C74_mapping_is_the_rows",
    "C74_failures_reported",
    "C74_rows_closed",
    "C74_calls",
    "C74_iteration_failure_ignored",
    "C74_iteration_failure_reported_refuted"
   ],
   "note": "C74_iteration_failure_reported_refuted: rows.Err() is never consulted."
  },
  {
   "property": "C75",
   "status": "proved",
   "theorems": [
    "C75_inspect",
    "C75_no_leak",
    "C75_failed_open_closes_nothing",
    "C75_calls"
   ],
   "note": ""
  },
  {
   "property": "C76",
   "status": "proved",
   "theorems": [
    "C76_event_abstracts",
    "C76_event_refines"
   ],
   "note": ""
  },
  {
   "property": "C77",
   "status": "proved",
   "theorems": [
    "C77_last_error_wins",
    "C77_client_error_reported_refuted"
   ],
   "note": "Proved for every execution; the lost error is the _refuted theorem."
  },
  {
   "property": "C78",
   "status": "proved",
   "theorems": [
    "C78_goroutines_end_after_close",
    "C78_bounded",
    "C78_late_connection_hangs_refuted"
   ],
   "note": "Proved for every execution; the hanging schedule is the _refuted theorem."
  },
  {
   "property": "C79",
   "status": "proved",
   "theorems": [
    "C79_serve_results",
    "C79_finished_serve_closes_listener_refuted"
   ],
   "note": "Proved; the _refuted theorem is the unattended listener."
  },
  {
   "property": "C80",
   "status": "proved",
   "theorems": [
    "C80_failed_listen_changes_nothing"
   ],
   "note": ""
  },
  {
   "property": "C81",
   "status": "proved",
   "theorems": [
    "C81_critical_sections_exclusive",
    "C81_holder_goes_on",
    "C81_lock_is_released"
   ],
   "note": ""
  },
  {
   "property": "C82",
   "status": "proved",
   "theorems": [
    "C82_watch_reports",
    "C82_watch_returns",
    "C82_live_watch_reports",
    "C82_success_means_watching_refuted",
    "C82_failure_means_not_added_refuted",
    "C82_failed_watch_leaks",
    "C82_error_logged_refuted",
    "C82_logged_only_for_an_error",
    "C82_log_lines",
    "C82_channels_closed_last"
   ],
   "note": "Refuted expectations: C82_success_means_watching_refuted, C82_failure_means_not_added_refuted, C82_error_logged_refuted (line 124 prints the wrong variable)."
  },
  {
   "property": "C83",
   "status": "proved",
   "theorems": [
    "C83_run_never_returns",
    "C83_serves_from_then_on",
    "C83_serves_after_watching",
    "C83_components"
   ],
   "note": "Proved for every execution of the composition."
  },
  {
   "property": "C84",
   "status": "proved",
   "theorems": [
    "C84_get_never_waits",
    "C84_only_the_server_subscribes",
    "C84_get_answers_a_configuration",
    "C84_session_gets_configuration"
   ],
   "note": ""
  },
  {
   "property": "C85",
   "status": "proved",
   "theorems": [
    "C85_only_sessions_panic",
    "C85_panic_cause",
    "C85_sessions_are_isolated_refuted"
   ],
   "note": "Cause proved for every execution; the _refuted theorem is the concrete run in which one client's message stops the program."
  },
  {
   "property": "C86",
   "status": "proved",
   "theorems": [
    "C86_configurations_in_order",
    "C86_listens_in_order",
    "C86_newest_address_wins_refuted"
   ],
   "note": "Order proved for every execution; the _refuted theorem is the run in which the older address wins although nothing is under way."
  },
  {
   "property": "C88",
   "status": "proved",
   "theorems": [
    "C88_established_sessions_never_end",
    "C88_hangup_frees_session_refuted"
   ],
   "note": "Proved; the _refuted theorem is the dead session that is never freed."
  },
  {
   "property": "C89",
   "status": "proved",
   "theorems": [
    "C89_dials_configured_database",
    "C89_listens_configured_address"
   ],
   "note": ""
  },
  {
   "property": "C90",
   "status": "proved",
   "theorems": [
    "C90_fresh_configuration",
    "C90_address_and_database_match_refuted"
   ],
   "note": "Freshness proved for every execution; the _refuted theorem is the run in which address and database belong to different configurations."
  },
  {
   "property": "C91",
   "status": "proved",
   "theorems": [
    "C91_decoding_exact",
    "C91_startup_decoding_exact",
    "C91_negotiate_decoding_exact"
   ],
   "note": ""
  },
  {
   "property": "C92",
   "status": "proved",
   "theorems": [
    "C92_orderly_end_returns_nil_refuted",
    "C92_goroutine_results",
    "C92_unsupported_version",
    "C92_database_mismatch"
   ],
   "note": "Refuted expectation: C92_orderly_end_returns_nil_refuted holds for every execution."
  },
  {
   "property": "C93",
   "status": "proved",
   "theorems": [
    "C93_update_channel",
    "C93_update_after_close_refuted"
   ],
   "note": "Refuted expectation: C93_update_after_close_refuted, for every state in which Start is over and was subscribed."
  },
  {
   "property": "C87",
   "status": "proved",
   "theorems": [
    "C87_bounded",
    "C87_quiet",
    "C87_change_takes_effect"
   ],
   "note": ""
  },
  {
   "property": "C94",
   "status": "proved",
   "theorems": [
    "C94_no_connection_lost",
    "C94_accepted"
   ],
   "note": ""
  },
  {
   "property": "C95",
   "status": "proved",
   "theorems": [
    "C95_own_actions_bounded",
    "C95_at_rest"
   ],
   "note": ""
  },
  {
   "property": "C96",
   "status": "proved",
   "theorems": [
    "C96_buffers_are_values",
    "C96_write_frame",
    "C96_read",
    "C96_copies_are_independent_refuted",
    "C96_read_bytes_are_private_refuted"
   ],
   "note": "Copies of a WriteBuffer and appends to bytes returned by ReadBytes: the expectation of independence is refuted by C96_copies_are_independent_refuted and C96_read_bytes_are_private_refuted."
  },
  {
   "property": "C97",
   "status": "proved",
   "theorems": [
    "C97_data_row_values",
    "C97_values_are_windows",
    "C97_edit_in_place",
    "C97_append_harmless",
    "C97_values_are_independent_refuted"
   ],
   "note": "The expectation that the values of a row are independent under append is refuted by C97_values_are_independent_refuted."
  },
  {
   "property": "C98",
   "status": "proved",
   "theorems": [
    "C98_inspect_format",
    "C98_inspect_faithful",
    "C98_format_unambiguous",
    "C98_inspect_printable"
   ],
   "note": ""
  },
  {
   "property": "C99",
   "status": "proved",
   "theorems": [
    "C99_server_accesses_complete",
    "C99_distributor_accesses_complete",
    "C99_session_accesses_complete",
    "C99_watcher_accesses_complete",
    "C99_server_race_free",
    "C99_distributor_race_free",
    "C99_session_races",
    "C99_session_race_free_refuted",
    "C99_watcher_races",
    "C99_watcher_race_free_after_watch",
    "C99_watcher_race_free_refuted",
    "C99_program_races",
    "C99_serving_program_race_free",
    "C99_program_race_free_refuted"
   ],
   "note": "Expectation that neither a Session, nor the file watcher, nor the program has a data race refuted (C99_session_race_free_refuted, C99_watcher_race_free_refuted, C99_program_race_free_refuted); all their races are listed."
  },
  {
   "property": "C100",
   "status": "proved",
   "theorems": [
    "C100_rejected_exactly",
    "C100_startup_rejected_exactly",
    "C100_three_fates",
    "C100_eof_means_hangup_refuted"
   ],
   "note": "The expectation that io.EOF means the end of the stream is refuted; everything else is proved for all bodies."
  },
  {
   "property": "C101",
   "status": "proved",
   "theorems": [
    "C101_comes_to_rest",
    "C101_listens_at_rest",
    "C101_client_served",
    "C101_always_accepting_refuted"
   ],
   "note": "The expectation that the open listener is always attended is refuted; everything else is proved for all executions."
  },
  {
   "property": "C102",
   "status": "proved",
   "theorems": [
    "C102_silent_client_stays",
    "C102_number_limited_refuted"
   ],
   "note": "The expectation of a limit is refuted for every number; the rest is proved."
  },
  {
   "property": "C103",
   "status": "proved",
   "theorems": [
    "C103_same_rest",
    "C103_same_quiet",
    "C103_comes_to_rest",
    "C103_rules"
   ],
   "note": "An arbiter sees the whole past and the state, and may hold back anybody who is about to acquire a mutex, as long as an unheld mutex that somebody could acquire is given to one of them. Writer preference and reader preference (among any number of goroutines) are shown to be such arbiters."
  },
  {
   "property": "C104",
   "status": "proved",
   "theorems": [
    "C104_refines",
    "C104_never_negative",
    "C104_wakes",
    "C104_sleeps",
    "C104_when",
    "C104_who",
    "C104_safe_close",
    "C104_program",
    "C104_close_panics_only_by_watchdog_refuted"
   ],
   "note": "WaitGroup.v puts the runtime's WaitGroup (read from the documented algorithm of sync/waitgroup.go: counter, waiters, semaphore) around Server.v. C104_close_panics_only_by_watchdog_refuted gives two executions ending in the runtime's two panics."
  },
  {
   "property": "C105",
   "status": "proved",
   "theorems": [
    "C105_own_bytes_only",
    "C105_others_do_not_notice",
    "C105_nor_does_the_session",
    "C105_any_mixture"
   ],
   "note": "The first theorem ties the session histories of C48/C49 to the network actions of the whole execution (received). The others are statements about pairs of executions (noninterference) for sessions that have been established; before that a session also asks the distributor for its configuration."
  },
  {
   "property": "C106",
   "status": "proved",
   "theorems": [
    "C106_finished",
    "C106_unfinished",
    "C106_messages",
    "C106_reason_logged_refuted",
    "C106_sender_logged_refuted",
    "C106_session_alone"
   ],
   "note": "Log.v models every Info and Error line; Debug lines are left out (C69). C106_reason_logged_refuted and C106_sender_logged_refuted are two expectations that fail: the error of Start is dropped by server.go:170, and session.go does not print which session it is about. The line about a message is written in the same action as its receipt from the channel."
  },
  {
   "property": "C107",
   "status": "proved",
   "theorems": [
    "C107_listening",
    "C107_ready",
    "C107_serving_serves_refuted",
    "C107_server_alone"
   ],
   "note": "C107_serving_serves_refuted is the expectation that fails: the line precedes net.Listen. The line 'ready' is written in the same action as the mutex is released; nothing is claimed about its order among other goroutines' lines."
  },
  {
   "property": "C108",
   "status": "proved",
   "theorems": [
    "C108_never_logged",
    "C108_load_errors",
    "C108_watch_errors"
   ],
   "note": "The list of what is never logged is SpecLog.impossible."
  },
  {
   "property": "C109",
   "status": "proved",
   "theorems": [
    "C109_grammar",
    "C109_accepted",
    "C109_settings",
    "C109_no_panic"
   ],
   "note": ""
  },
  {
   "property": "C110",
   "status": "proved",
   "theorems": [
    "C110_writable",
    "C110_address",
    "C110_slash_refuted"
   ],
   "note": "C110_slash_refuted: the leading slashes of the path are all trimmed, escaped or not."
  },
  {
   "property": "C111",
   "status": "proved",
   "theorems": [
    "C111_password_cut",
    "C111_password_read_refuted",
    "C111_opaque_refused_refuted",
    "C111_socket_host_refuted"
   ],
   "note": "The refuted expectations are proved for every such string, not by an example."
  },
  {
   "property": "C112",
   "status": "proved",
   "theorems": [
    "C112_ready_at_rest",
    "C112_client_connected"
   ],
   "note": ""
  },
  {
   "property": "C113",
   "status": "proved",
   "theorems": [
    "C113_abandoned_limited_refuted"
   ],
   "note": "Refutes, for every state and every k, the expectation that the sessions of clients that have hung up are disposed of (C88 for one session)."
  },
  {
   "property": "C114",
   "status": "proved",
   "theorems": [
    "C114_cancel_request_forwarded_refuted",
    "C114_connection_over"
   ],
   "note": "Refutes, for every state, the expectation that query cancellation passes the proxy."
  },
  {
   "property": "C115",
   "status": "proved",
   "theorems": [
    "C115_delivered",
    "C115_fails",
    "C115_session"
   ],
   "note": ""
  },
  {
   "property": "C116",
   "status": "proved",
   "theorems": [
    "C116_installed",
    "C116_listened",
    "C116_takes_effect"
   ],
   "note": ""
  },
  {
   "property": "C117",
   "status": "proved",
   "theorems": [
    "C117_closed_once",
    "C117_results",
    "C117_table",
    "C117_calls_answered"
   ],
   "note": ""
  },
  {
   "property": "C118",
   "status": "proved",
   "theorems": [
    "C118_attended",
    "C118_startup",
    "C118_configuration",
    "C118_leaves"
   ],
   "note": ""
  },
  {
   "property": "C119",
   "status": "proved",
   "theorems": [
    "C119_settled",
    "C119_turned_away"
   ],
   "note": ""
  },
  {
   "property": "C120",
   "status": "proved",
   "theorems": [
    "C120_connected"
   ],
   "note": ""
  },
  {
   "property": "C121",
   "status": "proved",
   "theorems": [
    "C121_request",
    "C121_answer"
   ],
   "note": ""
  },
  {
   "property": "C122",
   "status": "proved",
   "theorems": [
    "C122_accepted",
    "C122_meaning",
    "C122_one_meaning",
    "C122_refused",
    "C122_writable",
    "C122_mandatory_refuted",
    "C122_no_database",
    "C122_names_refuted"
   ],
   "note": "Toml.v models the part of BurntSushi/toml v0.3.1 that such files need (its source is not in /repo; written from knowledge of it). Tables, arrays, dates, floats, signed integers and multi-line strings are outside: the model answers None and the theorems say nothing. C122_mandatory_refuted and C122_names_refuted are the expectations that fail."
  },
  {
   "property": "C123",
   "status": "proved",
   "theorems": [
    "C123_half_written",
    "C123_accepted_refuted"
   ],
   "note": "C123_accepted_refuted is the expectation that fails."
  },
  {
   "property": "C124",
   "status": "proved",
   "theorems": [
    "C124_dials",
    "C124_listens",
    "C124_connected",
    "C124_takes_effect"
   ],
   "note": "Puts Toml.v and NetUrl.v, models of libraries whose source is not in /repo, in front of System.v. Texts outside the model of TOML (C122) are excluded. C124_takes_effect and C124_connected are proved for every fair infinite execution."
  },
  {
   "property": "C125",
   "status": "proved",
   "theorems": [
    "C125_covered",
    "C125_one_meaning",
    "C125_refused",
    "C125_info",
    "C125_path",
    "C125_default",
    "C125_spellings",
    "C125_default_refuted",
    "C125_help_long_refuted",
    "C125_help_refuted"
   ],
   "note": "Kingpin.v models the part of kingpin v2.2.6 and of path/filepath (Unix) that parseArgs uses, written from knowledge of these libraries, whose source is not in /repo. Arguments from files (@file) and kingpin's completion flags are not modelled: C125_covered says which command lines are. C125_path gives the default path letter by letter for paths in their shortest form (SpecArgs.tidy), C125_default says where it leads for every path. C125_default_refuted, C125_help_long_refuted and C125_help_refuted prove that three expectations fail."
  },
  {
   "property": "C126",
   "status": "proved",
   "theorems": [
    "C126_started",
    "C126_broken",
    "C126_half_written",
    "C126_only_that_file",
    "C126_empty_refuted"
   ],
   "note": "Puts the models Kingpin.v and Toml.v together; what they leave out (C122, C125) is left out here. C126_empty_refuted proves that an expectation fails."
  },
  {
   "property": "C127",
   "status": "proved",
   "theorems": [
    "C127_same_start"
   ],
   "note": "Ties the models Cli.v and Kingpin.v to System.v. The end of the server is not compared: in no execution of System.v does runServer return (C83_run_never_returns)."
  }
 ]
}