{
 "claims": [
  {
   "property": "C01",
   "status": "proved",
   "theorems": [
    "C01_all_or_nothing"
   ],
   "note": ""
  },
  {
   "property": "C02",
   "status": "proved",
   "theorems": [
    "C02_commits_what_it_reports"
   ],
   "note": ""
  },
  {
   "property": "C03",
   "status": "proved",
   "theorems": [
    "C03_dry_run_is_silent"
   ],
   "note": ""
  },
  {
   "property": "C04",
   "status": "proved",
   "theorems": [
    "C04_locks_bracket_the_transaction",
    "C04_panicking_locker"
   ],
   "note": "C04_panicking_locker is the boundary of the claim: if Lock itself panics, the locks already taken are not released (the deferred release is registered after the loop)."
  },
  {
   "property": "C05",
   "status": "proved",
   "theorems": [
    "C05_no_deadlock"
   ],
   "note": ""
  },
  {
   "property": "C06",
   "status": "proved",
   "theorems": [
    "C06_runs_with_common_key_do_not_overlap"
   ],
   "note": ""
  },
  {
   "property": "C07",
   "status": "partial",
   "theorems": [
    "C07_post_save_hooks_partial",
    "C07_init_break_refuted"
   ],
   "note": "False in full: when Init returns ErrBreak the Result has Break and no Error, yet no post-save hook runs (refuted). Proved: the hooks run exactly once each, in order, after the end of transaction and unlock, whenever the run got past initialisation without Error."
  },
  {
   "property": "C08",
   "status": "proved",
   "theorems": [
    "C08_break_or_error"
   ],
   "note": ""
  },
  {
   "property": "C09",
   "status": "proved",
   "theorems": [
    "C09_save_brings_database_in_step",
    "C09_successful_run_leaves_database_in_step",
    "C09_save_resynchronises"
   ],
   "note": ""
  },
  {
   "property": "C10",
   "status": "proved",
   "theorems": [
    "C10_change_detection_exact",
    "C10_raw_difference_exact",
    "C10_terminates_on_acyclic",
    "C10_listed_in_slice_order",
    "C10_difference_in_slice_order"
   ],
   "note": ""
  },
  {
   "property": "C11",
   "status": "proved",
   "theorems": [
    "C11_saving_again_makes_no_calls",
    "C11_nothing_changed_no_calls"
   ],
   "note": ""
  },
  {
   "property": "C12",
   "status": "partial",
   "theorems": [
    "C12_move_is_update_refuted",
    "C12_moves_accepted_iff_partial",
    "C12_moved_child_is_one_update_partial",
    "C12_move_out_of_removed_parent_refuted"
   ],
   "note": "False in full (two refutations: three children moved at once are refused; a child moved out of a parent removed in the same save is reported as new). Proved: exact acceptance condition for trees, and that an accepted move is exactly one update."
  },
  {
   "property": "C13",
   "status": "proved",
   "theorems": [
    "C13_conflicting_changes_refused"
   ],
   "note": ""
  },
  {
   "property": "C14",
   "status": "partial",
   "theorems": [
    "C14_save_deletes_subtree_partial",
    "C14_recursive_delete_refuted",
    "C14_recursive_delete_partial"
   ],
   "note": "False for children detached in memory before the save (refuted). Proved: everything reachable at save time from a deleted entity is deleted."
  },
  {
   "property": "C15",
   "status": "proved",
   "theorems": [
    "C15_save_deletes_only_removed",
    "C15_only_removed_are_deleted"
   ],
   "note": ""
  },
  {
   "property": "C16",
   "status": "proved",
   "theorems": [
    "C16_actions_homogeneous_complete_ordered"
   ],
   "note": ""
  },
  {
   "property": "C17",
   "status": "proved",
   "theorems": [
    "C17_ids"
   ],
   "note": ""
  },
  {
   "property": "C18",
   "status": "proved",
   "theorems": [
    "C18_hooks_bracket_the_writes"
   ],
   "note": ""
  },
  {
   "property": "C19",
   "status": "partial",
   "theorems": [
    "C19_added_root_inserted_refuted",
    "C19_added_root_inserted_partial"
   ],
   "note": "False in full: a later repo.Get (or Remove of an unloaded root) overwrites the remembered root list and the added root is never inserted (refuted). Proved: inserted if after the Add the body loads and removes nothing more."
  },
  {
   "property": "C20",
   "status": "partial",
   "theorems": [
    "C20_removed_root_deleted_refuted",
    "C20_removed_root_deleted_partial"
   ],
   "note": "False in full: two unloaded roots removed by two separate Remove calls - only the second is deleted (refuted). Proved: deleted if it was loaded or unknown, nothing is loaded or removed afterwards and it is not attached elsewhere."
  },
  {
   "property": "C21",
   "status": "proved",
   "theorems": [
    "C21_rejected_add_fails_the_run",
    "C21_rejected_remove_fails_the_run",
    "C21_loading_twice_is_reported",
    "C21_ignored_rejection_is_an_error"
   ],
   "note": ""
  },
  {
   "property": "C22",
   "status": "partial",
   "theorems": [
    "C22_rejected_container_call_refuted",
    "C22_container_calls_partial"
   ],
   "note": "False: RootContainer is passed to Act by value, its errors are lost and the run succeeds (refuted). Proved: a rejected call changes nothing, an accepted one exactly the root list."
  },
  {
   "property": "C23",
   "status": "proved",
   "theorems": [
    "C23_container_roots_unique",
    "C23_container_add",
    "C23_container_remove"
   ],
   "note": ""
  },
  {
   "property": "C24",
   "status": "proved",
   "theorems": [
    "C24_events_published_once_in_order",
    "C24_order_independent",
    "C24_deleted_entities_remembered",
    "C24_deleted_list_only_grows"
   ],
   "note": ""
  },
  {
   "property": "C25",
   "status": "proved",
   "theorems": [
    "C25_transactional_bus_protocol"
   ],
   "note": ""
  },
  {
   "property": "C26",
   "status": "partial",
   "theorems": [
    "C26_ordinary_event_of_failed_run_refuted",
    "C26_transactional_events_not_confirmed_partial"
   ],
   "note": "False for ordinary events: they are dispatched before the database commit (refuted). Proved for transactional events on a transactional bus."
  },
  {
   "property": "C27",
   "status": "proved",
   "theorems": [
    "C27_events_persisted_with_the_data"
   ],
   "note": ""
  },
  {
   "property": "C28",
   "status": "proved",
   "theorems": [
    "C28_walk_terminates",
    "C28_walk_visits_exactly_reachable",
    "C28_walk_parents_first",
    "C28_walk_diverges_on_cycles"
   ],
   "note": ""
  },
  {
   "property": "C29",
   "status": "proved",
   "theorems": [
    "C29_child_discovery",
    "C29_own_children_win"
   ],
   "note": ""
  },
  {
   "property": "C30",
   "status": "partial",
   "theorems": [
    "C30_custom_children_refuted",
    "C30_custom_children_partial"
   ],
   "note": "False when GetChildren stops returning the key (refuted). Proved: while the key is returned the vanished child is deleted or moved."
  },
  {
   "property": "C31",
   "status": "proved",
   "theorems": [
    "C31_db_lock_exclusive"
   ],
   "note": ""
  },
  {
   "property": "C32",
   "status": "partial",
   "theorems": [
    "C32_renewed_lock_refuted",
    "C32_renewed_lock_with_margin_partial"
   ],
   "note": "False in full: the take-over UPDATE compares only locker_id, so a client that read the row before a renewal can still take the lock although the holder renewed in time (C32_renewed_lock_refuted gives the schedule). Proved instead: exclusion with renewals when a margin is kept and Lock calls go from SELECT to UPDATE within that margin."
  },
  {
   "property": "C33",
   "status": "proved",
   "theorems": [
    "C33_unlock_only_own",
    "C33_unlock_frees"
   ],
   "note": ""
  },
  {
   "property": "C34",
   "status": "proved",
   "theorems": [
    "C34_takeover_after_ttl",
    "C34_refused_before_ttl"
   ],
   "note": ""
  },
  {
   "property": "C35",
   "status": "proved",
   "theorems": [
    "C35_at_most_five_attempts",
    "C35_no_retry_one_attempt"
   ],
   "note": ""
  },
  {
   "property": "C36",
   "status": "proved",
   "theorems": [
    "C36_dispatch_reaches_every_service",
    "C36_exactly_one_delivery"
   ],
   "note": ""
  },
  {
   "property": "C37",
   "status": "partial",
   "theorems": [
    "C37_dispatch_atomic_refuted",
    "C37_prefix_partial"
   ],
   "note": "Refuted: the INSERTs do not run inside the transaction Dispatch opens, so a crash or error between them leaves events without deliveries. Proved part: however it ends, nothing happened or all events are stored with complete deliveries for a prefix of the services."
  },
  {
   "property": "C38",
   "status": "proved",
   "theorems": [
    "C38_poll_selects_oldest_due",
    "C38_poll_empty_window"
   ],
   "note": ""
  },
  {
   "property": "C39",
   "status": "partial",
   "theorems": [
    "C39_own_event_partial",
    "C39_scan_pairs_own_event",
    "C39_clean_race_refuted"
   ],
   "note": "Proved for every schedule with atomic dispatches and no cleaning between the two queries of a scan, and for every quiet table; refuted with a cleaning run in between (C39_clean_race_refuted: wrong event handed over, another one lost)."
  },
  {
   "property": "C40",
   "status": "partial",
   "theorems": [
    "C40_pauses_of_strategies",
    "C40_options_select_strategy",
    "C40_retry_waits",
    "C40_granted_retries",
    "C40_recorded_calls_bounded",
    "C40_calls_bounded",
    "C40_limit_off_by_one_refuted",
    "C40_failed_run_again_refuted"
   ],
   "note": "The bound is proved (granted retries + 1, exact when failed) when polls of the service do not overlap. As documented it is refuted: the limit strategies grant one retry more than their limit, and with overlapping polls a failed delivery can be run again."
  },
  {
   "property": "C41",
   "status": "partial",
   "theorems": [
    "C41_no_redelivery_partial",
    "C41_stays_successful_partial",
    "C41_overlap_refuted"
   ],
   "note": "Proved when the polls of a service do not overlap; refuted for overlapping polls (the status checked under the row lock is the stale one)."
  },
  {
   "property": "C42",
   "status": "partial",
   "theorems": [
    "C42_fifo_predecessor",
    "C42_fifo_all_earlier_partial",
    "C42_mixed_types_refuted",
    "C42_same_time_refuted",
    "C42_dispatch_race_refuted",
    "C42_not_blocked_without_reason"
   ],
   "note": "Proved for the direct predecessor in creation order, and for all earlier events of a sender that only sends FIFO events in creation order; refuted for senders mixing types, for equal creation times, and while a Dispatch is half done."
  },
  {
   "property": "C43",
   "status": "partial",
   "theorems": [
    "C43_lax_predecessor_partial",
    "C43_lax_all_earlier_partial",
    "C43_failed_does_not_block",
    "C43_dispatch_race_refuted"
   ],
   "note": "Proved with atomic dispatches; a failed predecessor does not block (proved). Refuted while a Dispatch is half done (stored, not yet delivered)."
  },
  {
   "property": "C44",
   "status": "partial",
   "theorems": [
    "C44_senders_independent_partial",
    "C44_normal_never_held_up_partial",
    "C44_starvation_refuted"
   ],
   "note": "Proved: batches of different senders are computed independently; an event without consumer dependencies is never held up. Refuted: enough failed records that are always re-scanned first fill the batch limit (starvation)."
  },
  {
   "property": "C45",
   "status": "partial",
   "theorems": [
    "C45_normal_progress_partial",
    "C45_success_progress_partial",
    "C45_window_refuted",
    "C45_no_sender_refuted",
    "C45_lax_progress_partial",
    "C45_pauses"
   ],
   "note": "Proved for the sequential life of a service (polls, foreign steps, dispatches, no faults): a normal event is handled / a success is recorded within a bounded number of polls. Refuted when the event falls outside the scan window or has no sender record. C45_lax_progress_partial: an event (of any type but FIFO, no FIFO event before it) is handed over although handlers fail as they like, within (retries+1)*pending+1 polls, when LaxFIFO events have a sender and the polls are at least the strategy's longest pause apart (C45_pauses gives that bound for the shipped strategies)."
  },
  {
   "property": "C46",
   "status": "partial",
   "theorems": [
    "C46_stored_at_most_once_partial",
    "C46_only_if_asked_partial",
    "C46_rollback_final_partial",
    "C46_commit_final_partial",
    "C46_timeout_check_settles_partial",
    "C46_lost_after_crash_refuted",
    "C46_twice_after_cleaning_refuted",
    "C46_twice_concurrently_refuted"
   ],
   "note": "Proved for operations one after the other, no cleaning: stored completely once or not at all, only if asked for, rollback and commit final, fault-free timeout check settles. Refuted in general: crash between storing and delivering loses the events for good; failed record deletion plus cleaning, and concurrent Commit and timeout check, store twice."
  },
  {
   "property": "C47",
   "status": "proved",
   "theorems": [
    "C47_clean_exact",
    "C47_clean_keeps_unfinished"
   ],
   "note": ""
  },
  {
   "property": "C48",
   "status": "proved",
   "theorems": [
    "C48_services_independent"
   ],
   "note": ""
  },
  {
   "property": "C49",
   "status": "proved",
   "theorems": [
    "C49_at_most_once",
    "C49_no_overlap"
   ],
   "note": ""
  },
  {
   "property": "C50",
   "status": "partial",
   "theorems": [
    "C50_register_partial",
    "C50_register_works_partial",
    "C50_never_overwritten_partial",
    "C50_empty_expression_refuted",
    "C50_keys_shared_by_services_refuted"
   ],
   "note": "Proved: existing jobs untouched in every interleaving, refused requests create nothing. Refuted details: the empty cron expression is accepted (server accepting zero dates); keys and Cancel are shared by all services."
  },
  {
   "property": "C51",
   "status": "partial",
   "theorems": [
    "C51_at_most_once_partial",
    "C51_poll_fires_due_jobs_partial",
    "C51_reschedule_refuted"
   ],
   "note": "At most once (plus lost calls) and firing by a fault-free poll proved; refuted: the key of a fired one-shot job cannot be scheduled again (RunOnce reports success and does nothing)."
  },
  {
   "property": "C52",
   "status": "partial",
   "theorems": [
    "C52_rescheduled_partial",
    "C52_errors_ignored_partial",
    "C52_times_grow_partial",
    "C52_impossible_cron_refuted",
    "C52_broken_expression_closed"
   ],
   "note": "Proved for expressions with a next activation (cron.Schedule.Next is a parameter assumed to return later times); refuted for an expression that never activates on a server accepting zero dates."
  },
  {
   "property": "C53",
   "status": "proved",
   "theorems": [
    "C53_handed_over_in_send_order_each_once",
    "C53_each_dispatcher_in_order",
    "C53_one_handler_call_at_a_time",
    "C53_started_bus_delivers_everything",
    "C53_before_start_dispatch_waits"
   ],
   "note": ""
  },
  {
   "property": "C54",
   "status": "partial",
   "theorems": [
    "C54_publishing_beyond_capacity_refuted",
    "C54_publishing_one_event_refuted",
    "C54_enough_room_never_blocks_partial"
   ],
   "note": "False: a handler that dispatches more events than the capacity (or even one event while another goroutine fills the buffer) deadlocks the bus for ever, for every capacity. Proved instead: no deadlock while the events dispatched but not handed over never exceed the capacity."
  },
  {
   "property": "C55",
   "status": "partial",
   "theorems": [
    "C55_cancelling_has_no_effect_refuted",
    "C55_handing_over_goes_on_refuted",
    "C55_idle_bus_spins_refuted",
    "C55_nothing_before_start_partial"
   ],
   "note": "False: break leaves only the select, so cancellation has no effect on what is handed over and the idle goroutine spins. Proved instead: nothing is handed over before Start."
  },
  {
   "property": "C56",
   "status": "partial",
   "theorems": [
    "C56_registration_order_until_first_failure",
    "C56_all_handlers_called",
    "C56_redelivery_repeats_earlier_handlers",
    "C56_has_handler",
    "C56_value_error_type_refuted",
    "C56_own_context_type_refuted"
   ],
   "note": "Proved for handlers of the documented type; refuted for two handler types RegisterEventHandler accepts (an error type that cannot be nil; an own context type), for which every event panics."
  },
  {
   "property": "C57",
   "status": "partial",
   "theorems": [
    "C57_answer",
    "C57_second_checker_refused",
    "C57_convertible_result_type_refuted"
   ],
   "note": "Proved for checkers returning TXStatus; refuted for checkers whose result type is only convertible to TXStatus, which are accepted at registration and panic at every check."
  },
  {
   "property": "C58",
   "status": "partial",
   "theorems": [
    "C58_changed_column_written_partial",
    "C58_embedded_pointer_set_refuted",
    "C58_embedded_pointer_cleared_refuted",
    "C58_anonymous_time_refuted",
    "C58_shared_field_name_refuted"
   ],
   "note": "Proved for structs whose anonymous fields are non-nil on both sides and not time.Time, with distinct Go field names; refuted: a set or cleared embedded pointer, an anonymous time.Time, and a field name shared by two embedded structs are missed."
  },
  {
   "property": "C59",
   "status": "partial",
   "theorems": [
    "C59_unchanged_column_not_written_partial",
    "C59_concurrent_changes_survive_partial",
    "C59_unchanged_model_partial",
    "C59_located_time_refuted"
   ],
   "note": "Proved for all column kinds except times, which are proved under equal zone pointers; refuted: a time that is equal as an instant but carries another location is always written."
  },
  {
   "property": "C60",
   "status": "proved",
   "theorems": [
    "C60_delete_exact",
    "C60_delete_succeeds",
    "C60_delete_failure"
   ],
   "note": ""
  },
  {
   "property": "C61",
   "status": "partial",
   "theorems": [
    "C61_load_exact_partial",
    "C61_root_without_id",
    "C61_missing_root",
    "C61_no_child_lost",
    "C61_load_succeeds_partial",
    "C61_children_are_the_parents_rows_partial",
    "C61_other_root_fields_refuted",
    "C61_loading_twice_refuted",
    "C61_whole_table_refuted",
    "C61_child_error",
    "C61_no_id_no_query",
    "C61_id_queried"
   ],
   "note": "Proved for any executor and converters (non-overlapping arguments), and on MySQL for converters that ask by the parent column; refuted: non-zero root fields hide the row, a non-empty slice gets the rows appended, an all-zero query model loads the whole table."
  },
  {
   "property": "C62",
   "status": "proved",
   "theorems": [
    "C62_store_then_load"
   ],
   "note": "Proved through engine, MySQL statements and loader: any entity of the stored aggregate (root or deeper), with any number of child slices and pointer fields, loaded level by level; the order of the elements of a slice is that of the SELECT, which names none. Conditions: readiness of the save as in C09, parent id column as in C61."
  },
  {
   "property": "C63",
   "status": "partial",
   "theorems": [
    "C63_save_on_mysql_in_step_partial",
    "C63_save_on_mysql_succeeds_partial",
    "C63_executor_refines_partial",
    "C63_batch_refines_partial",
    "C63_insert_all_or_nothing",
    "C63_update_without_previous_model_refuted",
    "C63_short_previous_models_refuted",
    "C63_unchanged_update_does_nothing",
    "C63_save_upserts"
   ],
   "note": "Refinement proved under one previous model per updated model (what the engine produces for loaded entities), equal column counts and unique keys; refuted for a nil previous model (nothing is written, success reported) and for missing previous models (Save re-inserts a deleted row)."
  },
  {
   "property": "C64",
   "status": "partial",
   "theorems": [
    "C64_existing_row_refused",
    "C64_replacing_with_same_id_refuted"
   ],
   "note": "Refuted in general: inserts precede deletes, so any save inserting a key still present fails on MySQL, and loses the row on an executor with overwriting inserts."
  },
  {
   "property": "C65",
   "status": "partial",
   "theorems": [
    "C65_parents_first_partial",
    "C65_shared_child_table_refuted"
   ],
   "note": "Proved when, in that save, the child's table only receives entities created below created entities of the parent's table (or of the same table). Refuted without that proviso: all rows of a table go out in one statement placed at the table's first appearance, so a table shared by two levels, or fed by an existing parent, can be inserted before the parent's table. Example: recursive delete deletes parents first."
  },
  {
   "property": "C66",
   "status": "partial",
   "theorems": [
    "C66_own_database_partial",
    "C66_keys_of_different_seconds",
    "C66_same_second_refuted",
    "C66_all_or_nothing",
    "C66_commit_and_rollback",
    "C66_finished_for_good",
    "C66_nested_run_refuted",
    "C66_end_without_begin",
    "C66_without_transaction",
    "C66_refusals_are_reported"
   ],
   "note": "Partial: statements reach the right database only if executors with equal keys are on the same database; the key is the creation second, and two executors created within one second share it, so a statement meant for one database is executed in the other's transaction (C66_same_second_refuted). A run nested in another run with its context is not rolled back with it (C66_nested_run_refuted). Proved: all-or-nothing and commit/rollback for every context returned by Begin, with no key hypothesis."
  },
  {
   "property": "C67",
   "status": "partial",
   "theorems": [
    "C67_options_partial",
    "C67_overlapping_runs_refuted"
   ],
   "note": "Partial: the post-save hooks of overlapping runs can be mixed up. The stage copies the engine's slice header, so with spare capacity (Go: 3, 5, 6, 7 engine hooks) two runs append into the same array cell and the first one calls the second one's hook (C67_overlapping_runs_refuted). Proved for all other options without condition, and for hooks when the engine's slice is full or no sibling run got a hook meanwhile."
  },
  {
   "property": "C68",
   "status": "partial",
   "theorems": [
    "C68_output_returned_partial",
    "C68_logging_is_neutral",
    "C68_break_loses_output_refuted",
    "C68_output_in_init_does_not_stop_refuted"
   ],
   "note": "Partial: proved for every run that neither failed nor broke off. A run that breaks off loses its output although its post-save hooks run (C68_break_loses_output_refuted), and Output does not stop the remaining methods as documented (C68_output_in_init_does_not_stop_refuted)."
  },
  {
   "property": "C69",
   "status": "partial",
   "theorems": [
    "C69_one_call_per_record",
    "C69_one_call_at_a_time_partial",
    "C69_no_lock_left_behind",
    "C69_taken_unless_in_progress_partial",
    "C69_clean_race_refuted"
   ],
   "note": "Per delivery record: proved for every schedule. Per event: proved when dispatches are atomic and no cleaning runs between the two queries of a scan; otherwise refuted (C69_clean_race_refuted, a consequence of C39_clean_race_refuted). Taking the event again after a death is proved for every event whose turn it is (FIFO and LaxFIFO included)."
  },
  {
   "property": "C70",
   "status": "proved",
   "theorems": [
    "C70_exclusive_within_ttl",
    "C70_others_cannot_take_it",
    "C70_waits_before_locked",
    "C70_free_after_ttl",
    "C70_release_frees",
    "C70_late_release_harmless",
    "C70_gives_up_after_31_attempts",
    "C70_not_protected_beyond_ttl"
   ],
   "note": "Over the documented behaviour of bsm/redislock v0.9.3 and one Redis server with one clock (no failover). Exclusion, release, expiry and retry are proved for every schedule; beyond the ttl there is no protection (C70_not_protected_beyond_ttl: nothing renews the key)."
  },
  {
   "property": "C71",
   "status": "partial",
   "theorems": [
    "C71_cron_task_called",
    "C71_cron_command_run",
    "C71_event_command_run",
    "C71_event_handler_called",
    "C71_taken_key_refused",
    "C71_registered_timer_exists",
    "C71_failed_registration_refuted",
    "C71_no_timer",
    "C71_changed_expression_refuted",
    "C71_unregistered_instance_refuted"
   ],
   "note": "The calls and the refusal are proved for every program of registrations, with encoding/json on the two strings of TimerEvent assumed to give them back (valid UTF-8). Refuted: repeating a failed registration (the handler stays in the router, so the key is taken), a changed expression (the old timer is kept), an instance without the handler (takes the firing and reports success)."
  },
  {
   "property": "C72",
   "status": "partial",
   "theorems": [
    "C72_twice_only_on_reused_object_partial",
    "C72_published_by_one_run_refuted"
   ],
   "note": "Refuted: events are never taken off the entity, so a second run on the same object (Create, then Delete) publishes them again. Proved: an event published by two runs sits on an object both runs had."
  },
  {
   "property": "C73",
   "status": "proved",
   "theorems": [
    "C73_total_after_operation",
    "C73_total_stays_right",
    "C73_new_order",
    "C73_change_is_marked",
    "C73_contents",
    "C73_example"
   ],
   "note": "Proved for every rule engine; the contents for the one in the source, which accepts every rule."
  },
  {
   "property": "C74",
   "status": "partial",
   "theorems": [
    "C74_total_is_that_of_the_latest_addition",
    "C74_until_something_is_added_partial",
    "C74_stored_total_refuted",
    "C74_example",
    "C74_engine_creates",
    "C74_engine_does_this"
   ],
   "note": "Refuted: AddSaleItem and AddCoupon load only the order's own row, so the total they store is that of the new item or coupon alone (C74_total_is_that_of_the_latest_addition, for every history). Right as long as nothing is added after the creation (partial). Requests one after the other. C74_engine_does_this and C74_engine_creates: the run of each request on the engine model performs exactly these table operations and dispatches exactly these events."
  },
  {
   "property": "C75",
   "status": "partial",
   "theorems": [
    "C75_rows_are_the_requested",
    "C75_order_shown_partial",
    "C75_shown_items_are_rows",
    "C75_no_row_twice",
    "C75_missing_order",
    "C75_items_never_shown_refuted",
    "C75_shows_items_refuted",
    "C75_coupon_id_refuted"
   ],
   "note": "Stored rows: proved. Shown: refuted for the items - the query compares the item's own id with the order's, so no item is ever shown - and for the ids of coupons (row id instead of coupon id); user, total, rules and discounts proved."
  },
  {
   "property": "C76",
   "status": "partial",
   "theorems": [
    "C76_order_gone_partial",
    "C76_rows_remain_refuted",
    "C76_nothing_remains_refuted",
    "C76_missing_order_refuted"
   ],
   "note": "The order is gone and unreachable, others untouched (proved). Refuted: all item and coupon rows stay, and deleting a missing order reports success and raises OrderDeleted."
  },
  {
   "property": "C77",
   "status": "partial",
   "theorems": [
    "C77_own_handler_partial",
    "C77_types_differ_partial",
    "C77_coupon_event_refuted",
    "C77_sender_is_the_order",
    "C77_events_name_the_rows",
    "C77_example"
   ],
   "note": "Refuted for coupon events, whose type is that of item events: the item handler gets them, with an empty item id. Proved for the others, and for the sender."
  },
  {
   "property": "C78",
   "status": "proved",
   "theorems": [
    "C78_remark",
    "C78_user",
    "C78_example"
   ],
   "note": "Proved for every history of requests executed one after the other."
  },
  {
   "property": "C79",
   "status": "partial",
   "theorems": [
    "C79_list_partial",
    "C79_page_partial",
    "C79_time_bound_refuted",
    "C79_pages_refuted",
    "C79_example"
   ],
   "note": "Refuted: every time bound fails (the column is created_at, the query says create_time), and without ORDER BY two pages can show the same order and miss another. Proved: without bounds and pages exactly the user's orders; a page holds at most Limit of them."
  },
  {
   "property": "C80",
   "status": "proved",
   "theorems": [
    "C80_sent_only_if_committed",
    "C80_committed_never_lost",
    "C80_stored_iff_committed"
   ],
   "note": "Interleaving model of any number of Handle calls on top of the bus model of C46; 'stored' is stored in the event table, delivery records are covered where the events were not stored before the check (a Commit that dies between events and deliveries is C46_lost_after_crash_refuted)."
  },
  {
   "property": "C81",
   "status": "partial",
   "theorems": [
    "C81_shipped_checker_refuted",
    "C81_asked_too_early_refuted",
    "C81_lost_answer_refuted"
   ],
   "note": "Refuted three ways: the example's always-commit checker publishes a rolled back event; a checker that answers 'rollback' for a still open transaction loses a committed one; a COMMIT whose answer is lost makes Handle roll the event back. The correct pattern is C80."
  },
  {
   "property": "C82",
   "status": "partial",
   "theorems": [
    "C82_only_finished_removed",
    "C82_undisturbed_run",
    "C82_pending_removed_refuted"
   ],
   "note": "Proved for all interleavings of cleaners, publishers and handlers with stops anywhere, as long as handlers save only pending records; refuted when a slow handler overwrites a successful record (the DELETE does not look at the status)."
  },
  {
   "property": "C83",
   "status": "partial",
   "theorems": [
    "C83_records_keep_their_events",
    "C83_event_removed_only_unreferenced",
    "C83_split_publication_refuted"
   ],
   "note": "Proved for all interleavings when publications happen inside transactions; refuted for a Dispatch on its own, including what the orphaned record does to later polls."
  },
  {
   "property": "C84",
   "status": "partial",
   "theorems": [
    "C84_no_event_left_behind",
    "C84_stopped_cleaner_refuted",
    "C84_unheard_event_refuted"
   ],
   "note": "Proved for all interleavings when no cleaner stops; refuted (for every continuation) when a cleaner stops between its two DELETEs and for events published before any service is registered."
  },
  {
   "property": "C85",
   "status": "proved",
   "theorems": [
    "C85_stored_only_if_asked",
    "C85_never_lost",
    "C85_commit_ok_means_stored",
    "C85_log_is_the_table",
    "C85_whole_copies",
    "C85_deliveries_are_in_the_table",
    "C85_checker_waits_for_the_timeout",
    "C85_checker_takes_overdue"
   ],
   "note": "InterModel: statement-level interleaving; the checker's answers for its locked rows run as one step after its snapshot (their effects become visible together at COMMIT; a failed one is the IAbort step); locks: FOR UPDATE NOWAIT of the checker blocks the DELETEs of the publishers."
  },
  {
   "property": "C86",
   "status": "partial",
   "theorems": [
    "C86_copies_at_most_attempts",
    "C86_settled_is_final",
    "C86_exactly_once_refuted",
    "C86_rollback_means_not_stored_refuted",
    "C86_no_commit_no_events",
    "C86_looking_after_means_no_copy"
   ],
   "note": "exactly once is refuted by a run without any error (C86_exactly_once_refuted); rollback-means-not-stored is refuted; bounds proved."
  },
  {
   "property": "C87",
   "status": "proved",
   "theorems": [
    "C87_serializable",
    "C87_each_run_once",
    "C87_in_order_of_ending"
   ],
   "note": "SerialModel: data accesses of concurrent runs; lock service assumed exclusive (C31, C70 prove it of the shipped lockers while leases are valid); a lease that expires under a living run is left out; queries are arbitrary functions of the database that depend only on covered rows (so no phantoms outside the cover)."
  },
  {
   "property": "C88",
   "status": "partial",
   "theorems": [
    "C88_fresh_init_partial",
    "C88_lost_update_refuted",
    "C88_init_is_stale_refuted"
   ],
   "note": "refutations by concrete runs; positive part assumes that Init reads only rows nobody writes."
  },
  {
   "property": "C89",
   "status": "partial",
   "theorems": [
    "C89_one_round_at_a_time",
    "C89_nothing_before_start",
    "C89_start_twice",
    "C89_errors_do_not_stop",
    "C89_a_tick_per_round",
    "C89_no_handler_no_poll",
    "C89_every_round_polls",
    "C89_cancel_stops_refuted",
    "C89_checker_panic_refuted",
    "C89_cleanings"
   ],
   "note": "LoopModel: one process; ticker channel of capacity one; robfig/cron v1 recovers panics of a job (library); the parts of a round are steps with any result. cancel and checker panic refuted."
  },
  {
   "property": "C90",
   "status": "partial",
   "theorems": [
    "C90_registered_gets_every_dispatch",
    "C90_poll_errors",
    "C90_registration_made_up_refuted"
   ],
   "note": "registration at creation may fail; the error on which the loop registers again is never produced by handleEvents."
  },
  {
   "property": "C91",
   "status": "partial",
   "theorems": [
    "C91_ok_means_done",
    "C91_not_ok_changes_nothing_partial",
    "C91_not_ok_changes_nothing_refuted",
    "C91_404",
    "C91_400",
    "C91_refused_runs_nothing",
    "C91_reads",
    "C91_answered_partial",
    "C91_null_item_refuted",
    "C91_creation_succeeds",
    "C91_failed_read",
    "C91_coupons_before_a_null"
   ],
   "note": "Proved for every decoder of bodies, id generator, coupon rule and failure: 200 means done exactly as asked, 404/400 iff unknown action/undecodable body, reads change nothing, a well-formed creation in fine weather is answered 200. Missing: 'not 200 means nothing stored' needs that COMMIT is answered (refuted otherwise); 'every request is answered' needs that the body has no null item or coupon (refuted: the handler panics)."
  },
  {
   "property": "C92",
   "status": "partial",
   "theorems": [
    "C92_other_orders_untouched",
    "C92_acknowledged_order_stays",
    "C92_ids_not_reused",
    "C92_repeat_after_500_refuted",
    "C92_missing_order_refuted"
   ],
   "note": "Proved: an acknowledged order can be read until it is deleted, ids are not reused, other orders are untouched. Refuted: repeating a creation answered 500 can give two orders; the status of GetOrder/DeleteOrder does not tell a missing order (500 / 200)."
  },
  {
   "property": "C93",
   "status": "partial",
   "theorems": [
    "C93_shipped_program_refuted",
    "C93_create_order_refuted",
    "C93_delivery_table_needed",
    "C93_order_table_needed",
    "C93_failed_read",
    "C93_all_tables_partial",
    "C93_delivery_table_needed_to_send"
   ],
   "note": "Refuted: main.go leaves out the table of delivery records and the lock table, so no sequence of requests ever stores or changes an order (every command is answered 500). Proved: with all tables the program serves as C91/C92 say, and those two are the only missing ones."
  },
  {
   "property": "C94",
   "status": "partial",
   "theorems": [
    "C94_repeated_creation_stores",
    "C94_early_failure_changes_nothing",
    "C94_events_of_failed_attempt_refuted"
   ],
   "note": "Refuted for events: an event raised by a hook of the failed run stays on the object and is published by the second one. Proved: everything about the rows and ids, after any outcome of the first run (hooks must leave child lists, types and given ids alone); and a run that got no further than locks or BEGIN leaves the objects untouched."
  },
  {
   "property": "C95",
   "status": "partial",
   "theorems": [
    "C95_in_time_serializable_partial",
    "C95_no_overlap_in_time_partial",
    "C95_long_run_loses_update_refuted",
    "C95_key_free_after_ttl",
    "C95_given_back_is_free"
   ],
   "note": "Refuted: the engine never renews a lease (DBLock.Run, the only renewal, is not called by it), so for every ttl a run that takes longer than the ttl loses the update of another one although both report success. Proved: serializable for every history in which each transaction ends within the ttl of its keys; no two runs have a key that has run out for neither; a dead run's key is free after the ttl."
  },
  {
   "property": "C96",
   "status": "partial",
   "theorems": [
    "C96_success_means_all_ran",
    "C96_failure_stops",
    "C96_only_what_was_asked_partial",
    "C96_at_most_once_partial",
    "C96_at_least_once",
    "C96_single_handler_partial",
    "C96_as_if_once",
    "C96_all_settled_partial",
    "C96_second_handler_fails_refuted",
    "C96_crash_repeats_refuted",
    "C96_late_panic_repeats_refuted",
    "C96_two_pollers_refuted",
    "C96_half_handled_refuted"
   ],
   "note": "False in general, so partial: the handlers of one event each commit on their own before the bus saves the result, so a failing second handler, a process that dies in between, a PostSave hook that panics, or two overlapping polls repeat effects, and an event given up leaves the effects of the handlers before the failing one (five refutations). Proved for every history: a recorded success means every handler ran in order and answered without error (C96_success_means_all_ran, C96_at_least_once), a failure stops the list (C96_failure_stops), effects are only those of registered handlers of dispatched events, and with effects that are idempotent and commute the data are as if each had happened once (C96_as_if_once, C96_all_settled_partial). Exactly once holds if polls do not overlap, nobody dies and failed calls leave nothing, in particular for a single handler (C96_at_most_once_partial, C96_single_handler_partial). _partial: only_what_was_asked and all_settled need dispatch in one piece and no cleaning inside a poll."
  },
  {
   "property": "C97",
   "status": "partial",
   "theorems": [
    "C97_engine_follows",
    "C97_only_if_committed",
    "C97_uncommitted_has_no_rows",
    "C97_committed_not_lost_partial",
    "C97_in_time_not_lost_partial",
    "C97_slow_run_lost_refuted",
    "C97_bus_commit_ok",
    "C97_pending_settles"
   ],
   "note": "Composition of the engine's run (every run of EngineModel makes its calls in the order FlowModel.next_phase allows: C97_engine_follows) with the event transactions of the bus (InterModel). Only-if holds for every history if the checker says commit only for committed data (C97_only_if_committed, C97_uncommitted_has_no_rows). If: refuted in general (C97_slow_run_lost_refuted: a run slower than its timeout, rolled back by a checker that looked before its commit, and a crash before the bus' commit: the events are lost for ever). It holds if the checker says rollback only for runs that are over (C97_committed_not_lost_partial), or if it looks at any one time since the check began and runs commit before the timeout (C97_in_time_not_lost_partial): the row is still pending or everything was stored and delivered; a pending row is settled by one undisturbed check (C97_pending_settles)."
  },
  {
   "property": "C98",
   "status": "proved",
   "theorems": [
    "C98_init_error",
    "C98_steps",
    "C98_no_act_after_error",
    "C98_reading_writes_nothing"
   ],
   "note": "Init error: no call at all (C98_init_error). C98_steps gives the run of any command as Build, then taking over the roots, then Act, with the outcome of the first step that fails; C98_no_act_after_error: with a failing Build or a root without id Act has no influence on the run; C98_reading_writes_nothing: a Build that loads and an Act that only looks make no Exec, hook, NewID or dispatch call when nothing loaded is dirty or carries events."
  },
  {
   "property": "C99",
   "status": "partial",
   "theorems": [
    "C99_get_loads",
    "C99_failed_get_partial",
    "C99_custom_get_loads",
    "C99_only_the_loaded_partial",
    "C99_unsaved_grandchild_lost_refuted",
    "C99_failed_custom_get_refuted"
   ],
   "note": "What a successful load does: C99_get_loads, C99_custom_get_loads. Refuted in general: a Get after a new child with a new grandchild was attached makes the grandchild look stored and it is never inserted (C99_unsaved_grandchild_lost_refuted); a CustomGet that fails at a later root leaves the earlier ones as new (C99_failed_custom_get_refuted). It holds if nothing unsaved was attached (C99_only_the_loaded_partial) and for a failed Get unless the converter refuses an entity (C99_failed_get_partial)."
  },
  {
   "property": "C100",
   "status": "proved",
   "theorems": [
    "C100_all_or_nothing",
    "C100_success_is_stored",
    "C100_failure_leaves_nothing",
    "C100_lost_answer_must_be_excepted"
   ],
   "note": "Proved for every history; Exec of one call may be any number of statements, refused at any of them. The exception for a lost COMMIT answer is needed (C100_lost_answer_must_be_excepted)."
  },
  {
   "property": "C101",
   "status": "partial",
   "theorems": [
    "C101_commit_stores_its_own_events_partial",
    "C101_nothing_else_is_stored",
    "C101_without_transaction",
    "C101_rolled_back_for_good",
    "C101_publishing_inside_loses_the_events_refuted",
    "C101_keys_of_different_seconds",
    "C101_same_second_refuted"
   ],
   "note": "Proved for buses whose keys differ when their databases do, and as long as nobody calls Dispatch with a context that carries an event transaction of the bus. Refuted without: (1) Dispatch inside a transaction of its bus marks its event with the transaction, Commit then takes the transaction for stored, returns nil, and neither it nor any timeout check ever stores the transaction's events (proved for every such history); (2) two buses created in the same second share the context key, so one commits the other's transaction in its own database."
  },
  {
   "property": "C102",
   "status": "partial",
   "theorems": [
    "C102_alone",
    "C102_engine_model_agrees",
    "C102_ordered_slice_may_be_shared_partial",
    "C102_ordered_slice_no_deadlock_partial",
    "C102_mutual_exclusion_survives",
    "C102_only_given_keys",
    "C102_locks_given_back",
    "C102_callers_slice_untouched_refuted",
    "C102_distinct_keys_accepted_refuted",
    "C102_keys_lost_refuted",
    "C102_no_deadlock_refuted"
   ],
   "note": "Proved: a run alone with its slice locks exactly its keys in ascending order, or reports the repetition (and agrees with the engine model's on_lock); an ordered slice may be shared by any number of runs, without deadlock (C102_ordered_slice_no_deadlock_partial); mutual exclusion survives whatever the races do. Refuted (the slice is sorted in place, engine.go 1210): the caller's slice is reordered; with an unordered shared slice a run with distinct keys may be refused as repeated, a key may be lost from the slice for good, and two runs may deadlock."
  },
  {
   "property": "C103",
   "status": "partial",
   "theorems": [
    "C103_engine_model_agrees",
    "C103_each_save_all_or_nothing_partial",
    "C103_dead_after_refused_commit",
    "C103_actions_of_all_saves",
    "C103_post_save_hooks_accumulate",
    "C103_saved_by_the_repository_not_repeated",
    "C103_repeats_earlier_writes_refuted",
    "C103_refused_commit_remembered_refuted",
    "C103_committed_events_rolled_back_refuted",
    "C103_events_repeated_even_so_refuted",
    "C103_events_stored_again_refuted",
    "C103_failed_creation_repeated_refuted",
    "C103_result_changes_later_refuted",
    "C103_post_save_of_earlier_command_refuted"
   ],
   "note": "Proved over all histories of Saves of one stage: each Save is all or nothing of its own at every crash point, and one that reports success did exactly the writes it called for (C103_each_save_all_or_nothing_partial); after a refused Commit no later Save commits, changes the database or reports success (C103_dead_after_refused_commit: the error stays in the shared result, engine.go 1269); a result lists the actions of all Saves so far. Refuted: a second Save repeats the first one's inserts and publishes its events again (do takes no new snapshot); it fails with the first one's error although nothing fails; a failing Save makes the bus roll back the event transaction an earlier Save committed (eventCtx is kept); a creation cannot be repeated on the stage; the result of an earlier Save is changed by a later one. The options may differ from Save to Save; post-save hooks accumulate (C103_post_save_hooks_accumulate: a successful Save calls at its end every hook given so far, once, in order; a failed one none), so a second command run on the stage calls the first one's PostSave again (C103_post_save_of_earlier_command_refuted). If the main function ends with Repository.Save and the Save succeeds, any number of later idle Saves write nothing (C103_saved_by_the_repository_not_repeated), but the events are published again even then (C103_events_repeated_even_so_refuted) and, with event persistence, inserted again (C103_events_stored_again_refuted)."
  }
 ]
}