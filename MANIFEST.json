{
 "claims": [
  {
   "property": "C01",
   "status": "proved",
   "theorems": [
    "C01_schedules_are_histories",
    "C01_no_concurrent_processing",
    "C01_in_every_schedule"
   ],
   "note": ""
  },
  {
   "property": "C02",
   "status": "proved",
   "theorems": [
    "C02_owed_is_delivered",
    "C02_owed_after_done"
   ],
   "note": ""
  },
  {
   "property": "C03",
   "status": "proved",
   "theorems": [
    "C03_redelivery_needs_new_add",
    "C03_delivery_needs_add"
   ],
   "note": ""
  },
  {
   "property": "C04",
   "status": "proved",
   "theorems": [
    "C04_fifo_order"
   ],
   "note": ""
  },
  {
   "property": "C05",
   "status": "proved",
   "theorems": [
    "C05_after_shutdown",
    "C05_drains_only_old_items_once"
   ],
   "note": ""
  },
  {
   "property": "C06",
   "status": "proved",
   "theorems": [
    "C06_no_lost_wakeup",
    "C06_quiescence",
    "C06_cancelled_getter_loses_wakeup_refuted"
   ],
   "note": "REFUTED in part, as the statement says. Proved for schedules without cancellation of an already notified getter; the claim without that restriction is refuted by C06_cancelled_getter_loses_wakeup_refuted."
  },
  {
   "property": "C07",
   "status": "proved",
   "theorems": [
    "C07_len_counts_gets",
    "C07_done_misuse"
   ],
   "note": ""
  },
  {
   "property": "C08",
   "status": "proved",
   "theorems": [
    "C08_heap_refines_map",
    "C08_map_answers_determined",
    "C08_pop_and_peek"
   ],
   "note": ""
  },
  {
   "property": "C09",
   "status": "proved",
   "theorems": [
    "C09_never_early",
    "C09_deliveries_bounded"
   ],
   "note": ""
  },
  {
   "property": "C10",
   "status": "proved",
   "theorems": [
    "C10_not_forgotten",
    "C10_sleeps_until_earliest",
    "C10_settles",
    "C10_due_becomes_ready"
   ],
   "note": "Proved for runs before shut_down, as stated."
  },
  {
   "property": "C11",
   "status": "proved",
   "theorems": [
    "C11_never_shuts_down",
    "C11_delayed_items_stranded",
    "C11_shut_down_refuted"
   ],
   "note": "REFUTED: the claim before the parenthesis is false of the code; what is proved is the refutation and the actual behaviour. The property as stated is false of the code: C11_shut_down_refuted gives the run, C11_never_shuts_down and C11_delayed_items_stranded describe the actual behaviour of every run."
  },
  {
   "property": "C12",
   "status": "proved",
   "theorems": [
    "C12_deadline_is_least_requested",
    "C12_one_deadline_per_item"
   ],
   "note": ""
  },
  {
   "property": "C13",
   "status": "proved",
   "theorems": [
    "C13_exponential_delay",
    "C13_num_requeues"
   ],
   "note": ""
  },
  {
   "property": "C14",
   "status": "proved",
   "theorems": [
    "C14_overflow_exactly_when",
    "C14_default_limiter_raises",
    "C14_default_limiter_refuted"
   ],
   "note": "REFUTED: the claim before the parenthesis is false of the code; what is proved is the refutation and the actual behaviour. The default limiter raises: exact condition in C14_overflow_exactly_when, witness in C14_default_limiter_refuted."
  },
  {
   "property": "C15",
   "status": "proved",
   "theorems": [
    "C15_conformance",
    "C15_constructor",
    "C15_clock_steps_back_refuted"
   ],
   "note": "For clocks that do not step back; otherwise refuted by C15_clock_steps_back_refuted."
  },
  {
   "property": "C16",
   "status": "proved",
   "theorems": [
    "C16_earliest_release",
    "C16_tokens_never_exceed_burst",
    "C16_wait_is_exact",
    "C16_idle_then_immediate"
   ],
   "note": ""
  },
  {
   "property": "C17",
   "status": "proved",
   "theorems": [
    "C17_delay_is_worst",
    "C17_members_fed",
    "C17_num_requeues_is_max",
    "C17_raising_member"
   ],
   "note": ""
  },
  {
   "property": "C18",
   "status": "proved",
   "theorems": [
    "C18_readable_until_disposed",
    "C18_latest_value",
    "C18_delivered_once",
    "C18_nothing_lost"
   ],
   "note": ""
  },
  {
   "property": "C19",
   "status": "proved",
   "theorems": [
    "C19_deleted_not_delivered",
    "C19_delete_absent"
   ],
   "note": ""
  },
  {
   "property": "C20",
   "status": "proved",
   "theorems": [
    "C20_not_before",
    "C20_synced_means_disposed",
    "C20_synced_when_all_popped",
    "C20_synced_when_drained",
    "C20_second_replace_refuted"
   ],
   "note": "REFUTED in part, as the statement says. Proved for one replace after an unpopulated start; a second, shorter replace breaks it: C20_second_replace_refuted."
  },
  {
   "property": "C21",
   "status": "proved",
   "theorems": [
    "C21_resync_changes_nothing"
   ],
   "note": ""
  },
  {
   "property": "C22",
   "status": "partial",
   "theorems": [
    "C22_outcomes",
    "C22_put_back_goes_last",
    "C22_put_back_goes_last_refuted"
   ],
   "note": "FALSE AS WRITTEN for histories with deletes (order of the put-back object). Put-back order proved for histories without delete; with deletes refuted by C22_put_back_goes_last_refuted."
  },
  {
   "property": "C23",
   "status": "proved",
   "theorems": [
    "C23_fifo_closed_pop",
    "C23_fifo_no_lost_wakeup",
    "C23_fifo_close_releases_everyone",
    "C23_fifo_woken_tasks_can_run",
    "C23_delta_closed_pop",
    "C23_delta_no_lost_wakeup",
    "C23_delta_close_releases_everyone",
    "C23_delta_progress"
   ],
   "note": ""
  },
  {
   "property": "C24",
   "status": "proved",
   "theorems": [
    "C24_every_change_once_in_order",
    "C24_no_update_lost",
    "C24_pending_is_readable",
    "C24_pop_delivers_pending"
   ],
   "note": ""
  },
  {
   "property": "C25",
   "status": "proved",
   "theorems": [
    "C25_pending_lists_tidy",
    "C25_popped_lists_tidy",
    "C25_add_is_newest",
    "C25_update_is_newest",
    "C25_delete_is_newest"
   ],
   "note": ""
  },
  {
   "property": "C26",
   "status": "proved",
   "theorems": [
    "C26_keys_first_in_first_out",
    "C26_pop_answers",
    "C26_listed_keys_are_pending"
   ],
   "note": ""
  },
  {
   "property": "C27",
   "status": "partial",
   "theorems": [
    "C27_synced_exactly_when_batch_popped",
    "C27_not_synced_before",
    "C27_synced_stays",
    "C27_duplicate_keys_refuted",
    "C27_failed_replace_refuted"
   ],
   "note": "FALSE AS WRITTEN after a failed replace, a case the statement does not exclude. Proved for distinct keys and no earlier failed replace; both restrictions are necessary: C27_duplicate_keys_refuted, C27_failed_replace_refuted."
  },
  {
   "property": "C28",
   "status": "proved",
   "theorems": [
    "C28_replace_announces"
   ],
   "note": ""
  },
  {
   "property": "C29",
   "status": "proved",
   "theorems": [
    "C29_content_after_replace",
    "C29_equals_list",
    "C29_can_drain",
    "C29_refuted"
   ],
   "note": "REFUTED in part, as the statement says. Exact content proved; equality with the list is false in general (C29_refuted) and proved under the exact condition (C29_equals_list)."
  },
  {
   "property": "C30",
   "status": "proved",
   "theorems": [
    "C30_resync_reannounces",
    "C30_store_unchanged"
   ],
   "note": "Queue part in DeltaFifo_props.v, effect on the store (C30_store_unchanged) in Informer_props.v."
  },
  {
   "property": "C31",
   "status": "proved",
   "theorems": [
    "C31_outcomes",
    "C31_put_back_never_displaces",
    "C31_callback_holds_the_lock"
   ],
   "note": ""
  },
  {
   "property": "C32",
   "status": "proved",
   "theorems": [
    "C32_is_a_map",
    "C32_filed_under_own_key",
    "C32_key_failure_reported",
    "C32_key_failure_changes_nothing"
   ],
   "note": ""
  },
  {
   "property": "C33",
   "status": "proved",
   "theorems": [
    "C33_indices_exact",
    "C33_no_index_errors"
   ],
   "note": ""
  },
  {
   "property": "C34",
   "status": "proved",
   "theorems": [
    "C34_repeated_values_refuted",
    "C34_repeated_update_refuted"
   ],
   "note": "REFUTED: the claim before the parenthesis is false of the code; what is proved is the refutation and the actual behaviour. The property is false of the code: C34_repeated_values_refuted and C34_repeated_update_refuted; C33_no_index_errors covers functions without repeated values."
  },
  {
   "property": "C35",
   "status": "proved",
   "theorems": [
    "C35_accepts_exactly",
    "C35_indexers_never_change",
    "C35_empty_store_refuted"
   ],
   "note": "REFUTED: the claim before the parenthesis is false of the code; what is proved is the refutation and the actual behaviour. The intended use (adding indexers to an empty store) is refuted by C35_empty_store_refuted; the exact condition is C35_accepts_exactly."
  },
  {
   "property": "C36",
   "status": "proved",
   "theorems": [
    "C36_keys_injective",
    "C36_reader_agrees",
    "C36_reader_finds",
    "C36_tombstones",
    "C36_unkeyed_dicts",
    "C36_slash_in_name_refuted",
    "C36_cluster_scoped_dict_refuted"
   ],
   "note": "REFUTED in part, as the statement says. Injectivity proved for names without '/', which the API server guarantees; without that C36_slash_in_name_refuted."
  },
  {
   "property": "C37",
   "status": "proved",
   "theorems": [
    "C37_last_is_synced",
    "C37_watch_from_synced",
    "C37_exactly_once"
   ],
   "note": ""
  },
  {
   "property": "C38",
   "status": "proved",
   "theorems": [
    "C38_accepted_event",
    "C38_other_event",
    "C38_store_changed_by_calls_only"
   ],
   "note": ""
  },
  {
   "property": "C39",
   "status": "proved",
   "theorems": [
    "C39_store_is_server_state",
    "C39_unkeyed_list_refused"
   ],
   "note": ""
  },
  {
   "property": "C40",
   "status": "proved",
   "theorems": [
    "C40_stream_end_continues",
    "C40_close_resumes",
    "C40_stream_exception_hangs",
    "C40_stream_exception_refuted"
   ],
   "note": "REFUTED in part, as the statement says. Proved for list and watch failures and for streams that end; a stream that raises hangs the reflector: C40_stream_exception_hangs, C40_stream_exception_refuted."
  },
  {
   "property": "C41",
   "status": "proved",
   "theorems": [
    "C41_parse_inverts_render",
    "C41_core_group_fails",
    "C41_core_group_refuted",
    "C41_core_event_ends_watch"
   ],
   "note": "REFUTED: the claim before the parenthesis is false of the code; what is proved is the refutation and the actual behaviour. The property as intended fails for core-group events: C41_core_event_ends_watch."
  },
  {
   "property": "C42",
   "status": "partial",
   "theorems": [
    "C42_cache_is_server_state",
    "C42_list_repairs",
    "C42_drained_relist_careful",
    "C42_relist_refuted",
    "C42_failed_handler_refuted"
   ],
   "note": "FALSE AS WRITTEN for a key for which a callback failed with deltas left (C42_failed_handler_refuted). Proved key by key for all other keys under the stated condition on relists (C42_cache_is_server_state), and for every key again from the next such relist on, whatever happened before (C42_list_repairs). Without the condition on relists refuted by C42_relist_refuted."
  },
  {
   "property": "C43",
   "status": "proved",
   "theorems": [
    "C43_life_cycle",
    "C43_requeue_refuted"
   ],
   "note": "Also holds when handlers fail with ordinary exceptions; with RequeueError refuted by C43_requeue_refuted."
  },
  {
   "property": "C44",
   "status": "proved",
   "theorems": [
    "C44_rest_is_dropped",
    "C44_reported",
    "C44_deletion_lost_refuted"
   ],
   "note": "REFUTED: the claim before the parenthesis is false of the code; what is proved is the refutation and the actual behaviour. The property is false of the code (C44_deletion_lost_refuted); C44_rest_is_dropped gives the exact effect of a failing callback."
  },
  {
   "property": "C45",
   "status": "proved",
   "theorems": [
    "C45_handled_in_order",
    "C45_all_handled",
    "C45_tasks_terminate",
    "C45_stops",
    "C45_stop_hangs_refuted"
   ],
   "note": "Liveness without fairness: without a stop request the tasks come to rest only when everything accepted was handled (C45_all_handled), and they always come to rest (C45_tasks_terminate). After a stop request both tasks end (C45_stops), but a caller of _add may then wait for ever (C45_stop_hangs_refuted)."
  },
  {
   "property": "C46",
   "status": "proved",
   "theorems": [
    "C46_at_most_two",
    "C46_stall_refuted"
   ],
   "note": "REFUTED: the claim before the parenthesis is false of the code; what is proved is the refutation and the actual behaviour. The property is false of the code (C46_stall_refuted); C46_at_most_two is the bound that holds."
  },
  {
   "property": "C47",
   "status": "proved",
   "theorems": [
    "C47_backlog",
    "C47_handler_view",
    "C47_handler_view_no_relist"
   ],
   "note": "The proviso is stated per Sync notification: the handler is in the syncing set or the notification is an update of an object to itself; it follows when there is no relist (C47_handler_view_no_relist)."
  },
  {
   "property": "C48",
   "status": "proved",
   "theorems": [
    "C48_told_exactly",
    "C48_silent_relist_refuted"
   ],
   "note": "REFUTED: the claim before the parenthesis is false of the code; what is proved is the refutation and the actual behaviour. The property is false of the code (C48_silent_relist_refuted); C48_told_exactly says which handlers are told."
  },
  {
   "property": "C49",
   "status": "proved",
   "theorems": [
    "C49_period",
    "C49_period_bounds",
    "C49_check_period",
    "C49_check_period_fixed",
    "C49_resynced_exactly",
    "C49_resync_wanted"
   ],
   "note": "Consecutive resyncs of a handler are a period apart by the definition of last_resync in C49_resynced_exactly."
  },
  {
   "property": "C50",
   "status": "partial",
   "theorems": [
    "C50_first_list_delivered",
    "C50_first_of_key_delivered",
    "C50_all_delivered",
    "C50_while_processing_refuted",
    "C50_key_twice_refuted",
    "C50_failed_list_refuted"
   ],
   "note": "FALSE AS WRITTEN beyond the stated limit: a list naming a key twice whose first delivery fails (C50_key_twice_refuted), and a list that follows a failed one (C50_failed_list_refuted). Proved when no item is being processed: every object of a first list with distinct keys, whatever callbacks fail or are cancelled (C50_first_list_delivered); with repeated keys the first object of each key (C50_first_of_key_delivered), and all of them if no callback fails (C50_all_delivered). While an item is processed refuted by C50_while_processing_refuted."
  },
  {
   "property": "C51",
   "status": "proved",
   "theorems": [
    "C51_step_values",
    "C51_capped",
    "C51_constant",
    "C51_steps_not_negative"
   ],
   "note": "Values are exact rationals; the cap bounds every step from the second on (the first step returns the initial duration even above the cap)."
  },
  {
   "property": "C52",
   "status": "proved",
   "theorems": [
    "C52_outcome",
    "C52_sleeps",
    "C52_backoff_unchanged",
    "C52_useless_sleep_refuted",
    "C52_termination_refuted"
   ],
   "note": "REFUTED in part, as the statement says. Proved for steps >= 0. Refuted for the useless sleep with a cap (C52_useless_sleep_refuted) and for termination with negative steps (C52_termination_refuted)."
  },
  {
   "property": "C53",
   "status": "partial",
   "theorems": [
    "C53_jitter_bounds",
    "C53_zero_refuted"
   ],
   "note": "FALSE AS WRITTEN for d = 0, where the half-open interval is empty (C53_zero_refuted). The upper bound is strict when d > 0; for d = 0 the jittered value is 0."
  },
  {
   "property": "C54",
   "status": "proved",
   "theorems": [
    "C54_timer_life",
    "C54_time",
    "C54_has_waiters"
   ],
   "note": "For histories without negative ticker periods (those hang the clock, C55_negative_period_refuted)."
  },
  {
   "property": "C55",
   "status": "partial",
   "theorems": [
    "C55_ticker",
    "C55_never_blocks",
    "C55_negative_period_refuted",
    "C55_zero_period_refuted",
    "C55_stop_refuted"
   ],
   "note": "FALSE AS WRITTEN for periods <= 0. Proved for positive periods; refuted for zero (one tick only) and negative ones (the step never ends). Stopping a ticker has no effect (C55_stop_refuted)."
  },
  {
   "property": "C56",
   "status": "proved",
   "theorems": [
    "C56_in_order",
    "C56_missing_bounded",
    "C56_answers_calls",
    "C56_sublist",
    "C56_goes_on",
    "C56_reader_unblocks",
    "C56_cancel_loses_refuted",
    "C56_cancel_blocks_refuted"
   ],
   "note": "Proved for watchers that are not stopped and whose __anext__ calls are not cancelled; a cancelled call loses an event (C56_cancel_loses_refuted) and with queue length 0 stalls every watcher (C56_cancel_blocks_refuted). Submission order is the order of entering the incoming queue."
  },
  {
   "property": "C57",
   "status": "proved",
   "theorems": [
    "C57_never_waits",
    "C57_delivered",
    "C57_missed_iff_full"
   ],
   "note": "A watcher with queue length <= 0 has no limit and misses nothing."
  },
  {
   "property": "C58",
   "status": "proved",
   "theorems": [
    "C58_all_handled",
    "C58_only_drains",
    "C58_terminates",
    "C58_watch_refuted",
    "C58_action_refuted"
   ],
   "note": "The statement describes the failure; it is proved. Clean failure after shutdown is refuted by C58_watch_refuted and C58_action_refuted."
  },
  {
   "property": "C59",
   "status": "proved",
   "theorems": [
    "C59_check"
   ],
   "note": "1.2 is the fraction 6/5; floats are rationals."
  },
  {
   "property": "C60",
   "status": "proved",
   "theorems": [
    "C60_bounded",
    "C60_two_deleted",
    "C60_leader_created",
    "C60_created_after_deletion",
    "C60_two_leaders_refuted",
    "C60_ended_not_leading",
    "C60_ended_leading_refuted"
   ],
   "note": "Holds for the reason shown by C61: an elector leads only by creating the lock object itself, so without a deletion nobody leads, and two simultaneous leaders need a deletion between the two creations (C60_two_leaders_refuted shows that case). A task that left run() is no longer leading unless run() ended by an exception of a callback or by being cancelled (C60_ended_not_leading, C60_ended_leading_refuted)."
  },
  {
   "property": "C61",
   "status": "proved",
   "theorems": [
    "C61_healthy_refuted",
    "C61_answered_stops",
    "C61_never_renews",
    "C61_no_takeover",
    "C61_nobody_leads",
    "C61_run_raises",
    "C61_is_leader_raises",
    "C61_unreachable_leads"
   ],
   "note": "REFUTED: the claim before the parenthesis is false of the code; what is proved is the refutation and the actual behaviour. Refuted by C61_healthy_refuted; the other theorems say that it always goes wrong: no renewal, no take-over, run always raises."
  },
  {
   "property": "C62",
   "status": "proved",
   "theorems": [
    "C62_one_reconcile",
    "C62_released_once"
   ],
   "note": "Any number of workers, with cancellation."
  },
  {
   "property": "C63",
   "status": "proved",
   "theorems": [
    "C63_table",
    "C63_not_a_request",
    "C63_requeued",
    "C63_pauses",
    "C63_no_pause",
    "C63_retried_refuted"
   ],
   "note": "REFUTED in part, as the statement says. C63_table is the whole table, C63_requeued that a requeue is not lost; 'a failed reconcile is always retried' is refuted by C63_retried_refuted (1025 failures in a row, OverflowError of the limiter is logged and the request dropped). C63_pauses and C63_no_pause say when a worker pauses before asking for the next request."
  },
  {
   "property": "C64",
   "status": "proved",
   "theorems": [
    "C64_not_lost",
    "C64_progress",
    "C64_inevitable",
    "C64_owed_inevitable",
    "C64_live_case",
    "C64_create_enqueues",
    "C64_update_enqueues"
   ],
   "note": "C64_create_enqueues and C64_update_enqueues: a notification becomes requests on the queue. C64_inevitable: in every infinite run in which the workers go on and one is never cancelled, what was added is given to a worker later; fairness is the only liveness assumption. C64_progress is the weaker statement without it."
  },
  {
   "property": "C65",
   "status": "proved",
   "theorems": [
    "C65_watched_deletion",
    "C65_only_watched",
    "C65_relist_dropped",
    "C65_relist_refuted"
   ],
   "note": "REFUTED: the claim before the parenthesis is false of the code; what is proved is the refutation and the actual behaviour. Refuted by C65_relist_refuted; C65_only_watched says it never works, C65_watched_deletion that deletions seen by the watch do enqueue."
  },
  {
   "property": "C66",
   "status": "proved",
   "theorems": [
    "C66_reaches_handler",
    "C66_events",
    "C66_asked_all",
    "C66_stops_at_refusal",
    "C66_no_metadata",
    "C66_nameless_raises"
   ],
   "note": "A predicate that raises stops the evaluation as well and the exception leaves the handler."
  },
  {
   "property": "C67",
   "status": "proved",
   "theorems": [
    "C67_one_informer",
    "C67_created_once",
    "C67_late_hangs",
    "C67_known_returns",
    "C67_get_returns_refuted"
   ],
   "note": "REFUTED in part, as the statement says. 'get returns' is refuted (C67_get_returns_refuted, in general C67_late_hangs); C67_known_returns: for a kind requested before the start it can always return."
  },
  {
   "property": "C68",
   "status": "proved",
   "theorems": [
    "C68_never_near",
    "C68_range",
    "C68_onto",
    "C68_near_refuted"
   ],
   "note": "REFUTED: the claim before the parenthesis is false of the code; what is proved is the refutation and the actual behaviour. Refuted for every random value (C68_never_near), not just one; random.random() is an arbitrary rational in [0,1)."
  },
  {
   "property": "C69",
   "status": "partial",
   "theorems": [
    "C69_list_watch",
    "C69_exact",
    "C69_every_version",
    "C69_version",
    "C69_watch_outcome",
    "C69_reuse_refuted",
    "C69_dropped_refuted",
    "C69_other_refuted",
    "C69_case",
    "C69_fresh_case"
   ],
   "note": "FALSE AS WRITTEN for reused objects, dropped changes and other event types. C69_every_version is the statement, for changes with distinct objects that reach the watchers; without distinctness the final contents are still right (C69_list_watch) but intermediate ones are not (C69_reuse_refuted). C69_dropped_refuted and C69_other_refuted are the other limits."
  },
  {
   "property": "C70",
   "status": "partial",
   "theorems": [
    "C70_again_raises",
    "C70_first_registers",
    "C70_client",
    "C70_one_to_one",
    "C70_type_of_kind",
    "C70_unstructured",
    "C70_kind_of_type",
    "C70_last_wins",
    "C70_shared_refuted",
    "C70_failed_takes_kind_refuted",
    "C70_unhashable_takes_kind_refuted",
    "C70_case"
   ],
   "note": "FALSE AS WRITTEN: two kinds may share an object type (C70_shared_refuted), and a definition that fails takes its kind (C70_failed_takes_kind_refuted, C70_unhashable_takes_kind_refuted). C70_again_raises and C70_client hold always, C70_one_to_one for object types each in definitions for one kind only."
  },
  {
   "property": "C71",
   "status": "proved",
   "theorems": [
    "C71_launch",
    "C71_once",
    "C71_one_good",
    "C71_again_raises",
    "C71_progress",
    "C71_twice_refuted",
    "C71_inevitable",
    "C71_begins"
   ],
   "note": "'Exactly once' holds for one call of start: at most once by C71_once, at least once by C71_inevitable and C71_begins, over fair infinite runs in which no start is cancelled and the cache is started finitely often. A second call launches all again and raises (C71_again_raises, C71_twice_refuted)."
  },
  {
   "property": "C72",
   "status": "proved",
   "theorems": [
    "C72_poll",
    "C72_number_of_calls",
    "C72_poll_immediate",
    "C72_total",
    "C72_early_timeout_refuted"
   ],
   "note": "REFUTED in part, as the statement says. WaitTimeoutError before the timeout is refuted by C72_early_timeout_refuted; C72_poll gives the exact conditions."
  },
  {
   "property": "C73",
   "status": "proved",
   "theorems": [
    "C73_spaced",
    "C73_stops",
    "C73_goes_on"
   ],
   "note": ""
  },
  {
   "property": "C74",
   "status": "proved",
   "theorems": [
    "C74_synced",
    "C74_not_started",
    "C74_not_started_iff",
    "C74_runs",
    "C74_stays_synced_refuted"
   ],
   "note": "REFUTED in part, as the statement says. C74_stays_synced_refuted shows the limit: a second start makes a synced informer unsynced."
  },
  {
   "property": "C75",
   "status": "proved",
   "theorems": [
    "C75_after_cache",
    "C75_unbuilt_hangs",
    "C75_unbuilt_refuted",
    "C75_comes_up",
    "C75_late_blocks",
    "C75_one_setup",
    "C75_inevitable",
    "C75_begun_inevitable"
   ],
   "note": "C75_inevitable and C75_begun_inevitable are the positive half, over fair infinite runs: an informer that began syncs some time, the cache is not started again, nobody who can go on again and again is passed over for ever. C75_unbuilt_refuted, C75_unbuilt_hangs and C75_late_blocks show the hangs. asyncio starting tasks in the order of their creation is part of the model."
  },
  {
   "property": "C76",
   "status": "proved",
   "theorems": [
    "C76_each_once",
    "C76_in_order",
    "C76_action_waits",
    "C76_ends",
    "C76_goes_on",
    "C76_action_returns",
    "C76_reset_hangs_refuted",
    "C76_restart_hangs_refuted",
    "C76_cancel_hangs_refuted",
    "C76_stopped_action_refuted",
    "C76_value_error_refuted"
   ],
   "note": "REFUTED in part, as the statement says."
  },
  {
   "property": "C77",
   "status": "proved",
   "theorems": [
    "C77_timer_once",
    "C77_timer_read",
    "C77_not_early",
    "C77_apart",
    "C77_number",
    "C77_begins",
    "C77_due",
    "C77_queue",
    "C77_read",
    "C77_stopped",
    "C77_stopped_rest",
    "C77_grid_refuted"
   ],
   "note": "REFUTED in part, as the statement says (C77_grid_refuted)."
  },
  {
   "property": "C78",
   "status": "proved",
   "theorems": [
    "C78_by_namespace",
    "C78_namespaces",
    "C78_partition",
    "C78_no_errors",
    "C78_replace_no_errors",
    "C78_explicit_key_unindexed",
    "C78_explicit_key_stays",
    "C78_explicit_key_replaced",
    "C78_empty_namespace_refuted",
    "C78_explicit_key_refuted"
   ],
   "note": "REFUTED in part, as the statement says (C78_explicit_key_refuted, C78_explicit_key_unindexed, C78_explicit_key_stays, C78_explicit_key_replaced, C78_empty_namespace_refuted)."
  },
  {
   "property": "C79",
   "status": "proved",
   "theorems": [
    "C79_last_reconcile",
    "C79_end_to_end",
    "C79_single_list",
    "C79_silent_relist_refuted",
    "C79_missed_deletion_refuted"
   ],
   "note": "REFUTED in part, as the statement says (C79_silent_relist_refuted, C79_missed_deletion_refuted)."
  },
  {
   "property": "C80",
   "status": "proved",
   "theorems": [
    "C80_delivered",
    "C80_reconciled",
    "C80_converges",
    "C80_single_list"
   ],
   "note": "Fairness (just, workers_go_on) is assumed of the run; that relists break the announcement is C79_silent_relist_refuted."
  },
  {
   "property": "C81",
   "status": "proved",
   "theorems": [
    "C81_delay_ends",
    "C81_entry_leaves",
    "C81_delayed",
    "C81_repeated",
    "C81_until_success"
   ],
   "note": "Fairness of workers, of the queue's background task and of pending puts, and a clock that passes every time, are assumed of the run. That a request is dropped after 1024 counted failures is C63_retried_refuted; that shut_down strands entries is C11."
  },
  {
   "property": "C82",
   "status": "proved",
   "theorems": [
    "C82_cancel_reaches_all",
    "C82_left_alone",
    "C82_waiting_refuted",
    "C82_failure_refuted",
    "C82_late_refuted",
    "C82_queue_shut"
   ],
   "note": "REFUTED in part, as the statement says (C82_waiting_refuted, C82_failure_refuted, C82_late_refuted)."
  },
  {
   "property": "C83",
   "status": "proved",
   "theorems": [
    "C83_ends",
    "C83_waits_for_callback",
    "C83_twice_refuted",
    "C83_nested_add_refuted"
   ],
   "note": "REFUTED in part, as the statement says (C83_twice_refuted, C83_nested_add_refuted). A second cancellation while run waits for the processor task is not modelled."
  },
  {
   "property": "C84",
   "status": "proved",
   "theorems": [
    "C84_last_report",
    "C84_line_identifies",
    "C84_deletion_line_refuted"
   ],
   "note": "REFUTED in part, as the statement says (C84_deletion_line_refuted). The reconciler is example.py's; fairness is assumed of the run as in C80."
  },
  {
   "property": "C85",
   "status": "proved",
   "theorems": [
    "C85_namespace",
    "C85_client",
    "C85_list",
    "C85_watch",
    "C85_asked_for",
    "C85_only_wanted",
    "C85_unregistered",
    "C85_timeout_below",
    "C85_timeout_half",
    "C85_case"
   ],
   "note": "The server's side of a request (what it selects, what it accepts) is part of the specification."
  },
  {
   "property": "C86",
   "status": "proved",
   "theorems": [
    "C86_never",
    "C86_apart",
    "C86_number",
    "C86_after_list",
    "C86_none_after_end",
    "C86_next",
    "C86_latency",
    "C86_short_watches",
    "C86_every_period_refuted",
    "C86_case",
    "C86_latency_case"
   ],
   "note": "REFUTED in part, as the statement says (C86_every_period_refuted; C86_short_watches is the general statement)."
  },
  {
   "property": "C87",
   "status": "proved",
   "theorems": [
    "C87_gets_accounted",
    "C87_gets_end_after_shut_down",
    "C87_puts_accounted",
    "C87_fifo_calls_accounted",
    "C87_fifo_calls_end_after_close",
    "C87_delta_calls_accounted",
    "C87_delta_calls_end_after_close"
   ],
   "note": ""
  },
  {
   "property": "C88",
   "status": "proved",
   "theorems": [
    "C88_lists_apart",
    "C88_lists_number",
    "C88_idle_watches",
    "C88_idle_watches_apart",
    "C88_watches_number",
    "C88_eventful_watches",
    "C88_watches_apart_refuted",
    "C88_case"
   ],
   "note": "REFUTED in part, as the statement says (C88_watches_apart_refuted; C88_eventful_watches is the general statement)."
  },
  {
   "property": "C89",
   "status": "proved",
   "theorems": [
    "C89_since_38",
    "C89_cancel_ends",
    "C89_reconciling_refuted",
    "C89_left_alone",
    "C89_manager_refuted",
    "C89_case"
   ],
   "note": "REFUTED in part, as the statement says (C89_reconciling_refuted, C89_manager_refuted). All other properties are about Python 3.8 and later."
  },
  {
   "property": "C90",
   "status": "proved",
   "theorems": [
    "C90_pause",
    "C90_raise_rate",
    "C90_ahead",
    "C90_throughput",
    "C90_calls_after_stop",
    "C90_prompt_stop_refuted"
   ],
   "note": "REFUTED in part, as the statement says (C90_prompt_stop_refuted)."
  },
  {
   "property": "C91",
   "status": "proved",
   "theorems": [
    "C91_watches_started",
    "C91_locked_first",
    "C91_never_uninjected",
    "C91_first_manager",
    "C91_one_manager",
    "C91_late_watch_refuted",
    "C91_two_managers_refuted"
   ],
   "note": "REFUTED in part, as the statement says (C91_late_watch_refuted, C91_two_managers_refuted)."
  },
  {
   "property": "C92",
   "status": "proved",
   "theorems": [
    "C92_ahead",
    "C92_fair",
    "C92_delivered",
    "C92_converges"
   ],
   "note": "Only the listener of the handler considered is waited for (the code waits for the others as well); fairness is assumed of the run, as in C80."
  },
  {
   "property": "C93",
   "status": "proved",
   "theorems": [
    "C93_at_most_starts",
    "C93_errors",
    "C93_left_behind",
    "C93_concurrent_refuted",
    "C93_crash_refuted",
    "C93_lost_refuted"
   ],
   "note": "REFUTED in part, as the statement says (C93_concurrent_refuted, C93_crash_refuted, C93_lost_refuted)."
  },
  {
   "property": "C94",
   "status": "proved",
   "theorems": [
    "C94_in_order",
    "C94_ends",
    "C94_delivered",
    "C94_waits_for",
    "C94_lockstep",
    "C94_isolation_refuted"
   ],
   "note": "REFUTED in part, as the statement says (C94_isolation_refuted)."
  },
  {
   "property": "C95",
   "status": "proved",
   "theorems": [
    "C95_push",
    "C95_pop",
    "C95_entries_ordered",
    "C95_same_answers",
    "C95_refines_map",
    "C95_heap_kept"
   ],
   "note": ""
  },
  {
   "property": "C96",
   "status": "proved",
   "theorems": [
    "C96_at_most_once",
    "C96_ends",
    "C96_delivered",
    "C96_overlap",
    "C96_stopped_hangs",
    "C96_one_at_a_time_refuted",
    "C96_stop_refuted",
    "C96_case"
   ],
   "note": "REFUTED in part: with two runs callbacks overlap and end out of order (C96_one_at_a_time_refuted), and the end of one run ends the listeners of both (C96_stop_refuted, C96_stopped_hangs). PROVED: nothing is lost or handed over twice (C96_at_most_once, C96_ends, C96_delivered), and at most as many callbacks run at once as there are runs (C96_overlap)."
  },
  {
   "property": "C97",
   "status": "proved",
   "theorems": [
    "C97_double",
    "C97_conformance",
    "C97_tokens",
    "C97_jitter_low",
    "C97_jitter_high",
    "C97_backoff",
    "C97_backoff_capped",
    "C97_resync",
    "C97_jitter_refuted",
    "C97_exact_refuted",
    "C97_idle_refuted",
    "C97_case"
   ],
   "note": "REFUTED in part: in doubles jitter can exceed d*(1+f) (C97_jitter_refuted), exact conformance fails (C97_exact_refuted), and a bucket idle for long may not grant its whole burst at once (C97_idle_refuted). PROVED: the same claims up to explicit errors, for any rounding, and that rounding to binary64 is one."
  },
  {
   "property": "C98",
   "status": "proved",
   "theorems": [
    "C98_by_key",
    "C98_careful",
    "C98_no_error",
    "C98_copies",
    "C98_ghost_stays",
    "C98_ghost_refuted",
    "C98_stuck_refuted",
    "C98_rename_refuted"
   ],
   "note": "REFUTED in part: objects are kept and handed out without copying, so editing a cached object in place corrupts the indices (C98_ghost_refuted, C98_stuck_refuted) or strands it under its old key (C98_rename_refuted). PROVED: what a key holds whatever is edited; the indices are exact if edits since the last replace change no index value of a stored object, in particular if only copies are edited; how long the damage lasts."
  },
  {
   "property": "C99",
   "status": "proved",
   "theorems": [
    "C99_ends",
    "C99_at_once",
    "C99_waits",
    "C99_through",
    "C99_unstarted",
    "C99_leak",
    "C99_leak_refuted",
    "C99_callback_refuted"
   ],
   "note": "REFUTED in part: cancelled a second time before the processor woke up, run ends and leaves the listeners' tasks running for ever, which go on calling the handler (C99_leak_refuted); and run may end while a callback is running (C99_callback_refuted). PROVED: what happens in each of the places the second cancellation can meet the processor in."
  },
  {
   "property": "C100",
   "status": "proved",
   "theorems": [
    "C100_pending",
    "C100_read",
    "C100_popped",
    "C100_put_back",
    "C100_add",
    "C100_empty_synced",
    "C100_empty_ask",
    "C100_empty_put",
    "C100_nested_refuted",
    "C100_case"
   ],
   "note": "REFUTED in part: once a Deltas list was passed to add, key_of of what pop hands out fails (C100_nested_refuted); and a failed add of an empty list makes a fresh queue report has_synced (C100_empty_synced). PROVED: keys of lists read and popped, putting lists back, errors for empty lists. All theorems of DeltaFifo hold for objects that are lists, as they hold for all types of objects and key functions."
  },
  {
   "property": "C101",
   "status": "proved",
   "theorems": [
    "C101_careful",
    "C101_polite",
    "C101_own",
    "C101_emptied_refuted",
    "C101_changed_refuted",
    "C101_case"
   ],
   "note": "REFUTED in part: a callback that edits its list before a RequeueError, or a program that edits a list after add_if_not_present, changes what is pending (C101_emptied_refuted: list then raises AttributeError; C101_changed_refuted: a list under a foreign key). PROVED: without such edits the queue by reference is the queue by value, so that all theorems about the latter hold."
  },
  {
   "property": "C102",
   "status": "proved",
   "theorems": [
    "C102_text",
    "C102_str",
    "C102_ascii",
    "C102_again",
    "C102_create",
    "C102_update",
    "C102_raw",
    "C102_elector",
    "C102_carried",
    "C102_absent",
    "C102_split_refuted",
    "C102_case",
    "C102_foreign"
   ],
   "note": "REFUTED in part: a str may hold a high surrogate followed by a low one; such an identity comes back as one character (C102_split_refuted; C102_str says exactly what comes back). PROVED for all values made of None, bools, ints, floats, plain strs, lists and dicts with str keys. Floats are abstract: assumed is that repr gives a float literal and that float of it is the float."
  },
  {
   "property": "C103",
   "status": "proved",
   "theorems": [
    "C103_one",
    "C103_order",
    "C103_once",
    "C103_own",
    "C103_gone",
    "C103_too_late",
    "C103_turn",
    "C103_free",
    "C103_last",
    "C103_atomic",
    "C103_store",
    "C103_source",
    "C103_unseen_refuted",
    "C103_orphan_refuted",
    "C103_case",
    "C103_shutdown"
   ],
   "note": "REFUTED in part: a change cancelled while it awaits room in the broadcaster's queue is in lists but not in watches (C103_unseen_refuted), and a watch cancelled late leaves a watcher that nobody has (C103_orphan_refuted). PROVED for any number of tasks, any interleaving, and cancellation at any await. The lock is CPython's asyncio.Lock, modelled with its waiters' futures."
  },
  {
   "property": "C104",
   "status": "proved",
   "theorems": [
    "C104_fifo",
    "C104_effects",
    "C104_tasks",
    "C104_bound",
    "C104_at_rest",
    "C104_settles",
    "C104_rests",
    "C104_earlier",
    "C104_join",
    "C104_join_empty_refuted",
    "C104_put_order_refuted",
    "C104_get_order_refuted",
    "C104_case"
   ],
   "note": "REFUTED in part: calls of Broadcaster.action may enter out of the order in which they were made (C104_put_order_refuted), and a join may return with items in the queue (C104_join_empty_refuted). PROVED for any queue size, any number of get, put and join tasks, any interleaving, and cancellation at any moment. The queue is CPython's asyncio.Queue, modelled with its futures."
  },
  {
   "property": "C105",
   "status": "proved",
   "theorems": [
    "C105_accessor",
    "C105_reads",
    "C105_set_get",
    "C105_set_frame",
    "C105_set_fails",
    "C105_list",
    "C105_list_works",
    "C105_read_list",
    "C105_fake_list",
    "C105_alike",
    "C105_alike_keys",
    "C105_keys",
    "C105_key_errors",
    "C105_index",
    "C105_gvk",
    "C105_change",
    "C105_failed_change_refuted",
    "C105_replaced_metadata_refuted",
    "C105_shared_metadata_refuted",
    "C105_mixed_refuted",
    "C105_case"
   ],
   "note": "REFUTED in part: an accessor does not see metadata that replaces the one it was made with (C105_replaced_metadata_refuted), setting a version through one object may change another that shares the metadata (C105_shared_metadata_refuted), a dictionary around typed metadata gets an accessor that reads nothing (C105_mixed_refuted), and a change of the fake source that raises may be on record all the same (C105_failed_change_refuted). PROVED for all heaps of dictionaries, typed objects, lists, strings and None, in any shape."
  },
  {
   "property": "C106",
   "status": "proved",
   "theorems": [
    "C106_refines",
    "C106_once",
    "C106_mutex",
    "C106_atomic",
    "C106_turn",
    "C106_rest",
    "C106_too_late",
    "C106_gone",
    "C106_stays",
    "C106_workqueue",
    "C106_workqueue_rest",
    "C106_lost_refuted",
    "C106_fifo",
    "C106_fifo_rest",
    "C106_delta",
    "C106_delta_rest",
    "C106_prompt_refuted",
    "C106_case"
   ],
   "note": "REFUTED in part: a getter of the work queue that is cancelled after it was notified swallows the notification, so that another waits although there is an item (C106_lost_refuted), and a cancelled pop does not end while the callback of another runs (C106_prompt_refuted). PROVED for any object whose methods run under one condition, for all executions with any number of tasks and cancellations, and for the three queues as instances."
  },
  {
   "property": "C107",
   "status": "proved",
   "theorems": [
    "C107_refines",
    "C107_order",
    "C107_complete",
    "C107_live",
    "C107_settles",
    "C107_settled",
    "C107_rest",
    "C107_resyncs",
    "C107_failed_resync",
    "C107_cancel",
    "C107_no_task_left",
    "C107_left",
    "C107_hangs",
    "C107_goes_on_refuted"
   ],
   "note": "REFUTED in part: if the stream raises, the handler waits for ever unless a resync fails or the reflector is cancelled (C107_goes_on_refuted, C107_hangs). The rest is PROVED for all executions of the tasks, in every order the event loop can run them."
  },
  {
   "property": "C108",
   "status": "proved",
   "theorems": [
    "C108_refines",
    "C108_exactly_once",
    "C108_caught_up",
    "C108_settles",
    "C108_store",
    "C108_in_sync"
   ],
   "note": "PROVED for all executions of the reflector's tasks, the server and the stream."
  }
 ]
}