{
 "claims": [
  {
   "property": "C01",
   "status": "proved",
   "theorems": [
    "C01_allocated_has_no_reader",
    "C01_allocate_returns_free_slot",
    "C05_held_sample_was_published"
   ],
   "note": "Any number of slots and consumers, one provider thread (documented assumption of use), all crashes; fewer than 2^32-1 consumers and Send calls."
  },
  {
   "property": "C02",
   "status": "proved",
   "theorems": [
    "C02_held_sample_never_changes",
    "C05_held_sample_was_published"
   ],
   "note": ""
  },
  {
   "property": "C03",
   "status": "proved",
   "theorems": [
    "C03_refcount_exact",
    "C03_unavailable_has_no_reader",
    "C03_quiescent_slot_is_free",
    "C04_sequence_numbers_ordered"
   ],
   "note": ""
  },
  {
   "property": "C04",
   "status": "proved",
   "theorems": [
    "C04_delivery_in_order_no_duplicates",
    "C04_sequence_numbers_ordered",
    "C05_delivery_hands_out_a_published_sample"
   ],
   "note": ""
  },
  {
   "property": "C05",
   "status": "proved",
   "theorems": [
    "C05_held_sample_was_published",
    "C05_delivery_hands_out_a_published_sample"
   ],
   "note": ""
  },
  {
   "property": "C06",
   "status": "proved",
   "theorems": [
    "C06_get_new_samples_delivers_newest_unseen",
    "C06_hypotheses_hold_when_reachable",
    "C06_undisturbed_call_delivers_newest",
    "C06_resubscription_receives_everything"
   ],
   "note": "Sequential function and the event machine: a call during which nobody else moves, from any reachable state."
  },
  {
   "property": "C07",
   "status": "proved",
   "theorems": [
    "C07_allocate_takes_unused_or_oldest_free",
    "C07_allocate_fails_only_without_free_slot",
    "C07_undisturbed_allocate_succeeds",
    "C07_undisturbed_allocate_fails_without_free_slot",
    "C07_allocate_gives_up_only_after_101_attempts"
   ],
   "note": "Sequential function and the event machine; the last theorem covers interfering schedules."
  },
  {
   "property": "C08",
   "status": "proved",
   "theorems": [
    "C08_history_is_bounded_queue",
    "C08_history_depth"
   ],
   "note": "With interleaved discards the exact claim is the bounded queue: an allocation without a free slot drops the oldest sample even if it is later discarded."
  },
  {
   "property": "C09",
   "status": "partial",
   "theorems": [
    "C09_sent_samples_survive_restart",
    "C09_restart_frees_half_written_slots",
    "C09_send_is_newer_than_available_partial",
    "C09_newer_than_everything_refuted"
   ],
   "note": "Published samples survive and half-written slots are freed. 'Newer than everything sent before' is false of the code (refuted by a witness): only newer than every sample still available is proved."
  },
  {
   "property": "C10",
   "status": "partial",
   "theorems": [
    "C10_restart_never_terminates_partial",
    "C10_qualities_agree_partial",
    "C10_restart_refuted",
    "C10_restart_refuted_allocation",
    "C10_reoffer_after_disconnect_refuted"
   ],
   "note": "Refuted for crashes between the updates of the two controls and for a re-offer after QM was disconnected; proved for every schedule (any number of crashes and restarts) whose crashes are outside these windows."
  },
  {
   "property": "C100",
   "status": "partial",
   "theorems": [
    "C100_validate",
    "C100_binding_partial",
    "C100_resolves_partial",
    "C100_grows",
    "C100_default_refuted",
    "C100_late_initialize_refuted",
    "C100_identifier_then_addon_refuted",
    "C100_addon_without_binding_refuted"
   ],
   "note": "Resolving is proved for processes whose default file, if used, is valid and which create no identifiers from strings; that lookups never change is proved for every history. Calls are single steps; concurrent calls are not modelled."
  },
  {
   "property": "C101",
   "status": "partial",
   "theorems": [
    "C101_aggregated_partial",
    "C101_addon_refuted",
    "C101_unlisted_refuted",
    "C101_messages_refuted"
   ],
   "note": "The computed list is characterised for every order of visiting; it is not updated by add-ons, ignores unrestricted instances, and has no effect on which messages are accepted."
  },
  {
   "property": "C102",
   "status": "proved",
   "theorems": [
    "C102_on",
    "C102_answer",
    "C102_other",
    "C102_points",
    "C102_recoverable_refuted"
   ],
   "note": "Proved in full; C102_recoverable_refuted records that recoverable failures count too, although the threshold is documented for non-recoverable ones. The counter is not wrapped: it could only wrap after tracing is off."
  },
  {
   "property": "C103",
   "status": "partial",
   "theorems": [
    "C103_meaning_partial",
    "C103_accepted_partial",
    "C103_one_meaning_partial",
    "C103_well_formed_partial",
    "C103_traced_partial",
    "C103_identifier_partial",
    "C103_ids_partial",
    "C103_outcomes_partial",
    "C103_name_cut_refuted",
    "C103_further_bindings_refuted",
    "C103_same_service_id_refuted",
    "C103_too_many_slots_refuted",
    "C103_no_slots_refuted",
    "C103_unknown_method_refuted",
    "C103_misspelt_refuted",
    "C103_no_binding_refuted"
   ],
   "note": "Proved for files whose objects have no key twice (what the JSON reader delivers): a file is read iff it describes a configuration, and gives that one; the configuration is well formed, its identifiers can be read elsewhere (C96), its events and fields have ids of their own. The description states the exceptions the refuted theorems show: names end at a NUL character, only the first binding counts, unknown keys are ignored, and neither service ids nor methods nor numbers of slots are checked."
  },
  {
   "property": "C104",
   "status": "partial",
   "theorems": [
    "C104_layout",
    "C104_call",
    "C104_elements_apart",
    "C104_serialize_partial",
    "C104_over_page_alignment_refuted",
    "C104_unaligned_buffer_refuted",
    "C104_overlap_check_refuted"
   ],
   "note": "Proved for types aligned to at most a page and a transport that works (what happens when it fails is C73/C105). Refuted beyond a page: the two processes then compute different places. SerializeArgs, which the calls do not use, agrees with DeserializeArgs; its overlap check looks at a copy of the argument. Overflow of std::size_t is not modelled."
  },
  {
   "property": "C105",
   "status": "partial",
   "theorems": [
    "C105_exclusive",
    "C105_result_not_shared",
    "C105_full",
    "C105_allocate",
    "C105_call",
    "C105_call_copy",
    "C105_stable",
    "C105_all_released",
    "C105_order_refuted",
    "C105_result_as_argument_refuted",
    "C105_reuse_refuted"
   ],
   "note": "Proved for programs that give a call live pointers to the arguments of the called method, each at its place. The code checks only that queue positions are equal: refuted for pointers in another order, for a result pointer given as argument and for pointers given a second time. Pointers outliving their method object and concurrent use of one method object are not modelled."
  },
  {
   "property": "C106",
   "status": "partial",
   "theorems": [
    "C106_control_analysis_partial",
    "C106_control_simulation_partial",
    "C106_methods_partial",
    "C106_methods_additional",
    "C106_control_analysis_getter_refuted",
    "C106_subscribers_255_refuted",
    "C106_methods_overaligned_refuted"
   ],
   "note": "Control data: simulation suffices for all configurations with fewer than 255 subscribers; analysis additionally without getter or setter slots. Methods: exact for types of at most std::max_align_t alignment; for alignment up to A (at most a page) A - 16 additional bytes suffice. Refuted: getter slots in the analysis, 255 subscribers, over-aligned arguments."
  },
  {
   "property": "C107",
   "status": "partial",
   "theorems": [
    "C107_accepted_types",
    "C107_same_place",
    "C107_other_type_never_read",
    "C107_restart_partial",
    "C107_restart_opens",
    "C107_overaligned_generic_refuted",
    "C107_huge_generic_refuted",
    "C107_restart_size_refuted",
    "C107_restart_typed_refuted"
   ],
   "note": "Proved for all types whose samples fit the address space, for all four combinations and for restarts with the same type and kind. Refuted: sizes that overflow, alignments above 16 (accepted, then the provider is ended), restarts with another size (writes outside the storage) or from generic to typed (ends the provider)"
  },
  {
   "property": "C108",
   "status": "partial",
   "theorems": [
    "C108_as_if_never_moved_partial",
    "C108_announced_has_one_owner",
    "C108_withdrawn_exactly_once",
    "C108_ended_is_over",
    "C108_swap",
    "C108_generic_skeleton_refuted",
    "C108_generic_skeleton_left_announced_refuted",
    "C108_moved_twice_refuted",
    "C108_traced_handler_refuted",
    "C108_moved_from_use_refuted"
   ],
   "note": "For every history within the stated rules the objects with all their internal pointers behave as a specification in which a move only says which variable holds the service. Refuted without the rules: destroying an offered GenericSkeleton terminates or, after an earlier stop, leaves it announced; moving a moved-from object of a generated class is undefined; with tracing, a receive handler set before a move dangles. Concurrent use during a move and failures of PrepareOffer are not modelled here."
  },
  {
   "property": "C109",
   "status": "partial",
   "theorems": [
    "C109_never_crashes_partial",
    "C109_callbacks_in_order_partial",
    "C109_gone_is_over_partial",
    "C109_messages_in_order_partial",
    "C109_sent_to_its_client_partial",
    "C109_stopped_is_over_partial",
    "C109_no_descriptor_left_partial",
    "C109_stop_closes_all_partial",
    "C109_stop_returns_partial",
    "C109_disconnect_then_error_refuted",
    "C109_disconnect_from_thread_refuted",
    "C109_failed_accept_refuted",
    "C109_unanswered_requests_refuted",
    "C109_disconnect_while_connecting_refuted",
    "C109_partial_message_blocks_refuted"
   ],
   "note": "Proved for all histories in which accept does not fail, RequestDisconnect is called in callbacks, connections are used only while accepted, and no message callback returns an error for a connection disconnected meanwhile. Refuted without these: use after free after disconnect plus error, abnormal end for RequestDisconnect on another thread and for a failed accept. Also refuted: one outstanding request at a time; disconnect in the connect callback; progress when a client sends part of a message (it blocks the engine and StopListening)."
  },
  {
   "property": "C11",
   "status": "proved",
   "theorems": [
    "C11_read_samples_stable",
    "C11_reference_count_exact",
    "C11_disconnected_independent_of_qm",
    "C11_allocation_returns_slot"
   ],
   "note": "For arbitrary writes of the QM side at every step, up to 2^32-2 publications. Termination of the provider by its own assertion is the separate property C57."
  },
  {
   "property": "C110",
   "status": "partial",
   "theorems": [
    "C110_set_answer_partial",
    "C110_update_answer_partial",
    "C110_get_admitted_partial",
    "C110_no_termination_partial",
    "C110_one_at_a_time",
    "C110_slots_exclusive",
    "C110_get_current_partial",
    "C110_get_latest_partial",
    "C110_no_failure_partial",
    "C110_update_during_set_refuted",
    "C110_value_changed_after_validation_refuted",
    "C110_error_during_set_refuted",
    "C110_few_slots_refuted",
    "C110_values_during_get_refuted"
   ],
   "note": "Proved for every interleaving: answers of Set and Update, one handler at a time, exclusive slots; without consumers writing into their calls' memory: only admitted values, no termination. Get answers a current value, and Set never fails, if values are sent one after the other, none begins while Get searches and three slots are free. Refuted without: an Update during a Set loses later Sets for good; a consumer changes the value after validation or terminates the provider; with fewer slots, or with values sent during the search, Get answers an outdated value."
  },
  {
   "property": "C111",
   "status": "partial",
   "theorems": [
    "C111_no_dangling",
    "C111_no_leak",
    "C111_open_answer",
    "C111_answer_usable",
    "C111_create_new",
    "C111_progress",
    "C111_live_registered_partial",
    "C111_one_mapping_partial",
    "C111_no_termination_partial",
    "C111_writable_partial",
    "C111_current_partial",
    "C111_stays_linked_partial",
    "C111_usable_after_remove_refuted",
    "C111_usable_during_drop_refuted",
    "C111_create_after_remove_refuted",
    "C111_open_during_drop_refuted",
    "C111_writable_refuted",
    "C111_current_refuted",
    "C111_stale_only_refuted",
    "C111_paths_independent_refuted"
   ],
   "note": "Unconditional: no dangling registration, no leak, right path and owner, fresh objects from Create, no deadlock. Registration, one mapping and no termination are proved for orderly use; refuted when a path is used after Remove while a handle is held, when a thread drops the last handle while another opens, and for colliding identifiers. Write access and currency of the object refuted for paths already open."
  },
  {
   "property": "C112",
   "status": "partial",
   "theorems": [
    "C112_progress_partial",
    "C112_no_deadlock_partial",
    "C112_runnable",
    "C112_alive_while_running",
    "C112_one_thread",
    "C112_not_reentered",
    "C112_destroyed_once",
    "C112_stop_is_final_partial",
    "C112_search_goes_on",
    "C112_failed_start",
    "C112_deadlock_refuted",
    "C112_second_stop_refuted",
    "C112_unknown_specifier_refuted"
   ],
   "note": "Freedom from deadlock holds if nothing that StopFindService destroys calls service discovery, and is refuted otherwise: a handler that owns a proxy, stopped while the worker thread runs a handler that creates one. That a stop is final holds for the call that takes the search out; a second, concurrent call returns while the handler runs. An unconfigured specifier yields a handle and no error."
  },
  {
   "property": "C113",
   "status": "partial",
   "theorems": [
    "C113_own_memory_partial",
    "C113_no_undefined_behaviour_partial",
    "C113_one_home",
    "C113_size_exact",
    "C113_overflow_stops",
    "C113_forged_name_stops",
    "C113_unknown_name_stops",
    "C113_served",
    "C113_double_fetch_refuted",
    "C113_end_address_refuted",
    "C113_simulation_refuted",
    "C113_forged_free_refuted",
    "C113_removed_refuted",
    "C113_heap_partial",
    "C113_heap_alignment_refuted",
    "C113_heap_exhausted_refuted",
    "C113_double_free"
   ],
   "note": "Proved for arbitrary earlier contents of the memory when the proxy does not change during a call, no size simulation runs, no proxy is at the end address of a region and no region is removed during a call in it; each of these conditions is shown necessary by a refutation. The allocation counter is not tampered with here (see C61)."
  },
  {
   "property": "C114",
   "status": "partial",
   "theorems": [
    "C114_content_in_order",
    "C114_nothing_invented",
    "C114_nothing_dropped",
    "C114_notify_answer",
    "C114_sizes",
    "C114_everything_arrives_partial",
    "C114_order_partial",
    "C114_no_undefined_behaviour_partial",
    "C114_stuck_notification_refuted",
    "C114_stuck_reply_refuted",
    "C114_order_refuted",
    "C114_second_request_refuted",
    "C114_long_message_refuted",
    "C114_write_within_partial",
    "C114_write_accepted",
    "C114_write_underflow_refuted",
    "C114_pulse_value_exact",
    "C114_pulse_home_partial",
    "C114_stale_ping_refuted"
   ],
   "note": "Order and integrity of messages with content, answers and sizes hold in every execution. Arrival needs at most one message before the client registers, the order of empty notifications needs none, memory safety needs polite peers and matching sizes; the refutations show each condition is needed. Disconnection during a call and the data race on the stored events are not modelled."
  },
  {
   "property": "C115",
   "status": "partial",
   "theorems": [
    "C115_held_within_subscription",
    "C115_samples_once_and_in_order",
    "C115_try_receive_result",
    "C115_try_receive_progress",
    "C115_full_holding_always_fails",
    "C115_receive_resolves_with_counts",
    "C115_receive_reported_samples_present_partial",
    "C115_exact_receive_keeps_last_batch_only",
    "C115_receive_reported_samples_present_refuted",
    "C115_receive_of_published_samples_succeeds_refuted",
    "C115_container_shortened_to_max_refuted",
    "C115_full_container_slides_refuted",
    "C115_cancelled_container_unchanged_refuted",
    "C115_invalid_arguments_refused",
    "C115_allowed_arguments_accepted",
    "C115_cancel_ends_receive",
    "C115_subscription_free_after_receive",
    "C115_no_sleep_on_new_samples",
    "C115_notification_wakes",
    "C115_poll_makes_progress",
    "C115_stream_yields_all_in_order",
    "C115_stream_yields_buffer_first",
    "C115_orderly_use_never_panics",
    "C115_small_container_never_panics_refuted",
    "C115_unsubscribe_safe_iff_no_samples",
    "C115_nothing_after_the_end",
    "C115_samples_end_before_subscription_refuted"
   ],
   "note": "Proved for all executions: holdings, order, uniqueness, counts, wake-ups, cancellation, streams and freedom from panics with large enough containers. Refuted: samples reported by a receive of several polls are in the container; receives of published samples succeed; the container is shortened; a full container slides; a cancelled receive leaves the container alone; small containers do not panic; samples end before the subscription."
  },
  {
   "property": "C116",
   "status": "partial",
   "theorems": [
    "C116_resolves_with_latest_report",
    "C116_empty_result_after_withdrawal",
    "C116_failed_start_is_an_error",
    "C116_no_lost_wake_up",
    "C116_handler_wakes",
    "C116_found_instance_resolves",
    "C116_polled_future_ends_search_partial",
    "C116_search_ended_at_most_once",
    "C116_callback_outlives_search",
    "C116_search_ends_with_future_refuted",
    "C116_resolves_without_instances_refuted",
    "C116_memory_returned_refuted",
    "C116_every_call_leaks"
   ],
   "note": "Proved for all executions: results, wake-ups, progress when an instance is on offer, and the end of the search for polled futures. Refuted: the search ends with a future that was never polled; a result without instances; the memory of a call is returned."
  },
  {
   "property": "C117",
   "status": "partial",
   "theorems": [
    "C117_never_early",
    "C117_each_once",
    "C117_earliest_first",
    "C117_cleaned_owner_is_quiet",
    "C117_cleanup_returns_when_served",
    "C117_nothing_after_stop",
    "C117_overdue_command_sleeps_refuted",
    "C117_overslept_for_centuries_refuted",
    "C117_no_command_overslept_partial",
    "C117_due_command_executed_partial",
    "C117_any_pulse_recovers",
    "C117_cleanup_not_overslept_partial",
    "C117_lost_pulse_refuted",
    "C117_cleanup_returns_refuted",
    "C117_stop_returns_partial",
    "C117_stop_hangs_refuted",
    "C117_due_before_stop_refuted"
   ],
   "note": "Order, single execution, no early execution, quiet owners after a served clean-up and silence after Stop hold of every history. Wake-ups are proved for histories in which every timer is set before the next due time and every pulse is sent. Refuted: a due time that passes before the timer is set (the distance wraps or disarms the timer), lost pulses (commands, Stop), two clean-ups of one owner, commands due before Stop."
  },
  {
   "property": "C118",
   "status": "partial",
   "theorems": [
    "C118_no_access_after_return",
    "C118_returns_own_value",
    "C118_not_before_mark",
    "C118_no_lost_wakeup",
    "C118_mutual_exclusion",
    "C118_marked_wait_can_return",
    "C118_marked_twice_refuted",
    "C118_left_while_marked_refuted"
   ],
   "note": "Holds of every history in which each future is marked at most once and no function returns without a wait while its future is being marked or before it is. Refuted otherwise: a second mark, and a SendWaitReply whose transmission fails during teardown, let the background thread write into a function that is gone."
  },
  {
   "property": "C119",
   "status": "partial",
   "theorems": [
    "C119_exact_count",
    "C119_no_double_release",
    "C119_event_outlives_samples",
    "C119_destruction_checked",
    "C119_moves_neutral",
    "C119_allocate_during_destruction_refuted",
    "C119_objects_counted",
    "C119_reset_safe",
    "C119_destructor_order_refuted",
    "C119_assignment_releases_refuted"
   ],
   "note": "Proved for the guards inside the sample objects (first five theorems; C119_moves_neutral is about guards) and for the sample objects after whole operations (C119_objects_counted), and in all interleavings if samples are given up with reset (C119_reset_safe), provided nobody asks an event for a sample once its destructor has begun. False as stated in three ways: an Allocate during the destructor of the event is not noticed; the destructor of a sample object releases its guard before its slot, so an event destroyed in between is used afterwards; assigning over a sample object swaps the two objects and does not release the overwritten sample. The counter does not wrap at 2^64."
  },
  {
   "property": "C12",
   "status": "proved",
   "theorems": [
    "C12_rollback_leaves_nothing",
    "C12_rollback_fails_only_on_half_transaction",
    "C12_rollback_completes",
    "C03_refcount_exact",
    "C12_subscription_rollback_exact",
    "C12_subscription_rollback_error_only_in_call"
   ],
   "note": "slot references in the event machine, the subscription itself in the subscription machine"
  },
  {
   "property": "C13",
   "status": "partial",
   "theorems": [
    "C13_one_call_partial",
    "C13_as_many_calls_as_logs_partial",
    "C13_result",
    "C13_others_untouched",
    "C13_all_logs_refuted",
    "C13_free_logs_are_empty",
    "C13_logs_are_kept",
    "C13_registration"
   ],
   "note": "one call rolls back exactly one log; as many calls as stale logs give back everything; the property as documented (all logs in one call) is refuted; what is left behind is usable: a log without owner records nothing, logs are never lost, subscribing never aborts"
  },
  {
   "property": "C14",
   "status": "proved",
   "theorems": [
    "C14_limits",
    "C14_counters_exact",
    "C14_counters_exact_quiet",
    "C14_subscribe_within_limits_succeeds",
    "C14_subscribe_too_many_samples",
    "C14_subscribe_too_many_subscribers"
   ],
   "note": "for any interleaving of any number of consumers with crashes, rollbacks and spurious CAS failures; max_subscribers <= 255, slots < 2^16; the three C14_subscribe theorems: after any such history a call that nobody disturbs succeeds exactly when the limits allow it, and fails without a trace otherwise"
  },
  {
   "property": "C15",
   "status": "partial",
   "theorems": [
    "C15_all_gone",
    "C15_unsubscribe_gives_back",
    "C15_terminates_only_on_retries_partial",
    "C15_unsubscribe_retries_refuted"
   ],
   "note": "counters are given back exactly and underflow checks are never violated; the claim that no legal history terminates Unsubscribe is false: 3*max_subscribers lost compare-exchanges terminate it (refuted with a schedule)"
  },
  {
   "property": "C16",
   "status": "proved",
   "theorems": [
    "C16_state_is_documented",
    "C16_samples_only_while_subscribed",
    "C16_survives_provider_restart",
    "C16_termination",
    "C16_samples_in_hand",
    "C16_nothing_without_subscription"
   ],
   "note": "C16_termination lists exactly the calls that terminate the process, among them a second 'provider gone' report while pending; C16_samples_in_hand gives the exact number of samples delivered from the history"
  },
  {
   "property": "C17",
   "status": "partial",
   "theorems": [
    "C17_only_handler_in_effect_is_called_partial",
    "C17_handler_in_effect_is_called",
    "C17_registration_stays_refuted",
    "C17_foreign_unsubscribe_refuted"
   ],
   "note": "a removed handler is never called; but the registration with the provider stays if the handler is removed while the provider is away (refuted), and Unsubscribe from another event's handler does not remove a pending handler (refuted)"
  },
  {
   "property": "C18",
   "status": "partial",
   "theorems": [
    "C18_subscribe_returns_partial",
    "C18_subscribe_never_terminates",
    "C18_subscribe_zero_refuted"
   ],
   "note": "holds for 1..255; Subscribe(0) terminates (refuted)"
  },
  {
   "property": "C19",
   "status": "proved",
   "theorems": [
    "C19_no_precondition_violated",
    "C19_wait_has_cause"
   ],
   "note": "The bounded wait (10 x 10ms) before a reference transaction is modelled as a blocking wait; C19_wait_has_cause shows what it waits for."
  },
  {
   "property": "C20",
   "status": "partial",
   "theorems": [
    "C20_getter_aborts_exactly_if_traced_partial",
    "C20_getter_returns_newest",
    "C20_only_aborts",
    "C20_refuted"
   ],
   "note": "The statement is false of the code: a getter call while the newest sample is held by tracing terminates (C20_refuted). Proved: exactly when it happens, and the result otherwise."
  },
  {
   "property": "C21",
   "status": "partial",
   "theorems": [
    "C21_sends_below_wrap_partial",
    "C21_unlimited_refuted"
   ],
   "note": "Holds below 2^32-1 sends; refuted at 2^32-1."
  },
  {
   "property": "C22",
   "status": "partial",
   "theorems": [
    "C22_limit",
    "C22_free_count",
    "C22_assertion_never_fails",
    "C22_release_frees_one",
    "C22_reserves_what_is_free",
    "C22_unsubscribe",
    "C22_samples_kept_partial",
    "C22_samples_kept_refuted"
   ],
   "note": "proved for the SamplePtrs the user holds; false for the samples kept from reuse: the destructor returns the reference before it releases the slot"
  },
  {
   "property": "C23",
   "status": "partial",
   "theorems": [
    "C23_key_round_trip",
    "C23_one_entry_per_application",
    "C23_returns_previous",
    "C23_others_unaffected",
    "C23_fails_only_if_full_partial",
    "C23_fails_only_if_full_refuted",
    "C23_shared_application_id_refuted"
   ],
   "note": "Proved for every interleaving of any number of processes with crashes, provided at most one process per application id registers at a time. The 'fails only when full' part is false when compare_exchange_weak fails spuriously 50 times per scan (refutation) and proved otherwise. Two processes sharing an application id get two entries (refutation)."
  },
  {
   "property": "C24",
   "status": "proved",
   "theorems": [
    "C24_is_a_map",
    "C24_one_value_per_key",
    "C24_elements_stay",
    "C24_empty"
   ],
   "note": "For every key type, equivalence, capacity and call sequence. NonRelocatableVector is external and taken by its documented behaviour."
  },
  {
   "property": "C25",
   "status": "proved",
   "theorems": [
    "C25_one_owner",
    "C25_allocate",
    "C25_send",
    "C25_give_back",
    "C25_moves",
    "C25_accounting"
   ],
   "note": "For all histories in which no allocated sample is held at StopOfferService (see C60 for the others)."
  },
  {
   "property": "C26",
   "status": "proved",
   "theorems": [
    "C26_smallest_multiple",
    "C26_when_it_terminates"
   ],
   "note": "never undefined; terminates instead of wrapping; for powers of two only if no multiple fits in 64 bit"
  },
  {
   "property": "C27",
   "status": "proved",
   "theorems": [
    "C27_exact"
   ],
   "note": "for power of two alignments that divide the start address; sequences of any length"
  },
  {
   "property": "C28",
   "status": "proved",
   "theorems": [
    "C28_inside_and_aligned",
    "C28_disjoint",
    "C28_aligned_in_every_process",
    "C28_blocks_stay",
    "C28_fits"
   ],
   "note": "every interleaving of any number of processes mapping the region at different addresses, spurious CAS failures and crashes; std::align by specification"
  },
  {
   "property": "C29",
   "status": "partial",
   "theorems": [
    "C29_simulation_suffices_partial",
    "C29_estimation_suffices_partial",
    "C29_estimation_getter_refuted",
    "C29_estimation_generic_refuted",
    "C29_simulation_overaligned_refuted"
   ],
   "note": "full statement is false: estimation forgets getter/setter slots and generic padding; simulation uses a page aligned base, so over-aligned sample types may not fit"
  },
  {
   "property": "C30",
   "status": "partial",
   "theorems": [
    "C30_in_shared_memory",
    "C30_dereference",
    "C30_index",
    "C30_stack_copies",
    "C30_valid_access_succeeds",
    "C30_get_defined",
    "C30_index_terminates_refuted",
    "C30_index_defined_partial",
    "C30_index_undefined_exactly_on_overflow"
   ],
   "note": "Every pointer handed out lies inside the region, for every offset, also through chains of stack copies; valid accesses succeed. operator[] overflows a signed addition (undefined behaviour) before the check for hostile offsets: refuted with a witness, partial theorem for non-overflowing offsets."
  },
  {
   "property": "C31",
   "status": "proved",
   "theorems": [
    "C31_copy_keeps_target",
    "C31_copy_succeeds",
    "C31_raw_round_trip",
    "C31_chain_of_copies",
    "C30_stack_copies"
   ],
   "note": "Copies succeed whenever the distance fits 64 bits and the target is not inside the copy itself."
  },
  {
   "property": "C32",
   "status": "partial",
   "theorems": [
    "C32_null_reads_as_null_partial",
    "C32_null_reads_as_null_refuted",
    "C32_never_non_null"
   ],
   "note": "False near the end of a region: the bounds check is applied to the null representation."
  },
  {
   "property": "C33",
   "status": "partial",
   "theorems": [
    "C33_swap_exchanges_targets",
    "C33_keeps_protection_partial",
    "C33_keeps_protection_refuted"
   ],
   "note": "Targets are exchanged; the left pointer loses its recorded bounds when it is outside shared memory."
  },
  {
   "property": "C34",
   "status": "partial",
   "theorems": [
    "C34_addition_exact",
    "C34_subtraction_exact",
    "C34_agrees_with_raw_pointers_partial",
    "C34_agrees_with_raw_pointers_refuted",
    "C34_difference",
    "C34_difference_never_wrong",
    "C34_comparisons"
   ],
   "note": "Exact or terminating for all 64 bit values. Refuted only where the result is the byte after the pointer's own address, whose offset is the null representation."
  },
  {
   "property": "C35",
   "status": "proved",
   "theorems": [
    "C35_difference_exact"
   ],
   "note": "Complete characterisation for all pairs of 64 bit addresses."
  },
  {
   "property": "C36",
   "status": "partial",
   "theorems": [
    "C36_known_regions",
    "C36_lookup_finds_the_region",
    "C36_lookup_result_partial",
    "C36_address_after_the_end",
    "C36_nothing_if_in_none_refuted",
    "C36_when_registration_terminates",
    "C36_registration_result"
   ],
   "note": "Regions stay disjoint and a contained address is found. Refuted as stated: the address one past the end of a region is reported as inside it."
  },
  {
   "property": "C37",
   "status": "proved",
   "theorems": [
    "C37_never_torn",
    "C37_lookup_sees_a_complete_set",
    "C37_stable_while_evaluated",
    "C37_completed_operations_are_seen"
   ],
   "note": "One writer, any number of readers, every interleaving of atomic accesses; reference counts are 32 bit; sequentially consistent memory."
  },
  {
   "property": "C38",
   "status": "proved",
   "theorems": [
    "C38_encoder_stays_in_buffer",
    "C38_round_trip",
    "C38_too_small"
   ],
   "note": "Every message body, buffer and trailing data; strings non-empty and without NUL (the rest is C40)."
  },
  {
   "property": "C39",
   "status": "proved",
   "theorems": [
    "C39_decoder_is_safe",
    "C39_framer_is_safe"
   ],
   "note": "Arbitrary bytes, any segmentation of recv(); also shows what is accepted is the encoding of the result. A header with payload size 0 is accepted as a message with empty strings (C39_empty_payload_example)."
  },
  {
   "property": "C40",
   "status": "partial",
   "theorems": [
    "C40_arrives_partial",
    "C40_empty_name_refuted",
    "C40_many_elements_refuted",
    "C40_event_names_refuted"
   ],
   "note": "Exact characterisation of the messages that arrive. False in general: empty strings, strings with NUL and messages over 1024 bytes are lost, and EventInfo is sent as raw bytes holding a pointer to its name."
  },
  {
   "property": "C41",
   "status": "partial",
   "theorems": [
    "C41_stream",
    "C41_everything_arrives",
    "C41_prefix",
    "C41_interrupted_send_refuted"
   ],
   "note": "For every segmentation, cut point and receive error; holds as long as sends do not fail. After a send that fails half way the request is sent again on the same connection and the receiver delivers a message nobody sent."
  },
  {
   "property": "C42",
   "status": "proved",
   "theorems": [
    "C42_success_means_acknowledged",
    "C42_own_sequence_number",
    "C42_entry_stays",
    "C42_only_own_acknowledgement",
    "C42_acknowledged_wins",
    "C42_shared_number_refuted"
   ],
   "note": "Success implies acknowledgement for every run; distinct sequence numbers need that fewer than 2^32 requests begin while one is in progress (without that: C42_shared_number_refuted)."
  },
  {
   "property": "C43",
   "status": "partial",
   "theorems": [
    "C43_survives_partial",
    "C43_disappearing_kills",
    "C43_transport_failure_refuted",
    "C43_remote_element_type_refuted"
   ],
   "note": "Survives every history in which services disappear only after a successful propagation and the peer speaks of events only. Otherwise false: a service that disappears after its propagation failed terminates the gateway, as does a peer message with another element type."
  },
  {
   "property": "C44",
   "status": "partial",
   "theorems": [
    "C44_at_most_once_partial",
    "C44_exactly_once_partial",
    "C44_refused_never_called_partial",
    "C44_own_reply_partial",
    "C44_stop_race_refuted",
    "C44_unsolicited_reply_refuted"
   ],
   "note": "Proved for every configuration, thread count, interleaving, transmission outcome and stop/restart history under three stated environment conditions (server answers only received requests; no SendWaitReply/late async send in flight at teardown; debug assertion condition). Without them false: the two refutations give runs."
  },
  {
   "property": "C45",
   "status": "partial",
   "theorems": [
    "C45_order_partial",
    "C45_complete_partial",
    "C45_unsolicited_reply_refuted"
   ],
   "note": "Order and completeness for fully ordered or truly asynchronous clients, same environment conditions as C44; refuted for a server that sends unsolicited replies."
  },
  {
   "property": "C46",
   "status": "partial",
   "theorems": [
    "C46_capacity_partial",
    "C46_restart_refuted"
   ],
   "note": "In every run the capacity is what is configured minus the messages discarded by stops; the full claim (capacity restored after restart) is refuted by an orderly run."
  },
  {
   "property": "C47",
   "status": "partial",
   "theorems": [
    "C47_no_late_callback_partial",
    "C47_returns_after_callback_partial",
    "C47_stop_race_refuted"
   ],
   "note": "Holds under the environment conditions of C44; refuted when SendWaitReply is transmitting during teardown."
  },
  {
   "property": "C48",
   "status": "proved",
   "theorems": [
    "C48_order",
    "C48_exactly_once",
    "C48_only_registered",
    "C48_cleanup_only_own",
    "C48_cleanup_all_own",
    "C48_result",
    "C48_null_owner_refuted",
    "C48_concurrent_cleanup_refuted"
   ],
   "note": "Every interleaving of registrations, processing and clean-ups interrupted by registrations. Findings: cleaning the null owner removes commands although the documentation excludes it; concurrent clean-ups of one owner: the second waits for ever."
  },
  {
   "property": "C49",
   "status": "partial",
   "theorems": [
    "C49_roundtrip_partial",
    "C49_buffer_safe",
    "C49_large_message_refuted",
    "C49_large_buffer_refuted",
    "C49_short_send_refuted",
    "C49_short_header_refuted",
    "C49_success_means_sent_partial"
   ],
   "note": "Round trip for all message sequences when every registered size is below 65536 and the socket calls are not cut short; false otherwise (four refutations). The receive buffer is never exceeded, for every stream."
  },
  {
   "property": "C50",
   "status": "proved",
   "theorems": [
    "C50_specifier_grammar"
   ],
   "note": "for all byte strings; grammar specified separately"
  },
  {
   "property": "C51",
   "status": "partial",
   "theorems": [
    "C51_in_use_not_removed_partial",
    "C51_in_use_kept_partial",
    "C51_same_object_partial",
    "C51_decides_removal_when_unused",
    "C51_removal_complete",
    "C51_removal_proceeds",
    "C51_attach_race_refuted"
   ],
   "note": "Proved for all interleavings in which a consumer's window between opening the marker file and locking it does not overlap the provider's window between locking and unlinking it, and creation does not overlap destruction of another provider; without the first condition refuted (C51_attach_race_refuted)."
  },
  {
   "property": "C52",
   "status": "partial",
   "theorems": [
    "C52_single_provider_partial",
    "C52_second_creation_fails_partial",
    "C52_two_providers_refuted",
    "C52_both_offer_refuted"
   ],
   "note": "Proved when creating a provider does not overlap destroying one; without that refuted: the existence marker is unlinked after being unlocked by path, so two providers can hold it and both offer."
  },
  {
   "property": "C53",
   "status": "proved",
   "theorems": [
    "C53_round_trip",
    "C53_distinct",
    "C53_domain",
    "C53_other_domain_refuted"
   ],
   "note": "both error domains; the refuted theorem shows codes of one domain read in the other are misread or abort"
  },
  {
   "property": "C54",
   "status": "proved",
   "theorems": [
    "C54_resource_ids_unique",
    "C54_names_unique",
    "C54_never_the_sentinel_refuted"
   ],
   "note": "identifiers and all file names; the refuted theorem: service 0 instance 0 gets the identifier reserved for 'no resource' in the size simulation"
  },
  {
   "property": "C55",
   "status": "partial",
   "theorems": [
    "C55_no_more_than_documented",
    "C55_strict",
    "C55_documented_can_attach_partial",
    "C55_methods_partial",
    "C55_provider_partial",
    "C55_omitted_list_refuted",
    "C55_umask_refuted",
    "C55_methods_empty_list_refuted",
    "C55_empty_provider_list_refuted"
   ],
   "note": "the safety direction and strict mode hold for every configuration; that every documented user can attach is false for an omitted list next to a configured one, for a restrictive umask, for methods with an empty list, and for an empty provider list"
  },
  {
   "property": "C56",
   "status": "partial",
   "theorems": [
    "C56_qm_sample_stable_while_connected_partial",
    "C56_qm_sample_overwritten_refuted"
   ],
   "note": "Refuted after the provider has given up on the QM control; proved while QM is connected."
  },
  {
   "property": "C57",
   "status": "partial",
   "theorems": [
    "C57_qm_write_terminates_provider_refuted",
    "C10_restart_never_terminates_partial"
   ],
   "note": "Refuted: one QM write with another time stamp terminates the provider. Proved only for QM sides that do not write on their own."
  },
  {
   "property": "C58",
   "status": "partial",
   "theorems": [
    "C58_unsubscribe_waits_for_handler_partial",
    "C58_no_active_handler_after_unsubscribe",
    "C58_unsubscribe_blocks_while_handler_active",
    "C58_foreign_unsubscribe_refuted"
   ],
   "note": "holds outside of receive handlers, with active handlers counted from the history; false when called from the receive handler of another event"
  },
  {
   "property": "C59",
   "status": "proved",
   "theorems": [
    "C59_live_subscriptions_survive_proxy_creation"
   ],
   "note": ""
  },
  {
   "property": "C60",
   "status": "partial",
   "theorems": [
    "C60_sample_ownership_across_reoffer_refuted",
    "C60_destruction_while_not_offered_refuted",
    "C60_exclusive_across_reoffer_partial"
   ],
   "note": "False of the code in general; holds if no sample is held at each stop."
  },
  {
   "property": "C61",
   "status": "partial",
   "theorems": [
    "C61_partial",
    "C61_corrupted_counter_refuted"
   ],
   "note": "false if the counter lies beyond the end of the region; proved for every counter within the region"
  },
  {
   "property": "C62",
   "status": "partial",
   "theorems": [
    "C62_owner_is_not_null",
    "C62_not_null_owns_partial",
    "C62_not_null_owns_refuted"
   ],
   "note": "false for the source of a move assignment"
  },
  {
   "property": "C63",
   "status": "partial",
   "theorems": [
    "C63_acknowledged_is_received",
    "C63_in_order",
    "C63_once_refuted",
    "C63_sent_at_most_five_times",
    "C63_not_connected_only_if_lost"
   ],
   "note": "Received at least once and in order per thread; not at most once: a late acknowledgement makes the request be sent and executed again. Failing sends put nothing on the connection in this model (see C41)."
  },
  {
   "property": "C64",
   "status": "partial",
   "theorems": [
    "C64_follows_subscriptions_partial",
    "C64_provide_repairs",
    "C64_failed_request_refuted",
    "C64_failed_unregister_refuted"
   ],
   "note": "Holds if the requests are acknowledged; a failed request is not repeated until the service is provided anew."
  },
  {
   "property": "C65",
   "status": "partial",
   "theorems": [
    "C65_local_callbacks_partial",
    "C65_remote_requests_refuted"
   ],
   "note": "Discovery and event callbacks hold the mutex; requests of the other gateway are handled without it. The access table is written from the code by hand."
  },
  {
   "property": "C66",
   "status": "partial",
   "theorems": [
    "C66_no_abort_partial",
    "C66_unsolicited_reply_refuted",
    "C66_late_senders_refuted",
    "C66_debug_assertion_refuted"
   ],
   "note": "Holds under the environment conditions of C44; each condition is necessary: one refuting run each."
  },
  {
   "property": "C67",
   "status": "partial",
   "theorems": [
    "C67_wakes_up_partial",
    "C67_overdue_refuted",
    "C67_due_command_runs_partial"
   ],
   "note": "Proved while no command is more than 2 ms overdue when the poll timeout is computed; without that the timeout is negative and the sleep unlimited (refuted)."
  },
  {
   "property": "C68",
   "status": "partial",
   "theorems": [
    "C68_send_notifies_partial",
    "C68_no_needless_notification_partial",
    "C68_local_race_refuted",
    "C68_remote_race_refuted",
    "C68_not_repaired_refuted",
    "C68_outdated_message_refuted"
   ],
   "note": "Proved when calls that take a registration away do not overlap with other calls (no lost handler) resp. one call at a time (no needless notification); false for overlapping removals: a stale callback(false) overwrites the flag for good."
  },
  {
   "property": "C69",
   "status": "partial",
   "theorems": [
    "C69_remote_exact",
    "C69_remote_processes_partial",
    "C69_local_handlers_partial",
    "C69_at_most_five",
    "C69_sixth_handler_refuted",
    "C69_beyond_the_limit",
    "C69_many_processes_refuted"
   ],
   "note": "Remote: exact up to 5100 processes and under concurrent changes; local: only the first five handlers of an event are called, the sixth never is."
  },
  {
   "property": "C70",
   "status": "partial",
   "theorems": [
    "C70_offer_survives_partial",
    "C70_reoffer_aborts_refuted",
    "C70_retry_aborts_refuted",
    "C70_offer_fails_refuted"
   ],
   "note": "Proved for histories in which no StopOffer keeps the memory because a consumer uses it; otherwise refuted: offer, consumer attaches, stop, consumer detaches, offer terminates the provider; so does retrying an offer that failed after creating memory."
  },
  {
   "property": "C71",
   "status": "partial",
   "theorems": [
    "C71_mapped_is_initialised_partial",
    "C71_one_at_a_time_partial",
    "C71_overlapping_cleanup_refuted",
    "C71_death_while_cleaning_refuted"
   ],
   "note": "Proved for all schedules and crashes if RemoveStaleArtefacts does not overlap Create or Open and is not itself interrupted; refuted otherwise, even when no two calls overlap (creator dies initialising, next provider dies between the two unlinks)."
  },
  {
   "property": "C72",
   "status": "partial",
   "theorems": [
    "C72_lock_is_released_partial",
    "C72_orphan_blocks",
    "C72_death_spreads_refuted"
   ],
   "note": "False of the code: a consumer dying inside Open leaves the lock file and every later Open terminates its process until RemoveStaleArtefacts runs. Proved: without a death inside a call the lock file has a live owner that releases it within three steps."
  },
  {
   "property": "C73",
   "status": "partial",
   "theorems": [
    "C73_call_runs_partial",
    "C73_only_for_subscribers",
    "C73_not_subscribed",
    "C73_shared_application_id_refuted",
    "C73_reused_pid_refuted",
    "C73_not_offered",
    "C73_not_allowed",
    "C73_cannot_open",
    "C73_other_user"
   ],
   "note": "Who can have a handler run, and that nothing runs without a lasting subscription, hold for all histories. That calls run on the caller's own region holds when consumers of one application id are successive processes with fresh process ids; refuted for two processes sharing an application id and for a reused process id."
  },
  {
   "property": "C74",
   "status": "partial",
   "theorems": [
    "C74_no_abort_partial",
    "C74_unknown_method_refuted",
    "C74_same_method_twice_refuted",
    "C74_queue_position_refuted",
    "C74_shared_application_id_refuted",
    "C74_stale_handler_refuted"
   ],
   "note": "Holds for well-behaved consumers (known methods, each once, positions inside the queue, fresh process ids, one process per application id at a time). Refuted otherwise: the provider trusts region content and queue position, a failed opening with a shared application id leads to an assertion, and a restarted consumer enabling fewer methods leaves handlers on unmapped memory."
  },
  {
   "property": "C75",
   "status": "partial",
   "theorems": [
    "C75_accurate_partial",
    "C75_settles_partial",
    "C75_offer_and_withdraw_refuted"
   ],
   "note": "Holds if no batch of events read from the kernel holds the creation of a flag file followed by its removal; otherwise refuted: removals of a batch are handled before its creations, so the search reports for ever an instance nobody offers. A flag file stands for an offer: those left by a crashed provider count as offered."
  },
  {
   "property": "C76",
   "status": "proved",
   "theorems": [
    "C76_only_changes",
    "C76_only_wanted",
    "C76_in_turns"
   ],
   "note": "No condition on the runs."
  },
  {
   "property": "C77",
   "status": "proved",
   "theorems": [
    "C77_no_call_after_stop"
   ],
   "note": "The stop is called for a handle that StartFindService gave out; handler calls hold the client's lock."
  },
  {
   "property": "C78",
   "status": "proved",
   "theorems": [
    "C78_offered_throughout_found",
    "C78_found_was_offered"
   ],
   "note": "Reading the list of instance directories is one step; a flag file stands for an offer."
  },
  {
   "property": "C79",
   "status": "partial",
   "theorems": [
    "C79_no_abort_partial",
    "C79_crawl_failure_refuted"
   ],
   "note": "Holds if watching the directory of a new instance does not fail in all retries; otherwise refuted, the assertion in OnInstanceDirectoryCreated terminates the consumer. Overflow of the kernel's queue and removal of directories by others, both answered by termination, are not modelled."
  },
  {
   "property": "C80",
   "status": "proved",
   "theorems": [
    "C80_proxy_never_aborts"
   ],
   "note": "Offer state tracking only; what the events do with the notification is C16."
  },
  {
   "property": "C81",
   "status": "partial",
   "theorems": [
    "C81_handler_known_partial",
    "C81_no_stale_interest_partial",
    "C81_never_terminated_partial",
    "C81_replaced_while_pending_refuted",
    "C81_removed_before_all_told_refuted",
    "C81_message_lost_refuted",
    "C81_overlapping_calls_refuted",
    "C81_missed_restart_refuted",
    "C81_same_pid_refuted",
    "C81_stale_interest_refuted",
    "C81_unset_while_pending_refuted",
    "C81_many_reoffers_refuted"
   ],
   "note": "Proved for histories in which calls do not overlap, messages arrive, handlers are not replaced or removed while the subscription is pending or before all proxies have been told of a new provider, and service discovery reports every stop and start; each condition has a refuting run."
  },
  {
   "property": "C82",
   "status": "proved",
   "theorems": [
    "C82_undisturbed_allocate_serves_both",
    "C82_qm_dropped_only_after_100_attempts"
   ],
   "note": "first theorem: no other party moves during the call; second: any schedule of the call"
  },
  {
   "property": "C83",
   "status": "partial",
   "theorems": [
    "C83_notes_are_understood",
    "C83_requests_are_understood",
    "C83_messages_fit",
    "C83_which_notes",
    "C83_caller_learns_the_outcome",
    "C83_requests_do_not_terminate",
    "C83_connection_kept_partial",
    "C83_reason_refuted",
    "C83_request_during_teardown_refuted",
    "C83_codes_survive",
    "C83_reply_terminates_caller",
    "C83_reply_refuted",
    "C83_caller_safe",
    "C83_others_registrations_kept_partial",
    "C83_own_registration",
    "C83_handlers_called",
    "C83_status_right_partial",
    "C83_malformed_ignored",
    "C83_notes_terminate",
    "C83_outdated_refuted"
   ],
   "note": "Proved: every message round-trips for all field values and padding; outcome, termination and effect of arbitrary received bytes. False as stated: an Outdated message removes another process's registrations; a request during teardown of the messaging terminates the process; a four-byte reply outside 0..7 terminates the caller; failing to open the consumer's memory is reported as a wrong message size and drops the connection."
  },
  {
   "property": "C84",
   "status": "partial",
   "theorems": [
    "C84_live_process_partial",
    "C84_predecessors_forgotten_partial",
    "C84_table_is_the_providers",
    "C84_reused_pid_refuted",
    "C84_shared_application_id_refuted",
    "C84_same_pid_refuted",
    "C84_late_registration_refuted",
    "C84_crash_during_restart_refuted",
    "C84_orderly_runs_refuted"
   ],
   "note": "Proved if process ids are not reused and an application has one process at a time; for dead processes also that messages of dead processes are gone when the successor creates its first proxy and that the successor lives until its message arrived. False otherwise: refuting runs for each condition."
  },
  {
   "property": "C85",
   "status": "partial",
   "theorems": [
    "C85_send_returns_partial",
    "C85_listening_process_reached_partial",
    "C85_never_terminates",
    "C85_dead_process_costs_a_timeout_each",
    "C85_send_from_handler_lost",
    "C85_send_from_handler_waits",
    "C85_deadlock_refuted",
    "C85_send_from_handler_refuted"
   ],
   "note": "Proved for user threads while the messaging thread itself neither sends nor drops connections. Refuted in general: an outdated message handled while a thread replaces a connection to the same dead process deadlocks all messaging of the process; a message sent from a handler without a ready connection is always lost after the timeout."
  },
  {
   "property": "C86",
   "status": "partial",
   "theorems": [
    "C86_offered_has_value",
    "C86_value_missing",
    "C86_first_offer_exact",
    "C86_get_current_partial",
    "C86_offered_again_refuted",
    "C86_retry_loses_value_refuted"
   ],
   "note": "What OfferService requires is proved in every environment. That Get answers the current value is proved while every later OfferService finds a consumer still attached; refuted otherwise: after stop and offer, and after a failed and repeated OfferService, a field has lost its value."
  },
  {
   "property": "C87",
   "status": "partial",
   "theorems": [
    "C87_keeps_running_partial",
    "C87_get_while_stopping_refuted",
    "C87_offer_twice_refuted",
    "C87_offer_after_consumer_left_refuted",
    "C87_stop_after_offer_twice_refuted",
    "C87_retry_undefined_refuted",
    "C87_again_partial"
   ],
   "note": "Proved when consumers' calls are executed only while the service is announced, OfferService is not called while offered, and a consumer is attached at every OfferService after the first. Refuted without each of these. C87_again_partial: also for retries and later offers while no consumer is attached."
  },
  {
   "property": "C88",
   "status": "partial",
   "theorems": [
    "C88_all_or_nothing_partial",
    "C88_failed_offer_leaves_field_refuted",
    "C88_offer_twice_refuted",
    "C88_memory_partial"
   ],
   "note": "Proved for every failure point except the sending of a field's first value, and for OfferService not called while the service is offered; refuted for these two."
  },
  {
   "property": "C89",
   "status": "partial",
   "theorems": [
    "C89_held_partial",
    "C89_released",
    "C89_late_report_refuted"
   ],
   "note": "Held: proved if the tracer has reported a service's traces before the service is offered again. Released afterwards: proved for all runs. Without the condition refuted: a late report releases a sample of the next offer."
  },
  {
   "property": "C90",
   "status": "partial",
   "theorems": [
    "C90_dropped_only_when_full",
    "C90_ids_distinct_partial",
    "C90_same_id_refuted"
   ],
   "note": "Dropped only when full: proved for all runs. Distinct ids: same condition as C89, refuted without it."
  },
  {
   "property": "C91",
   "status": "partial",
   "theorems": [
    "C91_loss_announced_partial",
    "C91_loss_not_announced_refuted"
   ],
   "note": "Proved if trace calls do not overlap; refuted for overlapping calls."
  },
  {
   "property": "C92",
   "status": "partial",
   "theorems": [
    "C92_keeps_running_partial",
    "C92_offer_after_failed_offer_refuted",
    "C92_recoverable_twice_refuted",
    "C92_skeleton_again_refuted",
    "C92_send_after_off_refuted",
    "C92_fatal_registration_refuted",
    "C92_failed_rollback_refuted",
    "C92_rollback_without_tracing_refuted",
    "C92_refused_then_new_skeleton_refuted"
   ],
   "note": "Proved for histories without the listed conditions (definition calm) and enough slots; one refuting run for each condition."
  },
  {
   "property": "C93",
   "status": "partial",
   "theorems": [
    "C93_current_memory_partial",
    "C93_never_retried",
    "C93_old_memory_refuted",
    "C93_retry_refuted"
   ],
   "note": "Current memory: proved for calm histories, refuted after a failed offer. Retry: refuted; proved that without an element of the reserved name the retry never happens."
  },
  {
   "property": "C94",
   "status": "partial",
   "theorems": [
    "C94_enabled_partial",
    "C94_answers_partial",
    "C94_read_partial",
    "C94_slots_partial",
    "C94_enough_partial",
    "C94_sample_slots_partial",
    "C94_long_names",
    "C94_nul_off_refuted",
    "C94_nul_on_refuted",
    "C94_long_name_refuted",
    "C94_slots_order_refuted"
   ],
   "note": "Proved for names without NUL characters and, where stated, of at most 1022 bytes; C94_long_names gives the exact length from which the process ends. Refuted: a name with a NUL character is cut when stored (asked for but off; on but not asked for), names longer than the hash buffer end the process, and the slot count depends on the iteration order when trace points were added directly for different instances."
  },
  {
   "property": "C95",
   "status": "proved",
   "theorems": [
    "C95_off_is_final"
   ],
   "note": "All runs."
  },
  {
   "property": "C96",
   "status": "partial",
   "theorems": [
    "C96_content_partial",
    "C96_round_trip_partial",
    "C96_tracing_refuted",
    "C96_same_process_refuted",
    "C96_twice_refuted"
   ],
   "note": "The round trip is proved for every well-formed deployment without tracing slots and every receiver that knows neither the service nor the instance; with tracing slots the slots are lost and the identifiers differ; in a process that has the service configured, or on a second creation, the process ends."
  },
  {
   "property": "C97",
   "status": "partial",
   "theorems": [
    "C97_equality_partial",
    "C97_hash_partial",
    "C97_hash_refuted",
    "C97_order_partial",
    "C97_order_refuted",
    "C97_equivalent_partial",
    "C97_equivalent_refuted",
    "C97_handle_hash_partial",
    "C97_handle_distinct_partial",
    "C97_type_equality_partial",
    "C97_compatible_partial",
    "C97_compatible_transitive_refuted",
    "C97_handle_order_partial"
   ],
   "note": "Equality is an equivalence and less-than a strict order for all identifiers. Hash consistency fails for two ports of one instance and is proved for the same port; the strict weak order fails when one instance has two different settings and is proved when service and instance id determine the settings. Compatibility is characterised; it is not transitive."
  },
  {
   "property": "C98",
   "status": "partial",
   "theorems": [
    "C98_result_partial",
    "C98_instance_read_partial",
    "C98_type_read_partial",
    "C98_index_range_partial",
    "C98_terminates_refuted",
    "C98_undefined_refuted"
   ],
   "note": "Every result is characterised, and which JSON objects are read as which settings (iff a description of the object). Objects with missing or wrong members end the process or, in a release build, read past the end of a map; which of the two a refused object does is not characterised."
  },
  {
   "property": "C99",
   "status": "partial",
   "theorems": [
    "C99_succeeds",
    "C99_contents",
    "C99_failed_partial",
    "C99_failed_refuted"
   ],
   "note": "Success and its result are proved in full; a failure because of an instance leaves the new types behind, everything else is unchanged."
  }
 ]
}
