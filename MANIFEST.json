{"claims": [
{"property": "C01", "status": "proved", "theorems": ["C01_only_legal_transitions"], "note": ""},
{"property": "C02", "status": "proved", "theorems": ["C02_inactive", "C02_waiting", "C02_executing_empty", "C02_interruption", "C02_assignment_waits_for_completion", "C02_assignment_update_end", "C02_command_list_end", "C02_finishing", "C02_failing", "C02_iteration_ended", "C02_finished"], "note": ""},
{"property": "C03", "status": "proved", "theorems": ["C03_outcome_coherent"], "note": ""},
{"property": "C04", "status": "proved", "theorems": ["C04_one_queue", "C04_status_names_queue", "C04_pending_status_refuted"], "note": "status PENDING does not imply membership of the pending queue (refuted variant)"},
{"property": "C05", "status": "proved", "theorems": ["C05_mutual_exclusion", "C05_one_assignment_per_variable"], "note": ""},
{"property": "C06", "status": "partial", "theorems": ["C06_released_partial", "C06_refuted"], "note": "false as stated: a node going straight from EXECUTING or FAILING to FINISHED keeps its mutexes; proved for all other ways of ending"},
{"property": "C07", "status": "proved", "theorems": ["C07_all_or_nothing", "C07_duplicate_mutex_refuted"], "note": "a node naming a mutex twice can never acquire it"},
{"property": "C08", "status": "partial", "theorems": ["C08_release_wakes_waiters", "C08_pending_has_reason_partial", "C08_lost_forever_refuted", "C08_untried_refuted"], "note": "false as stated (two distinct defects refuted)"},
{"property": "C09", "status": "partial", "theorems": ["C09_children_run_inside_parent_partial", "C09_refuted"], "note": "false as stated for lists with user end/exit/invariant conditions; proved when parent and its ancestors have none"},
{"property": "C10", "status": "proved", "theorems": ["C10_list_waits_for_children", "C10_default_end_needs_all_finished"], "note": ""},
{"property": "C11", "status": "proved", "theorems": ["C11_on_finished_list", "C11_deleted_once", "C11_retired_for_good", "C11_delete_removes_exactly_finished"], "note": ""},
{"property": "C12", "status": "proved", "theorems": ["C12_pending_sorted", "C12_first_come_first_served", "C12_only_insertion_changes_order", "C12_pointer_queue_sorted", "C12_pointer_insert_stable", "C12_front_count", "C12_exec_insert_is_pointer_insert"], "note": ""},
{"property": "C13", "status": "partial", "theorems": ["C13_step_returns_partial", "C13_only_repetition_prolongs", "C13_returns_when_quiet", "C13_refuted"], "note": "false as stated for repeating nodes; proved (with a bound) when no node repeats, and only repetition can prolong a step"},
{"property": "C35", "status": "partial", "theorems": ["C35_activation_balanced_partial", "C35_consulted_conditions_are_active", "C35_decision_uses_active_conditions_only", "C35_command_exit_activation_leak_refuted"], "note": "CommandNode activates its exit condition twice"},
{"property": "C36", "status": "proved", "theorems": ["C36_internal_errors_unreachable", "C36_second_notification_is_error"], "note": ""},
{"property": "C37", "status": "proved", "theorems": ["C37_reported_history"], "note": ""},
{"property": "C38", "status": "proved", "theorems": ["C38_effects_accounted", "C38_exactly_once"], "note": ""},
{"property": "C39", "status": "proved", "theorems": ["C39_synchronous_turn", "C39_quiescence_is_turns"], "note": ""},
{"property": "C40", "status": "proved", "theorems": ["C40_all_plans_finished", "C40_no_plan_reported_finished"], "note": ""},
{"property": "C24", "status": "proved", "theorems": ["C24_queue_behaves_as_list", "C24_remove_if_reports", "C24_items_in_one_place", "C24_fifo", "C24_double_push_refuted", "C24_insert_after_tail_refuted"], "note": "proved for all histories that only queue unqueued items; insert_after at the tail (used in tests only) and a second push of the tail item are shown to corrupt the queue"},
{"property": "C17", "status": "partial", "theorems": ["C17_value_round_trip_partial", "C17_state_round_trip_partial", "C17_array_size_refuted", "C17_unknown_type_refuted", "C17_long_name_refuted", "C17_many_parameters_refuted"], "note": "false as stated: array sizes with a byte >= 0x80 are misread (signed char), unknowns lose their type, over-long names are written through a null pointer, parameter counts above 0xFFFFFF are truncated; proved for everything else"},
{"property": "C18", "status": "proved", "theorems": ["C18_value_size_exact", "C18_state_size_exact"], "note": ""},
{"property": "C19", "status": "proved", "theorems": ["C19_reflexive", "C19_symmetric", "C19_transitive", "C19_numeric", "C19_unknown", "C19_state_equality", "C19_hidden_contents_refuted"], "note": "array equality also compares contents of unknown elements (refuted variant)"},
{"property": "C20", "status": "partial", "theorems": ["C20_value_order_partial", "C20_array_order_partial", "C20_state_order_partial", "C20_trichotomy", "C20_nan_refuted", "C20_nan_states_collide", "C20_equal_but_less_refuted"], "note": "proved for all values without NaN; with NaN it is false (refuted)"},
{"property": "C21", "status": "partial", "theorems": ["C21_not", "C21_and", "C21_or_partial", "C21_xor_partial", "C21_order_independent", "C21_or_nary_refuted", "C21_xor_nary_refuted"], "note": "false as stated for OR of three or more operands with some false, some unknown, none true (answers false), and for XOR of three or more operands (always unknown or uninitialised); proved for everything else"},
{"property": "C22", "status": "partial", "theorems": ["C22_known_result_is_exact", "C22_unknown_only_if", "C22_unknown_if", "C22_exact_when_it_fits_partial", "C22_nary_min_max", "C22_nary_sum_partial", "C22_overflow_refuted", "C22_fits_but_undefined_refuted"], "note": "known results are exact and unknown only for the stated reasons, for all operations and operand counts; overflow is undefined behaviour in the code (refuted), including intermediate overflow and INT_MIN % -1 where the exact result fits"},
{"property": "C23", "status": "partial", "theorems": ["C23_equality_partial", "C23_order", "C23_order_consistent", "C23_is_known", "C23_arithmetic_type", "C23_date_equality_refuted"], "note": "equality of Date and Duration operands always fails (refuted); proved for all other types"},
{"property": "C34", "status": "partial", "theorems": ["C34_rounding", "C34_real_to_integer", "C34_unknown_and_infinite", "C34_nan_refuted"], "note": "proved for every finite or infinite real; a NaN operand is cast to Integer, which is undefined (refuted)"},
{"property": "C41", "status": "partial", "theorems": ["C41_nested_kleene", "C41_known_results_persist_partial", "C41_or_retracts_refuted"], "note": "proved for expressions whose ORs and XORs have at most two operands; refuted for larger ORs"},
{"property": "C25", "status": "proved", "theorems": ["C25_one_holder", "C25_granted_iff_free", "C25_release_by_other_is_noop", "C25_release_wakes_waiters", "C25_held_until_released", "C25_refused_waits", "C25_stays_waiting"], "note": "all histories of acquire/release/add/remove by any number of nodes; note that a node that already holds the resource and asks again is refused (stated by granted_iff_free)"},
{"property": "C14", "status": "partial", "theorems": ["C14_completed_assignment", "C14_aborted_assignment", "C14_abort_announced", "C14_abort_report_partial", "C14_abort_report_refuted", "C14_array_aborted", "C14_array_completed", "C14_element_aborted", "C14_element_index_changed_refuted"], "note": "scalar, array and array-element destinations, all values and interleavings of right-hand-side changes; the value reported to listeners after an abort can be wrong (refuted), and aborting array[i] := x after i changed restores the wrong element (refuted)"},
{"property": "C31", "status": "partial", "theorems": ["C31_variable_reads", "C31_reactivation_resets", "C31_no_missed_notification", "C31_change_is_announced", "C31_array_reads_partial", "C31_array_no_crash", "C31_array_no_missed_notification_partial", "C31_element_unknown_refuted", "C31_array_restore_refuted", "C31_array_shrink_refuted"], "note": "scalar variables: all histories; array variables: all histories whose save/restore pairs match as the executive issues them, with three refuted corners"},
{"property": "C32", "status": "partial", "theorems": ["C32_array_history", "C32_unknown_array_history", "C32_calls_are_safe", "C32_element_reference", "C32_element_assignment", "C32_moved_from_refuted"], "note": "all histories of element writes, resizes and reads; a moved-from array is the one exception (refuted)"},
{"property": "C30", "status": "partial", "theorems": ["C30_active_iff", "C30_count", "C30_listeners_partial", "C30_publish_order_partial", "C30_told_only_if_partial", "C30_told_if_partial", "C30_active_condition_hears_partial", "C30_once_partial", "C30_many_params_refuted", "C30_once_refuted"], "note": "all expression graphs and call histories; the listener theorems assume lookups have at most four parameters, because a lookup with more re-adds itself instead of removing (refuted); a listener above two lookups sharing a parameter is told twice (refuted)"},
{"property": "C15", "status": "proved", "theorems": ["C15_history", "C15_late_messages_ignored", "C15_return_value", "C15_returned_value_read", "C15_request_snapshot", "C15_release", "C15_handle_change_announced_partial", "C15_unknown_name_refuted", "C15_ack_known_refuted", "C15_silent_reset_refuted"], "note": "the property itself for all histories of activations, messages and outside uses; beyond it: the request is a snapshot, release rule; three corner cases refuted (unknown name asserts later, isKnown after the end, unannounced reset at reactivation)"},
{"property": "C16", "status": "proved", "theorems": ["C16_partition", "C16_books", "C16_never_exceeds", "C16_rejected_iff", "C16_lower_priority_irrelevant", "C16_terminates", "C16_cycle_refuted", "C16_override_refuted", "C16_negative_refuted", "C16_leak_refuted"], "note": "all hierarchies, batches and histories, with resource amounts as exact numbers (double rounding not modelled); cyclic hierarchies, explicit override of an implied amount, renewing needs and release after a denied handle are refuted"},
{"property": "C26", "status": "proved", "theorems": ["C26_reads_current", "C26_otherwise_unknown", "C26_known_agrees", "C26_no_silent_change", "C26_update_notifies", "C26_activation_asks", "C26_registered", "C26_one_entry", "C26_mismatch_ignored", "C26_blank_notifies_refuted", "C26_deleted_entry_refuted", "C26_asks_though_fresh_refuted"], "note": "all histories of activations, deactivations, parameter changes, updates, cycle increments and deletions over any number of lookups and states; reactions of listeners to a notification are separate operations; three corner cases refuted (typed-unknown first update notifies without a change, deleted entry leaves a dangling pointer, an unchanged update does not count as fresh)"},
{"property": "C27", "status": "partial", "theorems": ["C27_integer_within", "C27_real_within", "C27_integer_update", "C27_real_update", "C27_known", "C27_unknown_tolerance", "C27_no_silent_change", "C27_interface_band", "C27_unknown_sticks_refuted", "C27_tolerance_lost_refuted", "C27_overflow_refuted", "C27_nan_sticks_refuted", "C27_real_tolerance_integer_state_refuted", "C27_interface_stale_refuted", "C27_interface_not_cleared_refuted"], "note": "all histories over any number of lookups and states. Integer: exact iff when the band does not overflow 32 bits. Real (IEEE double arithmetic modelled): exact for 'at least the tolerance away is reported'; 'within is not reported' needs a 2^-42 relative margin because of the code's epsilon. The property fails in the corner cases refuted (Integer unknown sticks, tolerance lost silently, overflow, NaN, Real tolerance on an Integer state)"},
{"property": "C28", "status": "proved", "theorems": ["C28_simple_fifo", "C28_simple_no_failure", "C28_threads_fifo", "C28_threads_no_failure", "C28_threads_exclusive", "C28_threads_progress", "C28_delivered", "C28_flush_deadlock_refuted"], "note": "SimpleInputQueue for all call histories; SerializedInputQueue for all statement-level interleavings of any number of threads. flush() of the serialized queue deadlocks when the queue is not empty (refuted)"},
{"property": "C29", "status": "proved", "theorems": ["C29_in_order", "C29_complete", "C29_stepped", "C29_no_failure", "C29_exclusive", "C29_accept_refuted"], "note": "for every executive and every interleaving of any number of threads with the worker (background mode); the input queue is taken as the FIFO of C28. One kind of event never takes effect: an accepted message makes the worker fail, because its handle is dropped (refuted; C29_no_failure says nothing else does)"},
{"property": "C42", "status": "proved", "theorems": ["C42_no_lost", "C42_quiescent", "C42_initial_step_refuted"], "note": "for every executive and every interleaving; sequentially consistent memory. Before the first notification the executive may be left needing a step (refuted)"},
{"property": "C43", "status": "partial", "theorems": ["C43_return", "C43_worker_awake", "C43_no_starvation", "C43_lost_count_refuted", "C43_before_step_refuted", "C43_hang_refuted"], "note": "proved for all interleavings in which no two threads are inside markQueue together (return only after everything before was applied; the worker does not sleep while a mark is outstanding; the semaphore stays available). Without that assumption both halves fail (refuted), and the call may return before the executive has stepped (refuted). Termination is shown as absence of deadlock, not under a fairness assumption"},
{"property": "C44", "status": "partial", "theorems": ["C44_opportunistic_refuted"], "note": "the property is false: from every reachable state, notifyExec on an idle executive blocks its caller and the executive forever"},
{"property": "C45", "status": "proved", "theorems": ["C45_stop", "C45_joined"], "note": "all interleavings; the SIGUSR2 fallback after one second is not modelled"},
{"property": "C46", "status": "partial", "theorems": ["C46_stale_refuted"], "note": "the property is false: after the first plan, the semaphore is posted at every notification, so a later wait returns while a new plan is running"},
{"property": "C33", "status": "proved", "theorems": ["C33_timepoint", "C33_unknown_otherwise", "C33_in_executions", "C33_reset", "C33_current_state_start", "C33_state_start_time", "C33_changes_published", "C33_end_after_start_refuted", "C33_initial_inactive_refuted", "C33_unmentioned_start_refuted"], "note": "TimeModel.v: NodeTimepointValue.cc and NodeImpl.cc logTransition/setState/ensureTimepoint/getStateStartTime. Proved for every history and, through C37, for every execution of every plan. Three stronger readings are refuted: end >= start, INACTIVE.START of a fresh node, start time of a state no expression mentions."},
{"property": "C47", "status": "partial", "theorems": ["C47_inbox", "C47_handle", "C47_release_safe", "C47_adapter_fifo", "C47_adapter_inbox", "C47_release_unheld_refuted", "C47_release_ignored_refuted", "C47_release_leaves_refuted", "C47_reassign_refuted", "C47_adapter_handle_refuted", "C47_adapter_acks_refuted"], "note": "the cache part is proved for all histories in which handles are not reused while held and are released only when no active lookup uses them; without that discipline it is false (four refuted corners, one a null dereference). The shipped adapter never generates a handle, so no accepted message becomes readable (refuted)"},
{"property": "C48", "status": "proved", "theorems": ["C48_min_max_any", "C48_rounded_is_nearest", "C48_two_operands", "C48_modulo_exact", "C48_many_operands", "C48_sum_error", "C48_unary", "C48_min", "C48_max", "C48_unknown_iff", "C48_commutative", "C48_overflow_known_refuted", "C48_min_nan_refuted", "C48_sum_order_refuted", "C48_encoding", "C48_encoding_1e13", "C48_encoding_bits"], "note": "everything stated is proved on Flocq's binary64 (uses the standard library's real-number axioms). Refuted side remarks: with a NaN operand MIN/MAX depend on the operand order; overflow and infinity minus infinity give known non-numbers; a sum of three depends on the order. C48_encoding* show that the integer encoding of doubles used by the models of C17-C20, C27, C34 is the IEEE one."},
{"property": "C49", "status": "proved", "theorems": ["C49_alarm_not_lost", "C49_alarm_settles", "C49_alarm_lost_in_race_refuted", "C49_itimer_armed", "C49_itimer_now_lost_refuted", "C49_itimer_early_refuted"], "note": "PosixTimebase + TimeAdapter, statement-level interleavings. The race-freedom proviso is necessary: without it an alarm is lost (refuted). The ItimerTimebase variant loses a request for the current microsecond and can wake early (refuted)."},
{"property": "C50", "status": "proved", "theorems": ["C50_add", "C50_sub", "C50_compare", "C50_round_trip", "C50_clock_monotone", "C50_not_early", "C50_timeval_round_trip_refuted", "C50_small_round_trip_refuted"], "note": "on Flocq's binary64. The microsecond (timeval) round trip is false at present dates (refuted), and so is the nanosecond one near the epoch."},
{"property": "C51", "status": "partial", "theorems": ["C51_posix_tick", "C51_posix_long_tick_refuted", "C51_itimer_tick", "C51_start", "C51_stop", "C51_restart_refuted"], "note": "the property is false: on POSIX the interval is right exactly up to 4294967 us (32-bit overflow above), and a stopped time base ignores a later start"},
{"property": "C52", "status": "partial", "theorems": ["C52_lexical_scoping_partial", "C52_caller_invisible_partial", "C52_example", "C52_bare_root_captures_caller_refuted"], "note": "proved for every plan in which each library root that is a plain list declares a variable or a parameter; without that the property is false: names below a bare library root are looked up in the caller (refuted)"},
{"property": "C53", "status": "partial", "theorems": ["C53_in_read_only", "C53_in_view_partial", "C53_in_default_partial", "C53_inout_partial", "C53_local", "C53_example", "C53_in_array_written_refuted", "C53_in_array_written_nested_refuted", "C53_in_array_written_general_refuted", "C53_date_parameter_refuted", "C53_in_default_type_refuted", "C53_inout_array_default_refuted"], "note": "read-only for variables, identity and type proved for all accepted plans (same proviso as C52); false in four ways: elements of an In array can be assigned, Date/Duration parameters never match, an In default keeps its own type, an InOut array default is refused"},
{"property": "C54", "status": "partial", "theorems": ["C54_check", "C54_resolution_partial", "C54_local_mutex", "C54_example", "C54_caller_mutex_captures_refuted"], "note": "proved unless a calling node declares a mutex with the name of the library's global mutex; then the library uses the caller's (refuted)"},
{"property": "C55", "status": "partial", "theorems": ["C55_node_id_partial", "C55_node_reference_partial", "C55_stays_in_document_partial", "C55_example", "C55_library_file_name_refuted", "C55_child_named_as_parent_refuted"], "note": "proved for all plans whose library calls name the library by its NodeId; a call by file name breaks it (refuted); parent and child with one NodeId are accepted (refuted)"},
{"property": "C56", "status": "proved", "theorems": ["C56_map_refines", "C56_set_refines", "C56_string_keys", "C56_iteration_canonical", "C56_example"], "note": "NodeVariableMap::clear (frees keys, keeps entries) is not modelled"},
{"property": "C57", "status": "partial", "theorems": ["C57_expansion_ends_partial", "C57_expansion_complete", "C57_example", "C57_recursive_library_never_loads_refuted"], "note": "ends for acyclic library collections; recursion is not detected (refuted)"},
{"property": "C58", "status": "partial", "theorems": ["C58_accepted_is_well_typed", "C58_well_typed_is_accepted", "C58_loader_decides_typing", "C58_passes_agree", "C58_types_unique", "C58_crash_only_rounding_dates", "C58_condition_iff_boolean", "C58_assignment_iff_assignable", "C58_array_variable_query_refuted", "C58_array_operand_refuted", "C58_division_operands_refuted", "C58_rounding_timepoint_refuted", "C58_integer_assignment_refuted"], "note": "the loader decides typing for all expressions whose leaves have declared types and whose divisions have two operands; array variables as operands, other operand counts of DIV, elements of array lookups and rounding of timepoints break it (refuted)"},
{"property": "C59", "status": "partial", "theorems": ["C59_no_type_error", "C59_accepted_evaluates", "C59_condition_readable", "C59_assignment_stores", "C59_length_as_real_refuted", "C59_timepoint_equality_refuted", "C59_array_operand_refuted", "C59_unary_division_refuted", "C59_undeclared_lookup_order_refuted", "C59_wrong_lookup_value_refuted"], "note": "sound unless a length or size is used as a Real, timepoints are compared with EQ/NE, or leaves are not of their declared type; each exception refuted"},
{"property": "C60", "status": "partial", "theorems": ["C60_send_in_bounds", "C60_sent_iff", "C60_built_iff", "C60_round_trip", "C60_round_trip_exact", "C60_any_datagram", "C60_wire_int4", "C60_size_overflow_refuted", "C60_huge_message_throws_refuted", "C60_short_datagram_refuted", "C60_first_argument_refuted", "C60_network_failure_acked_refuted", "C60_float2_refuted", "C60_nul_cuts_string_refuted", "C60_example"], "note": "proved for definitions of less than 2^31 bytes; larger ones overflow the size and the buffer (refuted). Also false of the code: a datagram shorter than the message is completed with bytes of the previous one; only messages whose first parameter is a String can be sent; a refused send is acknowledged as success; 2-byte floats are accepted but unusable; a String is cut at a NUL"},
{"property": "C61", "status": "partial", "theorems": ["C61_pairing", "C61_one_queue_empty", "C61_newest", "C61_receive", "C61_parameter", "C61_names_distinct", "C61_get_accepted", "C61_uninterrupted", "C61_example", "C61_race_refuted", "C61_race_loses_refuted", "C61_abort_refuted", "C61_colon_refuted", "C61_set_duplicates_refuted"], "note": "proved for all histories in which calls of the two threads do not overlap. The queues are not locked: overlapping calls return a message twice and pop an empty queue (refuted). Also false of the code: an aborted or failed ReceiveCommand still takes the next message; parameters of a message whose name has a colon cannot be fetched; switching duplicates off does not drop queued ones"},
{"property": "C62", "status": "partial", "theorems": ["C62_never_fails", "C62_delivery", "C62_closed_silent", "C62_no_leak", "C62_requests_served", "C62_progress", "C62_example", "C62_second_socket_leaks_refuted", "C62_event_thread_blocks_refuted", "C62_close_ends_loop_refuted", "C62_close_unopened_refuted"], "note": "proved for every history that opens only closed ports and closes only open ones. The adapter itself does not keep to that (a second ReceiveCommand of a message opens its port again): then a socket leaks, the event thread blocks or ends (refuted), and closing an unopened port crashes"},
{"property": "C63", "status": "partial", "theorems": ["C63_integer", "C63_integer_unknown", "C63_print_integer", "C63_integer_text_unambiguous", "C63_boolean", "C63_boolean_unknown", "C63_print_boolean", "C63_real", "C63_real_closest", "C63_real_exact", "C63_real_accepted", "C63_real_unknown", "C63_real_literal", "C63_literal", "C63_array", "C63_array_length", "C63_array_accepted", "C63_name_tables", "C63_handles", "C63_max_size_partial", "C63_max_size_refuted", "C63_priority_partial", "C63_priority_accepted", "C63_priority_refuted", "C63_names", "C63_handles_refuted", "C63_types", "C63_leading_zero_refuted", "C63_real_values_refuted", "C63_array_tag_refuted", "C63_example", "C63_print_real", "C63_print_zero", "C63_print_real_round_trip", "C63_print_real_refuted", "C63_print_large_refuted", "C63_print_example"], "note": "all texts. Literals are as the property says, with strtol/strtod as the C standard defines them. False for array sizes (checked in base 0, built in base 10), priorities (a negative number is accepted and means another; INT_MAX is refused), three command handle names, negative zero, nan, and the tags of array elements (refuted). A Real is written with 15 correctly rounded digits, so one that was read from at most 15 digits is read back unchanged, and others are not (refuted)"},
{"property": "C64", "status": "proved", "theorems": ["C64_in_force", "C64_execute", "C64_abort", "C64_lookup", "C64_update", "C64_default", "C64_no_abort_function", "C64_unregistered", "C64_denied", "C64_error_reported", "C64_no_error", "C64_ack_range", "C64_initialize", "C64_initialize_fails", "C64_start", "C64_stop", "C64_args", "C64_construct", "C64_construct_fails", "C64_threshold_error_refuted", "C64_error_after_success_refuted", "C64_null_handler_refuted", "C64_abort_elsewhere_refuted", "C64_silent_lookup_refuted", "C64_file_handlers_refuted", "C64_args_refuted", "C64_example"], "note": "all registration histories and user code. Beyond the property: errors of threshold calls are not caught, null handlers are accepted, an abort may go to another handler, the built-in lookup answers nothing, handlers in the configuration file are ignored, and blanks break argument lists (refuted)"},
{"property": "C65", "status": "proved", "theorems": ["C65_told_everything", "C65_state_filter", "C65_ignored_filter", "C65_filter_conflict", "C65_ignored_refuted", "C65_order_refuted", "C65_example"], "note": "all histories. An assignment made before a transition of the same step is told after it, and transitions into an ignored state are reported (refuted)"},
{"property": "C66", "status": "partial", "theorems": ["C66_exactly_once", "C66_kth_answer", "C66_unscripted_ignored", "C66_answer_scheduled", "C66_exactly_once_timed", "C66_never_early", "C66_in_order", "C66_lookup_last_sent", "C66_wakeup_pending", "C66_due_is_sent", "C66_whole_second_lost_refuted", "C66_same_microsecond_lost_refuted", "C66_equal_times_reversed_refuted", "C66_early_in_race_refuted", "C66_crash_in_race_refuted", "C66_start_race_refuted", "C66_no_default_refuted", "C66_number_of_responses_refuted"], "note": "once and the k-th answer: all interleavings. Times, order and wake-ups: the threads take turns (early sending and a crash in a race are refuted), no message on a whole second and the timer never set for the current microsecond (both lose wake-ups: refuted). Equal times go out in reverse script order; a command without a default response kills the process"},
{"property": "C67", "status": "proved", "theorems": ["C67_assembly", "C67_value", "C67_directed", "C67_end_to_end", "C67_interrupted", "C67_reported", "C67_handle_refuted", "C67_sender_dies_refuted", "C67_message_failure_refuted", "C67_count_refuted", "C67_nul_refuted", "C67_restart_refuted", "C67_serial_race_refuted", "C67_unsubscribe_refuted", "C67_example"], "note": "IpcFacade part by part: serial numbers, leaders and trailers, IPC formats, destinations, the receiver's table of incomplete messages and its listeners. Under the limits named in the property the whole property is proved for any number of senders, histories and interleavings; IPC central itself (order kept per sender, no loss) is assumed. The refuted theorems show what happens outside the limits: command handles and internal values, a publish failure of a bare message reported as success, 65536 arguments, NUL, a restarted sender, two sending threads, unsubscribe."},
{"property": "C68", "status": "proved", "theorems": ["C68_label", "C68_receive", "C68_receive_newest", "C68_parameter", "C68_message", "C68_return", "C68_own_lookup", "C68_lookup_reply", "C68_lookup", "C68_lookup_free", "C68_telemetry", "C68_update_lookup", "C68_update", "C68_whole", "C68_round_trip", "C68_plan_file_refuted", "C68_early_return_refuted", "C68_early_answer_refuted", "C68_two_answers_refuted", "C68_request_zero_refuted", "C68_directed_lookup_refuted", "C68_telemetry_taken_refuted", "C68_name_clash_refuted", "C68_empty_update_refuted", "C68_send_failure_refuted", "C68_lookup_failure_refuted", "C68_default_loses_refuted", "C68_bad_argument_refuted", "C68_example"], "note": "IPC adapter as steps of two threads. Commands, labels, parameters and returned values for every history; lookups answered by the first message that answers. Counterexamples proved: plan files added as libraries, answers or values that come before the number is noted are lost, a second answer or a value for request 0 makes the next lookup unknown, directed lookups answered by anyone, telemetry taken for an answer not reported, queue name clash, empty updates not acknowledged, failed messages reported sent, failed lookups wait for ever, default settings lose commands."},
{"property": "C69", "status": "proved", "theorems": ["C69_declarations", "C69_which_declarations", "C69_duplicates", "C69_accepted", "C69_settled", "C69_command", "C69_lookup", "C69_own_declarations", "C69_library_by_itself", "C69_no_arguments_refuted", "C69_library_declarations_refuted", "C69_misplaced_size_refuted", "C69_junk_refuted", "C69_two_bounds_refuted", "C69_example", "C69_example_refused"], "note": "all declarations, plans, libraries and expressions; node syntax other than commands, lookups and library calls is abstract. Counterexamples proved: a command without Arguments escapes the check, library declarations have no effect, MaxSize before Type and junk after the parameters are let pass, two upper bounds in a resource."},
{"property": "C70", "status": "partial", "theorems": ["C70_start_plan", "C70_all_or_nothing", "C70_bad_arguments", "C70_names_differ", "C70_exit_plan", "C70_exit_started", "C70_array_refuted", "C70_handle_refuted", "C70_real_refuted", "C70_nul_refuted", "C70_wrap_refuted", "C70_example"], "note": "all argument lists, libraries and histories; the plan made is read back by a model of the plan loader. False for arrays (never accepted: the Type attribute written is no type name), three command handles, Reals with more than 15 digits, names with NUL characters, and after 2^32 plans (refuted)"},
{"property": "C71", "status": "partial", "theorems": ["C71_state", "C71_outcome", "C71_failure", "C71_notify", "C71_finished", "C71_stale_refuted", "C71_same_name_refuted", "C71_example"], "note": "all histories of reports. What is reported last is what is seen, but the outcome and failure type of an earlier iteration are not taken back when a plan repeats, and plans of the same name are confused (refuted)"},
{"property": "C72", "status": "partial", "theorems": ["C72_lookup", "C72_return", "C72_ack", "C72_abort", "C72_update", "C72_utility", "C72_script", "C72_stops", "C72_alike_iff_equal", "C72_same_command_refuted", "C72_stale_ack_refuted", "C72_second_update_refuted", "C72_initial_text_refuted", "C72_send_plan_refuted", "C72_example"], "note": "all scripts, executives and histories without NaN among state parameters. False in these ways: of two like commands the first is never answered, a finished command can still be acknowledged, a second update of a node is lost, an InitialState that begins with text sets nothing, SendPlan never finds the plan in a plan file (refuted)"},
{"property": "C73", "status": "partial", "theorems": ["C73_unknown", "C73_string", "C73_integer", "C73_integer_exact", "C73_integer_printed", "C73_same_as_plan", "C73_boolean", "C73_real", "C73_array", "C73_scalar", "C73_result", "C73_param_same", "C73_param_empty", "C73_param_integer", "C73_param_unknown", "C73_real_silent_refuted", "C73_integer_silent_refuted", "C73_empty_refuted", "C73_param_true_refuted", "C73_array_unknown_refuted", "C73_array_parameter_refuted", "C73_string_refuted", "C73_example"], "note": "all texts that denote a value. A text that denotes none is not refused: it is 0, another number or garbage; a Boolean parameter spelled true is false; arrays cannot end with an unknown and take in what follows the values (refuted)"},
{"property": "C74", "status": "partial", "theorems": ["C74_exact", "C74_never_exceeds", "C74_recorded_bounded", "C74_partition", "C74_stuck_refuted", "C74_absorbed_refuted", "C74_nan_refuted", "C74_demo"], "note": "all hierarchies, batches and histories whose amounts are multiples of a common binary unit: there the doubles are exact. With other amounts (0.1, 0.7; 2^53 and 1; NaN) what is given back is not what was taken: a resource nobody holds is refused forever, or more is granted than there is (refuted); what is recorded still never exceeds the maximum"},
{"property": "C75", "status": "partial", "theorems": ["C75_reads", "C75_lookup", "C75_duplicate", "C75_senseless", "C75_accepted", "C75_no_file", "C75_broken_never_accepted", "C75_failure_keeps_refuted", "C75_directory_refuted", "C75_no_weight_refuted", "C75_glued_refuted", "C75_comment_refuted", "C75_example"], "note": "all files of lines that follow the grammar, and all files with a line that breaks it in one of the ways listed. A refused file leaves the entries before the bad line in force and forgets the hierarchy known before; a part whose weight is missing is accepted when its name begins like inf or nan; numbers may be glued to names; a directory is read forever (refuted)"},
{"property": "C76", "status": "partial", "theorems": ["C76_lifo", "C76_nested_lost_refuted", "C76_nested_overwrites_refuted", "C76_nested_bucket_refuted", "C76_example"], "note": "all programs whose finalizers register no others. One registered by a finalizer during a run is not called, or is called in place of another that is lost (refuted)"},
{"property": "C77", "status": "proved", "theorems": ["C77_line", "C77_enabled", "C77_order", "C77_colon_refuted", "C77_example"], "note": "all histories and texts without NUL characters; a line that is only a colon asks for the empty pattern and enables every message (shown as C77_colon_refuted: it follows the rule but is hardly meant)"},
{"property": "C78", "status": "partial", "theorems": ["C78_faithful", "C78_frames", "C78_lockstep", "C78_together_refuted", "C78_not_escaped_refuted", "C78_texts", "C78_example"], "note": "all histories whose names and values have no < in them and no text of which has the end-of-message character; values are not escaped, so that without that an assignment can look like two (refuted). The lockstep holds for all chunks in which acknowledgements come first and one to a chunk: two that arrive together count once, one that comes second not at all (refuted)"},
{"property": "C79", "status": "partial", "theorems": ["C79_reads", "C79_old_telemetry", "C79_old", "C79_duplicate", "C79_undeclared", "C79_old_presumed", "C79_delay", "C79_negative_refuted", "C79_negative_next_refuted", "C79_no_newline_refuted", "C79_last_remark_refuted", "C79_unknown_refuted", "C79_handle_refuted", "C79_broken_refuted", "C79_no_name_refuted", "C79_example"], "note": "all scripts whose lines all end with a newline, whose values begin with a letter or digit, and whose entries are of type Boolean, Integer, Real, String or command handle. Otherwise it fails (refuted): a negative value is skipped as a remark and the next line taken instead; a last line without a newline is dropped or, if a remark, not skipped; UNKNOWN is an uninitialised variable; a command with a return type cannot be answered with a command handle, one without cannot be answered at all; after an unreadable entry the rest of the file is ignored; a value followed by a blank or carriage return ends the simulator."},
{"property": "C80", "status": "partial", "theorems": ["C80_report", "C80_once", "C80_single_refuted", "C80_alias_refuted", "C80_example"], "note": "all plans whose root has a child and in which the first vector of variables met is not empty. A plan that is a single node, and one in which a library call whose aliases are all plain variables is the first node with variables, make the analyser write past the end of a vector it has just emptied (refuted)"},
{"property": "C81", "status": "partial", "theorems": ["C81_accepts", "C81_conditions", "C81_not_boolean", "C81_index", "C81_action_complete_refuted", "C81_example"], "note": "all sequences of children and all names. The results of the checks of the children's contents are taken as given here (those of scopes, references, library calls and expressions are C52 to C58). One name has no index: that of the action-complete condition (refuted), which no plan can give"}
]}
