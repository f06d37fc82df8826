{
 "claims": [
  {
   "property": "C01",
   "status": "proved",
   "theorems": [
    "C01_observed_times_never_decrease",
    "C01_time_never_decreases"
   ],
   "note": "Every history, disciplined or not."
  },
  {
   "property": "C02",
   "status": "proved",
   "theorems": [
    "C02_started_exactly_when_due",
    "C02_never_late",
    "C02_one_at_a_time"
   ],
   "note": "For disciplined histories (SchedSpec.disciplined); C13_removing_zulu_spares_simulation_refuted shows an event jumped over in an undisciplined one."
  },
  {
   "property": "C03",
   "status": "partial",
   "theorems": [
    "C03_first_posted_first_executed",
    "C03_immediates_in_order",
    "C03_immediates_before_the_rest",
    "C03_first_posted_first_executed_refuted"
   ],
   "note": "FIFO when nobody re-times an event to the present instant; refuted otherwise."
  },
  {
   "property": "C04",
   "status": "proved",
   "theorems": [
    "C04_occurrences_exact",
    "C04_for_ever",
    "C04_not_before_posted"
   ],
   "note": "Simulation time events that nobody modifies, in disciplined histories."
  },
  {
   "property": "C05",
   "status": "partial",
   "theorems": [
    "C05_removed_never_starts_partial",
    "C05_removed_never_starts_refuted"
   ],
   "note": "Refuted in general: SetEventRepeat revives an event removed while running. Proved for every history without a later SetEventRepeat on it."
  },
  {
   "property": "C06",
   "status": "proved",
   "theorems": [
    "C06_ids_unique",
    "C06_ids_fresh",
    "C06_numbers"
   ],
   "note": "Every history."
  },
  {
   "property": "C07",
   "status": "partial",
   "theorems": [
    "C07_rejected_exactly",
    "C07_undefined_exactly",
    "C07_rejected_without_effect",
    "C07_cyclic_events_have_positive_cycle_partial",
    "C07_cyclic_positive_refuted"
   ],
   "note": "Exact rejection table for every state, and the exact condition under which a call overflows (C07_undefined_exactly); positive cycle refuted for SetEventCycleTime with repeat -1 and proved for disciplined histories."
  },
  {
   "property": "C08",
   "status": "proved",
   "theorems": [
    "C08_time_never_passes_a_pending_event",
    "C08_next_scheduled_is_minimum"
   ],
   "note": "Disciplined histories. GetNextScheduledEventTime may answer the present instant when nothing is pending for it any more."
  },
  {
   "property": "C09",
   "status": "partial",
   "theorems": [
    "C09_at_most_one_start_after_hold",
    "C09_none_after_hold_from_entry_point",
    "C09_nothing_lost",
    "C09_no_start_after_hold_refuted"
   ],
   "note": "As stated refuted (one more start possible); proved: at most one start after a hold, none if requested by the running entry point, nothing lost."
  },
  {
   "property": "C10",
   "status": "partial",
   "theorems": [
    "C10_disciplined_histories_are_safe_partial",
    "C10_remove_immediate_refuted",
    "C10_remove_same_instant_refuted",
    "C10_remove_same_instant_dangling_refuted",
    "C10_retime_self_to_past_refuted",
    "C10_post_during_wait_refuted",
    "C10_remove_during_wait_refuted",
    "C10_add_race_refuted",
    "C10_remove_zulu_in_batch_refuted"
   ],
   "note": "Refuted in general (eight kinds of calls); proved for disciplined histories: only 64-bit overflow can end a run abnormally."
  },
  {
   "property": "C11",
   "status": "partial",
   "theorems": [
    "C11_everything_stored_is_back",
    "C11_same_future_partial",
    "C11_zulu_events_refuted",
    "C11_zulu_events_lost",
    "C11_time_window_refuted"
   ],
   "note": "Bytes: everything stored comes back for every history. Same future for every continuation when the pending Zulu events (not stored by the code) agree; refuted with Zulu events (lost for ever) and for the permission to set the time."
  },
  {
   "property": "C12",
   "status": "partial",
   "theorems": [
    "C12_deadlock_refuted",
    "C12_doomed",
    "C12_only_deadlock_partial",
    "C12_progress_partial"
   ],
   "note": "Refuted as stated: a simulation event executed while a Zulu entry point runs deadlocks, for ever. Proved: this is the only deadlock of the scheduler's mutexes for any number of threads; progress to the end when only one of the two threads executes entry points."
  },
  {
   "property": "C13",
   "status": "partial",
   "theorems": [
    "C13_executed_or_skipped_by_state",
    "C13_not_before_its_time",
    "C13_in_order_partial",
    "C13_removing_zulu_spares_simulation_refuted"
   ],
   "note": "Order proved when the clock is not set back and nobody re-times to the present; spare-simulation part refuted by the wrong-table erase."
  },
  {
   "property": "C14",
   "status": "proved",
   "theorems": [
    "C14_epoch_follows_simulation_time",
    "C14_mission_follows_epoch_time",
    "C14_set_epoch",
    "C14_set_mission",
    "C14_set_mission_start"
   ],
   "note": "Every step from every state."
  },
  {
   "property": "C15",
   "status": "proved",
   "theorems": [
    "C15_change_inside_window_only",
    "C15_outside_window_no_effect",
    "C15_inside_window",
    "C15_closed_while_events_run"
   ],
   "note": "Every history; the last theorem for disciplined ones."
  },
  {
   "property": "C16",
   "status": "partial",
   "theorems": [
    "C16_transitions_documented_or_out_of_aborting",
    "C16_transitions_are_documented_partial",
    "C16_transitions_are_documented_refuted"
   ],
   "note": "Arbitrary re-entrancy: documented transitions or leaving Aborting; documented ones only when Abort is not called inside a transition; refuted otherwise."
  },
  {
   "property": "C17",
   "status": "proved",
   "theorems": [
    "C17_accepted_exactly",
    "C17_out_of_state_commands_are_ignored",
    "C17_in_state_commands_are_accepted"
   ],
   "note": "Every state and every nesting."
  },
  {
   "property": "C18",
   "status": "partial",
   "theorems": [
    "C18_abort_sets_the_state",
    "C18_aborting_is_final_partial",
    "C18_aborting_is_final_refuted"
   ],
   "note": "Final when Abort is not called inside a transition; refuted by Abort inside Connect."
  },
  {
   "property": "C19",
   "status": "partial",
   "theorems": [
    "C19_accepted_exactly",
    "C19_at_most_once_in_order",
    "C19_exactly_once_in_order_partial",
    "C19_exactly_once_in_order_refuted"
   ],
   "note": "At most once, in order: every history. Exactly once: when no user code throws; refuted otherwise."
  },
  {
   "property": "C20",
   "status": "proved",
   "theorems": [
    "C20_names_and_ids_are_in_bijection",
    "C20_predefined_ids",
    "C20_every_name_is_answered"
   ],
   "note": "Every sequence of calls of the event manager."
  },
  {
   "property": "C21",
   "status": "proved",
   "theorems": [
    "C21_emit_notifies_the_subscribers_of_the_call",
    "C21_emit_completes",
    "C21_acceptance",
    "C21_subscribed_at_most_once"
   ],
   "note": "Emit with handlers that may subscribe, unsubscribe and emit recursively."
  },
  {
   "property": "C22",
   "status": "proved",
   "theorems": [
    "C22_restored_manager_behaves_as_stored",
    "C22_identity_when_idle"
   ],
   "note": "Restore into any manager with the same entry points; while no emit is in progress."
  },
  {
   "property": "C23",
   "status": "partial",
   "theorems": [
    "C23_counts_are_exact_partial",
    "C23_counts_are_exact_refuted"
   ],
   "note": "Every history in which no pair has 2^32 links at once; wrap-around refuted."
  },
  {
   "property": "C24",
   "status": "partial",
   "theorems": [
    "C24_sources_are_exact_partial",
    "C24_sources_are_exact_refuted"
   ],
   "note": "Sources with distinct names; refuted for two sources with equal names (AddLink counts the link and then throws)."
  },
  {
   "property": "C25",
   "status": "partial",
   "theorems": [
    "C25_upper",
    "C25_lower",
    "C25_names",
    "C25_content",
    "C25_failed",
    "C25_add_iff",
    "C25_published_takes_none",
    "C25_add_after_publish_refuted",
    "C25_delete_iff",
    "C25_no_dangling"
   ],
   "note": "All histories of AddComponent/DeleteComponent on any number of containers of one composite, any bounds (negative bounds included). The acceptance clause is false: C25_add_iff gives the exact condition, and C25_published_takes_none shows that once the composite component has been published no component can be added (CheckComponent calls GetField, which throws InvalidFieldName instead of returning null); C25_add_after_publish_refuted is the witness. Containers built with the plain IObject* constructor (not registered in the composite) are not modelled."
  },
  {
   "property": "C26",
   "status": "proved",
   "theorems": [
    "C26_upper",
    "C26_lower",
    "C26_failed",
    "C26_content",
    "C26_outcomes",
    "C26_unlink",
    "C26_unlink_below_lower"
   ],
   "note": "All histories of AddComponent, RemoveComponent and RemoveLinks, any bounds. RemoveLinks may leave fewer than Lower components (C26_unlink_below_lower)."
  },
  {
   "property": "C27",
   "status": "proved",
   "theorems": [
    "C27_names_are_the_grammar",
    "C27_names_have_no_separators"
   ],
   "note": "checkName on memory blocks (reads past the terminator would be UB) against the inductive grammar of names."
  },
  {
   "property": "C28",
   "status": "partial",
   "theorems": [
    "C28_path_resolves_to_object_partial",
    "C28_path_without_simulator",
    "C28_paths_are_distinct_partial",
    "C28_containers_by_underscore",
    "C28_path_resolves_to_object_refuted",
    "C28_shared_names_refuted"
   ],
   "note": "Proved for trees with unique sibling names and objects other than containers and references; refuted for containers and for equal names of a field and a component."
  },
  {
   "property": "C29",
   "status": "partial",
   "theorems": [
    "C29_array_index",
    "C29_lookup_order",
    "C29_components_order",
    "C29_references_by_underscore",
    "C29_dots",
    "C29_paths_compose_partial",
    "C29_steps_then_whole_partial",
    "C29_failure_is_final",
    "C29_paths_compose_refuted",
    "C29_shared_names_refuted"
   ],
   "note": "Proved when the intermediate object is not a field (exact in trees with unique names and no references; forward direction in every tree); refuted for fields (name dropped) and for equal names."
  },
  {
   "property": "C30",
   "status": "proved",
   "theorems": [
    "C30_copy_fits_and_terminates",
    "C30_callers_give_room",
    "C30_documented_size_overruns"
   ],
   "note": "CopyString with explicit destination bytes; callers; the documented meaning of size (total bytes) makes it overrun by one byte."
  },
  {
   "property": "C31",
   "status": "proved",
   "theorems": [
    "C31_store",
    "C31_read",
    "C31_read_other",
    "C31_store_other",
    "C31_round_trip",
    "C31_reachable",
    "C31_failed_store",
    "C31_store_float32",
    "C31_store_float64",
    "C31_store_float32_fits",
    "C31_store_float64_fits",
    "C31_store_float_overflow"
   ],
   "note": "All 8 integral argument types, 10 integral kinds and 8 reading operators, the comparison helpers of utility.h with their casts; also stores into the floating point kinds (exact when they succeed, succeed when the integer fits 24/53 bits; undefined for the largest integers)."
  },
  {
   "property": "C32",
   "status": "partial",
   "theorems": [
    "C32_float32",
    "C32_float64",
    "C32_float_symmetric",
    "C32_float_reflexive",
    "C32_mixed_floats",
    "C32_equal_values_partial",
    "C32_reflexive_partial",
    "C32_symmetric_partial",
    "C32_transitive_partial",
    "C32_reflexive_refuted",
    "C32_symmetric_refuted",
    "C32_transitive_refuted",
    "C32_defined_refuted",
    "C32_different"
   ],
   "note": "False as stated: None, Bool, floating point values and not-a-number break symmetry, transitivity and reflexivity, and a comparison can be undefined (C32_*_refuted). Proved that it is equality of values, hence an equivalence, on objects holding integers (any kind, Duration and DateTime included), characters and strings. On floating point objects the exact condition is proved: both are numbers and at most one epsilon apart up to the rounding of the difference (C32_float32, C32_float64, C32_mixed_floats), so that between floats of one kind equality is symmetric and reflexive on numbers."
  },
  {
   "property": "C33",
   "status": "proved",
   "theorems": [
    "C33_print_then_parse",
    "C33_parse_accepts_exactly_the_form",
    "C33_parse_then_print"
   ],
   "note": "Parser and printer of UUIDs over all byte strings; no read past the end."
  },
  {
   "property": "C34",
   "status": "proved",
   "theorems": [
    "C34_order_is_numeric",
    "C34_strict_total_order",
    "C34_equal_hash"
   ],
   "note": "Order equals the numeric order of the 128-bit value."
  },
  {
   "property": "C35",
   "status": "proved",
   "theorems": [
    "C35_strings_stay_within_capacity",
    "C35_default_is_empty",
    "C35_observers"
   ],
   "note": "All capacities, contents and operation sequences; remove_prefix beyond the length is undefined behaviour (as for std::string_view) and is shown to be the only such case. Arguments that alias the object itself are not modelled."
  },
  {
   "property": "C36",
   "status": "proved",
   "theorems": [
    "C36_operators_are_lexicographic",
    "C36_compare_view",
    "C36_total_order"
   ],
   "note": "All six operators, any two capacities."
  },
  {
   "property": "C37",
   "status": "partial",
   "theorems": [
    "C37_round_trip_partial",
    "C37_round_trip_plain_partial",
    "C37_sequence_partial",
    "C37_typed_sequence_partial",
    "C37_wide_string_refuted"
   ],
   "note": "Proved for every nesting of scalars, bool, byte strings, arrays, vectors, ordered and unordered sets and maps, pairs, atomics and object references. Refuted for strings of wide characters (StdString.h:36 stores size bytes instead of size characters)."
  },
  {
   "property": "C38",
   "status": "partial",
   "theorems": [
    "C38_truncated",
    "C38_truncated_sequence",
    "C38_truncated_typed",
    "C38_foreign_partial",
    "C38_foreign_prefix_refuted",
    "C38_untyped_refuted"
   ],
   "note": "Truncation proved in full. Foreign storage proved for the typed functions unless the types expected are a prefix of the stored ones (refuted: a value is returned); without type hashes a foreign storage can give a value or an allocation failure instead of CannotRestore (refuted)."
  },
  {
   "property": "C39",
   "status": "partial",
   "theorems": [
    "C39_forced_value_kept",
    "C39_force",
    "C39_freeze",
    "C39_unforce",
    "C39_unforce_keeps_value",
    "C39_restore",
    "C39_failed_force_partial",
    "C39_failed_force_refuted"
   ],
   "note": "Histories of every field operation; the part about a failed Force is refuted: the forced flag is lost."
  },
  {
   "property": "C40",
   "status": "partial",
   "theorems": [
    "C40_assignment_propagates_partial",
    "C40_set_value_propagates_partial",
    "C40_push_partial",
    "C40_loop_never_returns",
    "C40_array_item_partial",
    "C40_array_push_partial",
    "C40_loop_refuted",
    "C40_string_refuted",
    "C40_enumeration_refuted",
    "C40_array_interfaces_refuted",
    "C40_published_push_partial"
   ],
   "note": "Proved for fields of one kind able to hold the value, without loops, and for Push of published fields into plain inputs; refuted for loops, strings of different capacity, published enumerations and the interfaces of simple arrays that do not push."
  },
  {
   "property": "C41",
   "status": "partial",
   "theorems": [
    "C41_hands_on_tree_partial",
    "C41_rejected_unchanged",
    "C41_accepted_partial",
    "C41_hands_on_partial",
    "C41_links",
    "C41_disconnect",
    "C41_linked_once",
    "C41_published_rejected",
    "C41_published_accepted_partial",
    "C41_published_links",
    "C41_nested_structure_refuted",
    "C41_failed_connect_refuted"
   ],
   "note": "Exact acceptance, links and Disconnect for trees of typed fields; the values arrive in the parts of the target and in all fields these hand them on to, without loops; acceptance, links and copied values for published dataflow fields. Refuted for nested structures in output structures and for simple arrays of different kinds."
  },
  {
   "property": "C42",
   "status": "proved",
   "theorems": [
    "C42_round_trip",
    "C42_stores_state_only",
    "C42_transient",
    "C42_truncated"
   ],
   "note": "All kinds of typed and published fields over a byte memory; a short read fails."
  },
  {
   "property": "C43",
   "status": "partial",
   "theorems": [
    "C43_request_exists",
    "C43_index_bijection",
    "C43_set_parameter_partial",
    "C43_set_parameter_refuted",
    "C43_rejected_changes_nothing",
    "C43_last_accepted_value",
    "C43_property_requests_partial",
    "C43_set_return_partial",
    "C43_void_return",
    "C43_setter_index_refuted",
    "C43_getter_index"
   ],
   "note": "Model ReqModel.v. Index bijection, rejected calls, last accepted value and existence of the request are proved for every published operation and every history. Accepted values: proved except for NaN values or bounds and negative string lengths, which the code lets through (refuted); the setter of a property answers index 0 for every name (refuted)."
  },
  {
   "property": "C44",
   "status": "proved",
   "theorems": [
    "C44_simple_round_trip",
    "C44_missing_parameter",
    "C44_other_kind",
    "C44_created_distinct",
    "C44_nested_round_trip",
    "C44_read",
    "C44_nested_parameters"
   ],
   "note": "Model ReqModel.v. Round trip and independence proved for simple and nested arguments; the request may be any one with a parameter for each simple value. What reading gives is also proved for any request and any argument (C44_read). CreateRequest of the library gives null for operations with array or structure parameters (C43_request_exists)."
  },
  {
   "property": "C45",
   "status": "partial",
   "theorems": [
    "C45_one_type_per_uuid",
    "C45_failed_changes_nothing",
    "C45_accepted",
    "C45_registered_as_described",
    "C45_standard_types",
    "C45_registered_never_changes",
    "C45_literals",
    "C45_inheritance_acyclic",
    "C45_primitive_types",
    "C45_expansion_ends_partial",
    "C45_recursive_structure_refuted",
    "C45_published_fields"
   ],
   "note": "Proved for every history of calls on a new registry: a second registration under a UUID is rejected, a failed call changes nothing, exactly the sound registrations are accepted, registered types only gain literals and fields, inheritance is acyclic and ends with Void. Finite expansion holds when fields are added with types registered before the structure (partial) and is refuted by a structure with a field of its own type."
  },
  {
   "property": "C46",
   "status": "partial",
   "theorems": [
    "C46_published_literals_partial",
    "C46_only_literals_partial",
    "C46_other_sizes_refuted",
    "C46_array_items_refuted",
    "C46_typed_fields_refuted"
   ],
   "note": "Published simple fields of four byte enumerations; refuted for the other sizes, array items and typed fields."
  },
  {
   "property": "C47",
   "status": "partial",
   "theorems": [
    "C47_stable",
    "C47_predefined",
    "C47_name_of_kind",
    "C47_store_restore_partial",
    "C47_store_restore_refuted",
    "C47_failed_restore_refuted"
   ],
   "note": "Query of a kind is stable and predefined kinds keep their numbers; a store/restore round trip keeps every kind; refuted: restoring a breakpoint that lacks some current kinds reassigns them, and a failed restore loses the predefined kinds."
  },
  {
   "property": "C48",
   "status": "proved",
   "theorems": [
    "C48_once_in_order",
    "C48_all_delivered",
    "C48_destruction_terminates",
    "C48_delivered_while_running"
   ],
   "note": "Queue and worker modelled as interleaved steps with lock and condition; every schedule delivers each entry once, in order, and destruction delivers the rest."
  },
  {
   "property": "C49",
   "status": "proved",
   "theorems": [
    "C49_order",
    "C49_accepted",
    "C49_next",
    "C49_refused",
    "C49_unchanged",
    "C49_publication_and_simulator"
   ],
   "note": "Proved on the base Component and for every call sequence."
  },
  {
   "property": "C50",
   "status": "partial",
   "theorems": [
    "C50_unique",
    "C50_by_uuid",
    "C50_order",
    "C50_register_iff",
    "C50_rejected_partial",
    "C50_alive_partial",
    "C50_create",
    "C50_rejected_refuted"
   ],
   "note": "Rejected registration deletes the factory; registering the same object twice leaves a dangling registered factory (refuted); holds when no object is offered twice."
  },
  {
   "property": "C51",
   "status": "partial",
   "theorems": [
    "C51_subscribe",
    "C51_notify_sound",
    "C51_emit_complete",
    "C51_remove_links",
    "C51_ub_only_self_removal",
    "C51_self_unsubscribe_refuted",
    "C51_throwing_sink_refuted"
   ],
   "note": "Sinks may run any calls on the source, nested emissions included. Refuted for a sink that unsubscribes itself while notified (iterator to an erased element) and for a sink that throws (the rest is not notified)."
  },
  {
   "property": "C52",
   "status": "proved",
   "theorems": [
    "C52_units",
    "C52_literals",
    "C52_back",
    "C52_truncates",
    "C52_from_chrono",
    "C52_large_literals",
    "C52_reference",
    "C52_date_round_trip",
    "C52_time_point_round_trip",
    "C52_order_and_differences",
    "C52_plus_minus"
   ],
   "note": "Proved, with overflow as undefined behaviour; literals of 2^63 and more denote negative durations."
  },
  {
   "property": "C53",
   "status": "partial",
   "theorems": [
    "C53_split_fields",
    "C53_fields_unique",
    "C53_trimmed_unique",
    "C53_unescape_inverts",
    "C53_unescape_plain",
    "C53_pattern_meaning",
    "C53_pattern_reads_inside_partial",
    "C53_pattern_reads_inside_refuted",
    "C53_properties_first_wins"
   ],
   "note": "split, unescape, properties and well formed patterns exact; refuted: a pattern that ends in a lonely percent sign or unclosed brace is read beyond its end."
  },
  {
   "property": "C54",
   "status": "partial",
   "theorems": [
    "C54_equivalence_relation",
    "C54_same_shape_partial",
    "C54_same_shape_refuted",
    "C54_same_shape_without_simple_arrays"
   ],
   "note": "Equivalence relation proved; same-shape refuted: item kinds of simple arrays are not compared (ArrayType has kind None); proved up to that, and exactly for fields without simple arrays."
  },
  {
   "property": "C55",
   "status": "proved",
   "theorems": [
    "C55_is_failed",
    "C55_names",
    "C55_no_effect",
    "C55_store_restore"
   ],
   "note": "All histories of registration, Fail, Unfail and Restore."
  },
  {
   "property": "C56",
   "status": "proved",
   "theorems": [
    "C56_at_name",
    "C56_at_name_duplicates",
    "C56_at_index",
    "C56_unique",
    "C56_failed",
    "C56_duplicate_iff",
    "C56_delegate",
    "C56_delegate_unique",
    "C56_delegate_growth_hides"
   ],
   "note": "Collection, ContainingCollection and DelegateCollection. A delegating collection loses name uniqueness when its delegate grows afterwards (refuted)."
  },
  {
   "property": "C57",
   "status": "partial",
   "theorems": [
    "C57_every_linking_source_is_asked_partial",
    "C57_every_other_source_is_skipped",
    "C57_every_linking_source_is_asked_refuted"
   ],
   "note": "Sources that do not touch the registry; refuted, with the exact skipping pattern, when each source removes its own link."
  },
  {
   "property": "C58",
   "status": "partial",
   "theorems": [
    "C58_can_remove_partial",
    "C58_can_remove_refuted"
   ],
   "note": "Sources with distinct names; refuted otherwise."
  },
  {
   "property": "C59",
   "status": "partial",
   "theorems": [
    "C59_rests_between_commands_partial",
    "C59_rests_between_commands_refuted"
   ],
   "note": "No exception from user code; refuted by a throwing Store."
  },
  {
   "property": "C60",
   "status": "partial",
   "theorems": [
    "C60_deferred_hold_twice",
    "C60_deferred_hold_takes_effect",
    "C60_deferred_hold_used_once",
    "C60_only_a_hold_stops_a_run_partial",
    "C60_only_a_hold_stops_a_run_refuted"
   ],
   "note": "Takes effect: always. A stale deferred hold stops a later run (refuted)."
  },
  {
   "property": "C61",
   "status": "proved",
   "theorems": [
    "C61_is_ancestor_exact",
    "C61_is_ancestor_null"
   ],
   "note": "Loop of IsAncestor over an arbitrary finite parent chain."
  },
  {
   "property": "C62",
   "status": "partial",
   "theorems": [
    "C62_owned_once_partial",
    "C62_no_leak_partial",
    "C62_copy_partial",
    "C62_independent_partial",
    "C62_move",
    "C62_set_string_partial",
    "C62_own_string_refuted",
    "C62_no_memory_refuted"
   ],
   "note": "False in two cases (C62_own_string_refuted: setting an object to the string it already holds; C62_no_memory_refuted: allocation failure in copy assignment). Proved for all other histories: one owner, no double free, no leak, independent copies."
  },
  {
   "property": "C63",
   "status": "partial",
   "theorems": [
    "C63_in_order",
    "C63_all_reached_partial",
    "C63_no_exception",
    "C63_all_reached_refuted",
    "C63_reconnect_root_refuted",
    "C63_created"
   ],
   "note": "In-order/at-most-once proved for all histories. Completeness fails for a component added to a container the walk is going through, and Reconnect(root) does not visit root; proved when nobody adds siblings during the walk."
  },
  {
   "property": "C64",
   "status": "partial",
   "theorems": [
    "C64_publish_connect_once",
    "C64_configure_disconnect_partial",
    "C64_configure_twice_refuted",
    "C64_disconnect_refused_refuted"
   ],
   "note": "DoPublish and DoConnect are called once. Refuted: DoConfigure is called twice (ComponentHelper.h:52), DoDisconnect is called before the state check."
  },
  {
   "property": "C65",
   "status": "partial",
   "theorems": [
    "C65_exact_partial",
    "C65_consistent",
    "C65_finer_refuted"
   ],
   "note": "Consistency proved for every period; exactness for whole-nanosecond periods; refuted for finer periods (the chrono value is truncated first)."
  },
  {
   "property": "C66",
   "status": "partial",
   "theorems": [
    "C66_configuration_safe_partial",
    "C66_filters",
    "C66_levels",
    "C66_writes",
    "C66_configuration_safe_refuted"
   ],
   "note": "Proved for configurations with a known layout name and a well formed pattern; refuted for the others (null layout, read beyond the pattern). std::regex is not modelled (any predicate on paths)."
  },
  {
   "property": "C67",
   "status": "proved",
   "theorems": [
    "C67_tree_round_trip",
    "C67_truncated",
    "C67_wrong_marker",
    "C67_foreign_tree_accepted"
   ],
   "note": "For components whose own Store and Restore round-trip; markers do not identify the tree (C67_foreign_tree_accepted)."
  },
  {
   "property": "C68",
   "status": "proved",
   "theorems": [
    "C68_one_per_name",
    "C68_publish_operation",
    "C68_publish_property",
    "C68_create_request",
    "C68_property_requests",
    "C68_operation_requests"
   ],
   "note": "Model ReqModel.v. Names are C strings."
  },
  {
   "property": "C69",
   "status": "proved",
   "theorems": [
    "C69_invoke_needs_inputs",
    "C69_invoke_wrong_name",
    "C69_property_access",
    "C69_property_set",
    "C69_property_get"
   ],
   "note": "Model ReqModel.v. The component's own Invoke is a parameter."
  },
  {
   "property": "C70",
   "status": "proved",
   "theorems": [
    "C70_executed_only_before_its_time_is_over",
    "C70_skipped_only_when_its_time_is_over",
    "C70_not_skipped_while_the_clocks_run"
   ],
   "note": "SchedClock/SchedClockProps: an invariant ties the time of an event on its clock to the instant of its occurrence; three theorems over every disciplined history."
  },
  {
   "property": "C71",
   "status": "proved",
   "theorems": [
    "C71_a_run_reaches_every_pending_event"
   ],
   "note": "SchedLive/SchedLiveProps: lexicographic measure (instants left, work left at the instant) decreasing at each own move of the simulation thread; theorem for every fair schedule. Signed overflow of a cycle addition is the only other outcome. API calls by other threads during these moves are out of scope of the theorem."
  },
  {
   "property": "C72",
   "status": "partial",
   "theorems": [
    "C72_index_partial",
    "C72_iteration",
    "C72_negative_index_refuted"
   ],
   "note": "Indexes from the start and loops proved; every index counted from the end raises IndexError because GetIndex compares the index as given, not the corrected one, with the size: C72_negative_index_refuted."
  },
  {
   "property": "C73",
   "status": "proved",
   "theorems": [
    "C73_call_reaches_component",
    "C73_no_dynamic_invocation",
    "C73_results",
    "C73_component_exception",
    "C73_names_stay_different"
   ],
   "note": "Proved for operations described with C strings, fewer than 2^31 parameters and keyword names without NUL; Python guarantees that keywords are different. pybind11 conversions are modelled, not proved."
  },
  {
   "property": "C74",
   "status": "partial",
   "theorems": [
    "C74_round_trip_partial",
    "C74_integers_exact_or_refused",
    "C74_strings",
    "C74_characters",
    "C74_booleans",
    "C74_numbers",
    "C74_field_copy",
    "C74_round_trip_refuted"
   ],
   "note": "Proved for integers, booleans, Float64, canonical Float32, UTF-8 strings without NUL and all characters; the refutation lists the values that do not survive. What Python objects each kind accepts is proved too; the casts themselves are those of pybind11, modelled from its documentation."
  },
  {
   "property": "C75",
   "status": "partial",
   "theorems": [
    "C75_isinstance_partial",
    "C75_most_derived_partial",
    "C75_isinstance_refuted"
   ],
   "note": "Proved for every interface but IFactory and ICollection, which the hierarchy of ecss_smp.cpp leaves out although their Python classes exist."
  },
  {
   "property": "C76",
   "status": "partial",
   "theorems": [
    "C76_standard_service",
    "C76_no_standard_service",
    "C76_standard_service_stays",
    "C76_add_service_iff",
    "C76_add_model_iff",
    "C76_rejected_unchanged",
    "C76_added",
    "C76_names",
    "C76_get_service",
    "C76_standard_service_alive_partial",
    "C76_standard_service_alive_refuted"
   ],
   "note": "Refuted: deleting a standard service through the Services container leaves the simulator with a pointer to it; partial: true for the services that are never deleted."
  },
  {
   "property": "C77",
   "status": "partial",
   "theorems": [
    "C77_finalised_once_in_reverse_partial",
    "C77_finalised_at_the_end_partial",
    "C77_load_iff",
    "C77_finalised_once_in_reverse_refuted"
   ],
   "note": "Proved when Finalise loads no library (Initialise may, to any depth); refuted when Finalise calls LoadLibrary: the destructor then finalises a library twice and forgets another."
  },
  {
   "property": "C78",
   "status": "partial",
   "theorems": [
    "C78_standby_exits",
    "C78_destruction_partial",
    "C78_destruction_refuted"
   ],
   "note": "From Standby: Exiting for every user code that does not call Abort. From Executing: exact trace if the user code only returns; refuted with a handler of EnterStandby that calls Initialise and then Run: the destroyed simulator stays in Executing."
  },
  {
   "property": "C79",
   "status": "partial",
   "theorems": [
    "C79_states_are_announced_partial",
    "C79_states_are_announced_refuted",
    "C79_commands_show",
    "C79_init_kept"
   ],
   "note": "Refuted: Reconnect never emits LeaveReconnecting. Partial: all other states, as long as Abort is not called in the middle of a transition."
  },
  {
   "property": "C80",
   "status": "partial",
   "theorems": [
    "C80_double_stored",
    "C80_read_bool",
    "C80_bool",
    "C80_char",
    "C80_string",
    "C80_new",
    "C80_float_other",
    "C80_float_same",
    "C80_float_kept_partial",
    "C80_float_kept_refuted",
    "C80_read_float",
    "C80_read_float_times",
    "C80_read_float_refuted"
   ],
   "note": "Booleans, characters and strings are kept exactly or refused, whatever the object held before; floating-point values are kept by their own kind, a single-precision value also through the double kind, and a double that is exactly a single-precision value is accepted by the single kind and kept (C80_float_kept_partial). Not true in general: the check compares the absolute difference with 2^-52, so small doubles are accepted and changed (C80_float_kept_refuted); C80_double_stored gives the exact condition and shows that a nearest single-precision value is stored, so an accepted double changes by at most 2^-52 (1 + 2^-53). The largest integers read as floating point are undefined behaviour (C80_read_float_refuted)."
  },
  {
   "property": "C81",
   "status": "partial",
   "theorems": [
    "C81_events_references",
    "C81_others_kept",
    "C81_field_links",
    "C81_removed_partial",
    "C81_neighbours_refuted",
    "C81_published_refuted",
    "C81_nested_refuted"
   ],
   "note": "The sinks and references of the target are all removed; for the fields the exact remainder is proved (the input following a removed one is skipped), all is removed when no two neighbouring inputs are of the target, and other links and values are kept. Refuted in general: neighbouring inputs, outputs inside an output, published outputs."
  },
  {
   "property": "C82",
   "status": "partial",
   "theorems": [
    "C82_clamped_partial",
    "C82_always_usable_partial",
    "C82_clamped_refuted"
   ],
   "note": "Proved for every double except NaN, and after any sequence of calls; refuted for NaN, which is accepted and makes the next computation of the delay undefined."
  },
  {
   "property": "C83",
   "status": "partial",
   "theorems": [
    "C83_not_early",
    "C83_one_speed",
    "C83_waits",
    "C83_catches_up",
    "C83_defined_at_100",
    "C83_defined_a_year",
    "C83_end_of_time_refuted",
    "C83_no_drift_refuted",
    "C83_clock_set_back_refuted"
   ],
   "note": "Never early up to 1 ns per step and a relative 2^-50 (rounding of doubles), late runs catch up up to the same bounds plus the time between the two readings of the clock, and every step is defined for a step of up to a year at any accepted speed and for all times at the initial speed. Refuted: a wait for the end of time below speed 1 is undefined, the time between the two readings accumulates as drift, a clock set back lengthens the wait."
  },
  {
   "property": "C84",
   "status": "partial",
   "theorems": [
    "C84_own_copy_partial",
    "C84_freed_once_partial",
    "C84_failed_construction",
    "C84_own_text_refuted",
    "C84_failed_assignment_refuted",
    "C84_moved_from_refuted"
   ],
   "note": "Proved for programs that take no text from null, unterminated or moved-from sources, give no object its own c_str() and whose assignments can allocate; each of the excluded cases is refuted."
  },
  {
   "property": "C85",
   "status": "partial",
   "theorems": [
    "C85_posts_the_end",
    "C85_negative_refused",
    "C85_stops_after_the_duration_partial",
    "C85_hold_used_up",
    "C85_never_beyond",
    "C85_returns",
    "C85_destroyed_entry_point_refuted",
    "C85_left_over_hold_refuted"
   ],
   "note": "When Run(d) returns, the time is t0+d, everything due has been executed, its event is gone and the simulation is on hold; the time is never beyond before; it returns after finitely many fair rounds. Any disciplined history before, any calls during the run as long as nobody else holds or starts the simulation, touches the event of the run or sets the time after it. A deferred hold that takes place is used up and does not affect the next run. Refuted: interrupted by another Hold(true), Run leaves a pending event that names a destroyed local entry point; a deferred hold that did not happen stops the next run at once."
  },
  {
   "property": "C86",
   "status": "partial",
   "theorems": [
    "C86_whole_units",
    "C86_close_partial",
    "C86_stops_when_asked_partial",
    "C86_nearest_nanosecond_refuted",
    "C86_long_run_refuted",
    "C86_too_long_refuted"
   ],
   "note": "Exact for whole numbers (any signs) below 2^53 ns in total, and within a relative 2^-47 (rounded down) for any lengths up to 2^62 ns; with C85 the simulation stops exactly then. Refuted: rounding to the nearest nanosecond, whole numbers beyond 2^53 ns, refusal of what is not a duration. Not covered by the approximate theorem: positive arguments below 2^-840 and fractional arguments of mixed signs. Contraction of a*b+c into one rounding is not modelled."
  },
  {
   "property": "C87",
   "status": "partial",
   "theorems": [
    "C87_can_be_published",
    "C87_declared",
    "C87_found_by_name",
    "C87_same_parts",
    "C87_inside",
    "C87_apart",
    "C87_history",
    "C87_accepted",
    "C87_set_values",
    "C87_wrong_length",
    "C87_stops_at_refused",
    "C87_all_or_nothing_refuted",
    "C87_saved",
    "C87_overlap_refuted",
    "C87_negative_length_refuted",
    "C87_enumeration"
   ],
   "note": "Proved for every registry a history of calls creates and every type in it that describes a C++ type (members inside the object and disjoint, items adjacent): placement, disjointness, histories of SetValue, SetValues/GetValues, Store/Restore. Refuted: SetValues is not all or nothing; item sizes, offsets and string lengths are not checked at registration."
  },
  {
   "property": "C88",
   "status": "partial",
   "theorems": [
    "C88_content",
    "C88_unique_partial",
    "C88_unique_all_partial",
    "C88_unique_refuted",
    "C88_accepted",
    "C88_reason",
    "C88_refused",
    "C88_added",
    "C88_found_partial",
    "C88_only",
    "C88_unknown_partial",
    "C88_structure_refuted",
    "C88_kept",
    "C88_item_moves_refuted",
    "C88_unpublish",
    "C88_path_partial",
    "C88_path_refuted"
   ],
   "note": "Content, acceptance, additions, persistence and Unpublish are proved for all histories. False in general: a raw field may be created under the name of a field given before (C88_unique_refuted), so that uniqueness, GetField and GetPath are proved for histories without that; the publication of an anonymous structure answers null instead of throwing and follows no path (C88_structure_refuted); the index of an item of an anonymous array changes when a created field follows a given one (C88_item_moves_refuted); GetPath of such an item leads nowhere or to another field (C88_path_refuted). The acceptance clause is proved as the code has it: a created field is only compared with created fields. Not modelled: fields given that another publication also holds, views, descriptions."
  },
  {
   "property": "C89",
   "status": "partial",
   "theorems": [
    "C89_exact",
    "C89_wraps",
    "C89_shown_unique",
    "C89_undefined_small",
    "C89_undefined_unsigned",
    "C89_undefined_signed",
    "C89_uint16_product_refuted",
    "C89_mixed_signs_refuted",
    "C89_double",
    "C89_single",
    "C89_single_double",
    "C89_single_double_refuted",
    "C89_field_partial",
    "C89_forced_partial",
    "C89_forced_refuted",
    "C89_float_field_partial",
    "C89_increment",
    "C89_decrement",
    "C89_step",
    "C89_item_partial"
   ],
   "note": "Proved for all integer types, operators and operands; for Float64 and Float32 with operands that convert without loss and results that do not overflow. False in general: a product of two UInt16 values can be undefined (C89_uint16_product_refuted); a negative value and an unsigned operand of 32 bits or more do not give the mathematical quotient (C89_mixed_signs_refuted); the operators compute before they look whether the field is forced, so a forced field does not protect from a division by zero (C89_forced_refuted); a Float32 field with a double operand is rounded twice (C89_single_double_refuted). Propagation has the conditions of C40. Integer fields with floating point operands are not modelled."
  },
  {
   "property": "C90",
   "status": "partial",
   "theorems": [
    "C90_counts",
    "C90_sources_partial",
    "C90_calls_return",
    "C90_sources_refuted",
    "C90_removal_refuted"
   ],
   "note": "proved for any number of threads and schedules: counts and RemoveLink answers, termination; GetLinkSources only when no RemoveLink overlaps an AddLink of the pair or a GetLinkSources of the target (refuted otherwise) and the sources of a target have different names. Readers serialised, collection read at the instant it is found, fewer than 2^32 calls."
  },
  {
   "property": "C91",
   "status": "partial",
   "theorems": [
    "C91_order_partial",
    "C91_unhurried_partial",
    "C91_identifiers",
    "C91_calls_return",
    "C91_order_refuted"
   ],
   "note": "proved for any schedule, except that a call that uses a new event while its first query is in progress may be refused (refuted otherwise). Store and Restore are not concurrent."
  },
  {
   "property": "C92",
   "status": "partial",
   "theorems": [
    "C92_order_partial",
    "C92_calls_return_partial",
    "C92_calls_return_ordered_partial",
    "C92_calls_return_all_partial",
    "C92_backwards_refuted",
    "C92_restore_refuted",
    "C92_writers_first_refuted",
    "C92_store_refuted"
   ],
   "note": "linearizable for every schedule, order of evaluation and mutex policy when the calls that move the simulation time do not overlap (refuted otherwise); every call returns for (any order, readers first, no Restore), (left to right, any policy, no Store or Restore), (left to right, readers first), and deadlocks are exhibited outside these. Unbounded integers; Restore succeeds; emitted events not modelled."
  },
  {
   "property": "C93",
   "status": "partial",
   "theorems": [
    "C93_duration_partial",
    "C93_duration_refuted",
    "C93_duration_injective",
    "C93_duration_order_partial",
    "C93_duration_order_refuted",
    "C93_date_partial",
    "C93_calendar",
    "C93_date_refuted",
    "C93_date_order",
    "C93_date_injective"
   ],
   "note": "Proved: the text of every duration but the smallest and of every date-time that has one, against an independent definition of the calendar (days counted one by one from 2000-01-01); injectivity; order of date-times. Refuted: the smallest duration and late date-times have no text (undefined behaviour); texts of durations sort only from 0 to 100 hours."
  },
  {
   "property": "C94",
   "status": "partial",
   "theorems": [
    "C94_integers",
    "C94_characters_partial",
    "C94_characters_refuted",
    "C94_kind",
    "C94_identifies_partial",
    "C94_strings_refuted",
    "C94_undefined_exactly",
    "C94_null_string_refuted",
    "C94_fixed_texts",
    "C94_floats",
    "C94_float_integers",
    "C94_floats_refuted",
    "C94_format_kept_partial",
    "C94_format_kept_refuted",
    "C94_format_refuted",
    "C94_enumerations",
    "C94_uuid",
    "C94_messages",
    "C94_messages_defined"
   ],
   "note": "Proved: integers, ASCII characters, the texts of booleans, infinities and NaN, floating point values (best approximation with six digits, integers below 10^6 exact), kinds and values identified from the text outside floats and strings, exactly which values have no text, enumerations, Uuids on every stream, messages. Refuted: non-ASCII characters are no C literal, strings may look like durations, floats not identified, null String8 undefined, the format of the stream is changed, other bases change the text."
  },
  {
   "property": "C95",
   "status": "partial",
   "theorems": [
    "C95_text",
    "C95_description",
    "C95_undefined_exactly",
    "C95_replaced_exactly",
    "C95_rejections_refuted",
    "C95_getters",
    "C95_names_partial",
    "C95_names_refuted",
    "C95_getters_exactly"
   ],
   "note": "Proved: name, sender, what, message against a table of templates, description per class, exactly when making the exception is undefined or replaced by std::bad_typeid, getters and their absence. Partial: getters that give the name of an object need the object alive. Refuted: every rejection can be thrown (cycle time -2^63 ns); names of destroyed objects."
  },
  {
   "property": "C96",
   "status": "partial",
   "theorems": [
    "C96_rest",
    "C96_hold_partial",
    "C96_hold_refuted",
    "C96_one_loop_refuted",
    "C96_one_loop_partial",
    "C96_refused"
   ],
   "note": "Proved for every number of threads and every interleaving: Standby once all calls have returned; a hold taken while the loop runs ends it after at most one event (no other thread calls Run). Refuted: a hold accepted before the loop has begun is lost for ever; two loops at once."
  },
  {
   "property": "C97",
   "status": "partial",
   "theorems": [
    "C97_punctual_partial",
    "C97_punctual_refuted",
    "C97_all_due",
    "C97_stop",
    "C97_disconnect"
   ],
   "note": "ZulModel, ZulProps: interleavings of InternalZuluRun with posting, moving, removing, disconnecting, notifications, spurious wake-ups and the clock. Refuted: an event posted for an earlier time than the one the thread waits for is executed late; partial: without such events the thread never sleeps while an event is due. Execution in order of all that is due, and the end after Disconnect, are proved without that restriction. One clock; events about to be executed are not removed here (C13 has removal)."
  },
  {
   "property": "C98",
   "status": "proved",
   "theorems": [
    "C98_delivered",
    "C98_same_kind",
    "C98_integers",
    "C98_failed"
   ],
   "note": "ArgModel: typed sources and sinks with the conversions of AnyModel. The functions of the sinks do not call the source nor throw here (C51 has those)."
  },
  {
   "property": "C99",
   "status": "proved",
   "theorems": [
    "C99_set_item",
    "C99_set_values",
    "C99_get",
    "C99_round_trip",
    "C99_anonymous",
    "C99_typed"
   ],
   "note": "typed and published simple array fields; a published array converts values of other kinds, to floating point items possibly with undefined behaviour (C99_set_item says when); C99_typed covers every operation of FlowModel."
  },
  {
   "property": "C100",
   "status": "partial",
   "theorems": [
    "C100_access",
    "C100_assign",
    "C100_fill_swap",
    "C100_compare",
    "C100_items",
    "C100_nan_refuted",
    "C100_nan_order_refuted"
   ],
   "note": "items with any operators == and <; refuted for floating point items with NaN (C100_nan_refuted, C100_nan_order_refuted), proved for those without (C100_items with C100_compare)."
  },
  {
   "property": "C101",
   "status": "partial",
   "theorems": [
    "C101_selected",
    "C101_default",
    "C101_reports",
    "C101_console",
    "C101_file_partial",
    "C101_file_refuted",
    "C101_defined"
   ],
   "note": "Proved of the configuration read from any lines and of any sequence of entries; std::regex is a parameter. The claim about files is proved for a file used by one appender (C101_file_partial); two appenders on one file write over each other (C101_file_refuted). What an appender writes for an entry is the subject of C53 and C66."
  },
  {
   "property": "C102",
   "status": "partial",
   "theorems": [
    "C102_kept_partial",
    "C102_unbuffered",
    "C102_kept_refuted",
    "C102_death",
    "C102_failure",
    "C102_former_kept_refuted",
    "C102_reports",
    "C102_directories",
    "C102_stuck",
    "C102_complete_at_leave_refuted",
    "C102_failed_restore_partial",
    "C102_failed_restore_refuted"
   ],
   "note": "Not proved because false of the code: that a breakpoint is complete when Store returns (bytes lost when the stream is closed are not reported), that the former breakpoint is kept until the new one is there, that it is complete when LeaveStoring is emitted, and that a Restore that fails changes nothing (refuted). A death loses what the stream had not handed over to the operating system; directories that have been created stay (deletion by others and power failures are not modelled)."
  },
  {
   "property": "C103",
   "status": "partial",
   "theorems": [
    "C103_histories_partial",
    "C103_delete_partial",
    "C103_references_partial",
    "C103_returns",
    "C103_order",
    "C103_disconnected",
    "C103_sibling_refuted",
    "C103_new_sibling_refuted",
    "C103_container_refuted",
    "C103_references_refuted"
   ],
   "note": "Proved for user code in which every component calls only the containers of its own (creating and deleting children to any depth, reacting to the answers) and whose destructors do not throw; order proved when user code does nothing; a deleted component is disconnected, and no other one when user code does nothing; deletions end when user code creates nothing. Refuted: a component that deletes a sibling in front of it or creates one in the middle of its deletion, a destructor that adds to a container being destroyed, and references, which keep destroyed components."
  },
  {
   "property": "C104",
   "status": "partial",
   "theorems": [
    "C104_file_partial",
    "C104_written",
    "C104_undefined",
    "C104_unpublished_refuted",
    "C104_names_refuted",
    "C104_descriptions_refuted"
   ],
   "note": "Model HintModel.v, with a grammar of the Python statements used. Proved: the file is Python and describes exactly the objects when all names are Python identifiers and the descriptions can be quoted; it is written exactly when all components have been published. Refuted: names that the library allows but Python does not (in, [0]) and descriptions with quotes at the end make the file unreadable; a component that has not been published leads to a null pointer."
  },
  {
   "property": "C105",
   "status": "partial",
   "theorems": [
    "C105_histories_partial",
    "C105_append",
    "C105_assign_partial",
    "C105_set",
    "C105_assign_refuted",
    "C105_concatenation",
    "C105_stream_partial",
    "C105_stream_end",
    "C105_stream_refuted"
   ],
   "note": "append and += with any part of the string itself are right for every part; s = part too; assign with a part of the string is proved defined exactly when the part does not overlap what it replaces, refuted otherwise; concatenation proved; streams proved for non-empty texts without blanks, refuted with blanks. Streams with a width or an earlier error are not modelled."
  },
  {
   "property": "C106",
   "status": "partial",
   "theorems": [
    "C106_integers",
    "C106_scripts",
    "C106_by_path",
    "C106_frame",
    "C106_missing",
    "C106_same_object",
    "C106_copy",
    "C106_values",
    "C106_method_names_refuted",
    "C106_read_back_partial"
   ],
   "note": "Model AttrModel.v. Integers, scripts of assignments, compound assignments and expressions, values of every kind that Python can show, copies between fields, exceptions and the frame are proved for every tree and state; that what is assigned is read back is refuted for elements named as a method of the Python class and proved otherwise. Operators on values that are no integers, and the container, reference, collection and array classes, which define __getitem__ anew, are left out."
  },
  {
   "property": "C107",
   "status": "partial",
   "theorems": [
    "C107_scripts_partial",
    "C107_statements",
    "C107_delete_at",
    "C107_delete_refuted",
    "C107_determined",
    "C107_bounds"
   ],
   "note": "Model RefPyModel.v on CollModel.v. Every statement but del r[i] proved for every content; del r[i] proved for references without repeated components (histories included), its exact effect proved otherwise, refuted as the list operation it looks like. The specification is proved to determine the result."
  },
  {
   "property": "C108",
   "status": "partial",
   "theorems": [
    "C108_set_partial",
    "C108_integers_partial",
    "C108_loops_partial",
    "C108_read",
    "C108_refused",
    "C108_outside",
    "C108_anonymous",
    "C108_anonymous_refuted"
   ],
   "note": "Model ArrPyModel.v on FArrModel.v and PyModel.v. Proved for all simple array fields but those of PublishArray with a count and a kind, whose type is no array type and whose items can therefore not be assigned in Python (refuted). Refusals and the frame are proved for all."
  }
 ]
}