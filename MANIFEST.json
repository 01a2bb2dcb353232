{
 "claims": [
  {
   "property": "C01",
   "status": "proved",
   "theorems": [
    "C01_mailbox_fifo",
    "C01_each_put_once",
    "C01_no_exception_no_spin",
    "C01_tlm_fifo_order"
   ],
   "note": "All schedules of any number of coroutines, any bound; TLM FIFO version includes flush."
  },
  {
   "property": "C02",
   "status": "proved",
   "theorems": [
    "C02_mailbox_bounded"
   ],
   "note": ""
  },
  {
   "property": "C03",
   "status": "proved",
   "theorems": [
    "C03_no_lost_wakeup",
    "C03_woken_get_completes",
    "C03_woken_put_completes",
    "C03_calls"
   ],
   "note": "Safety form of liveness: no sleeping process while the operation could proceed, and a woken process completes when resumed."
  },
  {
   "property": "C04",
   "status": "proved",
   "theorems": [
    "C04_num_limit",
    "C04_num_empty",
    "C04_num",
    "C04_num_bound_one"
   ],
   "note": "num() does not count beyond 1 (C04_num_limit shows an execution with two items). The statement gives its exact value."
  },
  {
   "property": "C05",
   "status": "proved",
   "theorems": [
    "C05_peek_head",
    "C05_peek_none_limit",
    "C05_peek_single_consumer"
   ],
   "note": "C05_peek_none_limit is the two-consumer execution in which a blocking peek returns None."
  },
  {
   "property": "C06",
   "status": "proved",
   "theorems": [
    "C06_is_empty",
    "C06_can_get",
    "C06_can_get_exact",
    "C06_is_full_limit",
    "C06_is_full",
    "C06_can_put",
    "C06_large"
   ],
   "note": "C06_large is the size >= 2 part; C06_is_full_limit is an execution in which can_put() is true and the put is rejected."
  },
  {
   "property": "C07",
   "status": "proved",
   "theorems": [
    "C07_flush_empties",
    "C07_put_ap",
    "C07_get_ap_limit",
    "C07_get_ap",
    "C07_flush_ap",
    "C07_try_get_ap",
    "C07_get_ap_count"
   ],
   "note": "C07_get_ap_limit is the flush execution (7,8 removed; 7,7 written)."
  },
  {
   "property": "C08",
   "status": "proved",
   "theorems": [
    "C08_queue_is_sequence"
   ],
   "note": "All calls refine a position-by-position sequence specification which determines results and contents."
  },
  {
   "property": "C09",
   "status": "proved",
   "theorems": [
    "C09_find_with",
    "C09_find_first_index"
   ],
   "note": ""
  },
  {
   "property": "C10",
   "status": "proved",
   "theorems": [
    "C10_pool_lookup",
    "C10_pool_keys"
   ],
   "note": "T() modelled as producing a new object per call."
  },
  {
   "property": "C11",
   "status": "proved",
   "theorems": [
    "C11_pool_iteration",
    "C11_next_never_raises",
    "C11_prev_never_raises",
    "C11_has",
    "C11_empty",
    "C11_prev_raises_limit"
   ],
   "note": "C11_prev_raises_limit shows that the condition on prev() is needed."
  },
  {
   "property": "C12",
   "status": "proved",
   "theorems": [
    "C12_int_round_trip",
    "C12_zero_width_limit",
    "C12_zero_width"
   ],
   "note": "Round trip for every list of fitting fields in both modes; zero width in big-endian mode raises (C12_zero_width)."
  },
  {
   "property": "C13",
   "status": "proved",
   "theorems": [
    "C13_layout"
   ],
   "note": "Every bit of the packed stream is given by the concatenation specification."
  },
  {
   "property": "C14",
   "status": "proved",
   "theorems": [
    "C14_short_read",
    "C14_never_past_end",
    "C14_reads_return"
   ],
   "note": "Short reads return 0 and keep the position; the position never passes the end for every history of reads."
  },
  {
   "property": "C15",
   "status": "proved",
   "theorems": [
    "C15_big_endian_limit",
    "C15_empty",
    "C15_following_field_limit",
    "C15_big_endian",
    "C15_little_endian"
   ],
   "note": "C15_big_endian_limit, C15_following_field_limit: concrete wrong results."
  },
  {
   "property": "C16",
   "status": "proved",
   "theorems": [
    "C16_array_after_field_limit",
    "C16_position_ignored",
    "C16_array_first",
    "C16_bytes",
    "C16_ints",
    "C16_pack_size",
    "C16_unpack_size"
   ],
   "note": "C16_position_ignored is the general form of the failure, C16_array_after_field_limit a concrete one."
  },
  {
   "property": "C17",
   "status": "proved",
   "theorems": [
    "C17_get_words",
    "C17_put_bits_limit",
    "C17_put_bits",
    "C17_put_bits_any"
   ],
   "note": "put_bytes/put_ints do not exist in the code. C17_put_bits_limit: concrete loss."
  },
  {
   "property": "C18",
   "status": "proved",
   "theorems": [
    "C18_clog2",
    "C18_get_after_set",
    "C18_get_after_clear",
    "C18_bad_arguments_raise",
    "C18_vector_of_ones"
   ],
   "note": "clog2 is proved for every integer with sufficient fuel, i.e. the loop terminates."
  },
  {
   "property": "C19",
   "status": "proved",
   "theorems": [
    "C19_two_holders_limit",
    "C19_several_keys_limit",
    "C19_blocked_with_key_available_limit",
    "C19_accounting",
    "C19_never_more",
    "C19_put_several_limit",
    "C19_conservation",
    "C19_mutex",
    "C19_no_lost_wakeup"
   ],
   "note": "The _limit theorems are the executions showing that the restrictions are needed."
  },
  {
   "property": "C20",
   "status": "proved",
   "theorems": [
    "C20_unanchored_limit",
    "C20_match",
    "C20_no_false_negative",
    "C20_starred"
   ],
   "note": "The match is not anchored: C20_unanchored_limit. Patterns with other regular expression operators and /regex/ patterns are outside the model."
  },
  {
   "property": "C21",
   "status": "proved",
   "theorems": [
    "C21_values_fit"
   ],
   "note": "All histories of set/reset/set_reset/predict/set_access/randomize."
  },
  {
   "property": "C22",
   "status": "proved",
   "theorems": [
    "C22_write_prediction"
   ],
   "note": "XpredictX under every policy and map; the byte-enable case is recorded under C29."
  },
  {
   "property": "C23",
   "status": "proved",
   "theorems": [
    "C23_read_prediction"
   ],
   "note": "Bitwise against the documented policy table."
  },
  {
   "property": "C24",
   "status": "proved",
   "theorems": [
    "C24_set_update",
    "C24_no_update"
   ],
   "note": "Register level: any layout of fields with arbitrary histories. Clear-/set-on-write fields are only covered if they differ from their mirror (writing them has a fixed effect)."
  },
  {
   "property": "C25",
   "status": "proved",
   "theorems": [
    "C25_write_once"
   ],
   "note": "Predicted front-door writes, sets, soft resets in any order."
  },
  {
   "property": "C26",
   "status": "proved",
   "theorems": [
    "C26_write_only",
    "C26_write_only_inert",
    "C26_write_once_used",
    "C26_read_only_write_once_limit",
    "C26_read_only",
    "C26_read_only_reads"
   ],
   "note": "C26_read_only_write_once_limit: a write through a read-only map makes the later real write of a write-once field ineffective in the mirror. User-defined policies excluded."
  },
  {
   "property": "C27",
   "status": "proved",
   "theorems": [
    "C27_sorted",
    "C27_disjoint",
    "C27_overlap_reported",
    "C27_outside_limit"
   ],
   "note": "C27_outside_limit is a field lying outside an 8-bit register, accepted without error."
  },
  {
   "property": "C28",
   "status": "proved",
   "theorems": [
    "C28_get_composition",
    "C28_get_after_set"
   ],
   "note": "Bitwise."
  },
  {
   "property": "C29",
   "status": "proved",
   "theorems": [
    "C29_field_byte_disabled",
    "C29_byte_enable",
    "C29_busy",
    "C29_byte_enable_limit",
    "C29_write",
    "C29_read"
   ],
   "note": "C29_byte_enable_limit: when it raises, earlier fields are already updated."
  },
  {
   "property": "C30",
   "status": "proved",
   "theorems": [
    "C30_lossless",
    "C30_slices",
    "C30_three_level_limit"
   ],
   "note": "C30_three_level_limit: with three splitting levels the addresses repeat and the value is lost."
  },
  {
   "property": "C31",
   "status": "proved",
   "theorems": [
    "C31_flat_map",
    "C31_fifo",
    "C31_addresses",
    "C31_endian_same_set",
    "C31_disjoint",
    "C31_distinct",
    "C31_three_level_limit",
    "C31_mixed_limit"
   ],
   "note": "C31_three_level_limit and C31_mixed_limit show that the conditions are needed."
  },
  {
   "property": "C32",
   "status": "proved",
   "theorems": [
    "C32_lookup_sound",
    "C32_lookup_unique",
    "C32_lookup_shared",
    "C32_lookup_absent",
    "C32_submap_entries"
   ],
   "note": "Soundness for all register trees; unique and RO/WO-shared addresses found in both directions."
  },
  {
   "property": "C33",
   "status": "proved",
   "theorems": [
    "C33_reset_limit",
    "C33_late_release_limit",
    "C33_mutual_exclusion",
    "C33_progress",
    "C33_refused_write",
    "C33_kept"
   ],
   "note": "Proved for every schedule; C33_refused_write for refused writes, C33_kept for operations never left; C33_reset_limit and C33_late_release_limit show the conditions are needed."
  },
  {
   "property": "C34",
   "status": "proved",
   "theorems": [
    "C34_by_type_terminates",
    "C34_by_name_terminates",
    "C34_after_first_loop",
    "C34_index_error_limit",
    "C34_duplicate_names_limit"
   ],
   "note": "C34_duplicate_names_limit: two types of one name can make it recurse for ever. C34_index_error_limit: the IndexError is reachable."
  },
  {
   "property": "C35",
   "status": "proved",
   "theorems": [
    "C35_instance_first",
    "C35_type_override",
    "C35_by_name_limit",
    "C35_by_name"
   ],
   "note": "C35_by_name_limit: after a type override by name, a request by name ignores the instance override. Instance overrides by name are not implemented in the code."
  },
  {
   "property": "C36",
   "status": "proved",
   "theorems": [
    "C36_chain"
   ],
   "note": "Chains of any length; which override is applicable (instance before type, latest replacing) is C35."
  },
  {
   "property": "C37",
   "status": "proved",
   "theorems": [
    "C37_highest_precedence",
    "C37_resource_db"
   ],
   "note": "All pool states; resource database refined to a list of values for every history of set and write_by_name."
  },
  {
   "property": "C38",
   "status": "proved",
   "theorems": [
    "C38_search_order",
    "C38_last_set_limit",
    "C38_highest",
    "C38_last",
    "C38_new_key",
    "C38_single_key"
   ],
   "note": "C38_search_order is exact for every history; C38_last_set_limit: repeating a set makes an older one win."
  },
  {
   "property": "C39",
   "status": "proved",
   "theorems": [
    "C39_read_only",
    "C39_write",
    "C39_only_flag"
   ],
   "note": "Every interleaving of resource, resource database and configuration database calls."
  },
  {
   "property": "C40",
   "status": "proved",
   "theorems": [
    "C40_totals",
    "C40_totals_cover",
    "C40_accounting",
    "C40_totals_limit"
   ],
   "note": "C40_totals_limit: a raise beneath a draining object leaves a wrong total for good."
  },
  {
   "property": "C41",
   "status": "proved",
   "theorems": [
    "C41_never_negative",
    "C41_refused",
    "C41_accepted"
   ],
   "note": ""
  },
  {
   "property": "C42",
   "status": "proved",
   "theorems": [
    "C42_background_terminates",
    "C42_quiet_iff",
    "C42_drained",
    "C42_every_drain_limit"
   ],
   "note": "C42_every_drain_limit: two drops before the background process runs strand the second drain for ever."
  },
  {
   "property": "C43",
   "status": "proved",
   "theorems": [
    "C43_zero_means_none",
    "C43_told_means_none",
    "C43_reraise_limit"
   ],
   "note": "C43_reraise_limit is the execution for the last sentence."
  },
  {
   "property": "C44",
   "status": "proved",
   "theorems": [
    "C44_counts",
    "C44_sums"
   ],
   "note": "Any handlers, catcher queues and catchers issuing messages themselves; also arbitrary set/reset calls on the counts."
  },
  {
   "property": "C45",
   "status": "proved",
   "theorems": [
    "C45_quit",
    "C45_first",
    "C45_zero",
    "C45_counted",
    "C45_raises",
    "C45_max"
   ],
   "note": "Recorded messages raise (C83)."
  },
  {
   "property": "C46",
   "status": "proved",
   "theorems": [
    "C46_method",
    "C46_macro_root",
    "C46_macro_limit",
    "C46_macro",
    "C46_context",
    "C46_errors"
   ],
   "note": "C46_macro_limit: both wrong outcomes of the plain macros."
  },
  {
   "property": "C47",
   "status": "proved",
   "theorems": [
    "C47_action",
    "C47_file_found",
    "C47_file",
    "C47_file_limit",
    "C47_frame",
    "C47_frame_file"
   ],
   "note": "C47_file_found is exact; C47_file_limit shows the effect of a 0 setting."
  },
  {
   "property": "C48",
   "status": "proved",
   "theorems": [
    "C48_override",
    "C48_override_lost",
    "C48_override_limit",
    "C48_executed"
   ],
   "note": "C48_override_limit: a concrete message losing its severity override."
  },
  {
   "property": "C49",
   "status": "proved",
   "theorems": [
    "C49_order",
    "C49_no_exception",
    "C49_set_action_limit",
    "C49_other_callback_limit"
   ],
   "note": "C49_set_action_limit: an action explicitly set to the old default is replaced. C49_other_callback_limit: a callback that is not a catcher behind a catcher raises."
  },
  {
   "property": "C50",
   "status": "proved",
   "theorems": [
    "C50_fifo",
    "C50_oldest_relevant",
    "C50_served",
    "C50_once",
    "C50_grant_delivered"
   ],
   "note": "Proved for every history of the modelled sequencer (requests, grants, exits, driver calls), FIFO mode; relevance is an arbitrary oracle per driver call."
  },
  {
   "property": "C51",
   "status": "proved",
   "theorems": [
    "C51_not_blocked",
    "C51_no_lock_held",
    "C51_stuck"
   ],
   "note": "grant_queued_locks slices a UVMQueue, which raises TypeError (see C08)."
  },
  {
   "property": "C52",
   "status": "proved",
   "theorems": [
    "C52_queue",
    "C52_routed",
    "C52_delivered",
    "C52_got",
    "C52_get",
    "C52_lost_limit"
   ],
   "note": "C52_lost_limit is the execution for the last sentence."
  },
  {
   "property": "C53",
   "status": "proved",
   "theorems": [
    "C53_is_on",
    "C53_wait_on",
    "C53_trigger_wakes",
    "C53_reset_loses_waiters",
    "C53_wait_off",
    "C53_wait_on_blocks"
   ],
   "note": "Schedules without callbacks (with callbacks trigger() does nothing: C54)."
  },
  {
   "property": "C54",
   "status": "proved",
   "theorems": [
    "C54_no_callbacks",
    "C54_never_triggers"
   ],
   "note": "bool + value is never the object False."
  },
  {
   "property": "C55",
   "status": "proved",
   "theorems": [
    "C55_get_to_lock",
    "C55_simple_lock",
    "C55_locked_value_stays",
    "C55_set_before_get"
   ],
   "note": "All three policies, every history."
  },
  {
   "property": "C56",
   "status": "proved",
   "theorems": [
    "C56_distance",
    "C56_empty"
   ],
   "note": "For all non-empty strings; edit scripts are chains of single-character edits."
  },
  {
   "property": "C57",
   "status": "proved",
   "theorems": [
    "C57_iterate",
    "C57_typewide",
    "C57_once",
    "C57_registered",
    "C57_twice",
    "C57_none",
    "C57_next",
    "C57_untyped",
    "C57_disabled_limit",
    "C57_typewide_lost",
    "C57_typewide_raises",
    "C57_pool_used",
    "C57_none_limit"
   ],
   "note": "C57_none_limit: typed iteration of None visits nothing."
  },
  {
   "property": "C58",
   "status": "proved",
   "theorems": [
    "C58_predecessors",
    "C58_sequence",
    "C58_once"
   ],
   "note": "Over the machine of PhaseRunModel: jumps and sync are not implemented by the library and are left out; objections are one step that ends at an arbitrary time."
  },
  {
   "property": "C59",
   "status": "proved",
   "theorems": [
    "C59_progress",
    "C59_terminates",
    "C59_standard_graph",
    "C59_function_siblings_deadlock",
    "C59_key_error_deadlock",
    "C59_three_tasks_deadlock"
   ],
   "note": "C59_progress and C59_terminates cover the graphs of the statement, C59_standard_graph the concrete UVM graph; the theorems named _deadlock show that the side conditions are needed (two of them for every graph, three tasks as a concrete schedule)."
  },
  {
   "property": "C60",
   "status": "proved",
   "theorems": [
    "C60_before",
    "C60_after",
    "C60_with",
    "C60_parallel_keyerror",
    "C60_between_adjacent_keyerror",
    "C60_linear",
    "C60_query",
    "C60_query_sound"
   ],
   "note": "C60_before/after/with: insertion into any unshared acyclic graph. C60_linear + C60_query: any construction history of a linear schedule refines list insertion. C60_parallel_keyerror, C60_between_adjacent_keyerror: general theorems on the error cases; C60_query_branching: concrete incompleteness."
  },
  {
   "property": "C61",
   "status": "proved",
   "theorems": [
    "C61_fitting",
    "C61_all_bits",
    "C61_wide"
   ],
   "note": "The mask is computed by shifting -1, which stays -1."
  },
  {
   "property": "C62",
   "status": "proved",
   "theorems": [
    "C62_pairs",
    "C62_complete",
    "C62_counts",
    "C62_builtin_counts",
    "C62_not_false",
    "C62_int_policy"
   ],
   "note": "Binding of the exports is C63."
  },
  {
   "property": "C63",
   "status": "proved",
   "theorems": [
    "C63_terminates",
    "C63_broadcast",
    "C63_order_independent",
    "C63_late",
    "C63_names_needed",
    "C63_cycle_diverges"
   ],
   "note": "Names and cycles outside the quantifier are covered by C63_names_needed (a provider is lost when full names clash) and C63_cycle_diverges (connect accepts a cycle; resolution recurses without end)."
  },
  {
   "property": "C64",
   "status": "proved",
   "theorems": [
    "C64_balanced",
    "C64_bracket_name",
    "C64_separator",
    "C64_string",
    "C64_argument",
    "C64_argument_element",
    "C64_set",
    "C64_unset_arg"
   ],
   "note": ""
  },
  {
   "property": "C65",
   "status": "proved",
   "theorems": [
    "C65_topdown",
    "C65_bottomup",
    "C65_task"
   ],
   "note": ""
  },
  {
   "property": "C66",
   "status": "proved",
   "theorems": [
    "C66_capacity",
    "C66_queue"
   ],
   "note": "C66_queue covers every history of set, predictions, get and read, also while a read is on the bus; write() and update() are C102 and C103. One update() at a time, byte enables all ones, no user callbacks."
  },
  {
   "property": "C67",
   "status": "proved",
   "theorems": [
    "C67_two",
    "C67_long"
   ],
   "note": ""
  },
  {
   "property": "C68",
   "status": "proved",
   "theorems": [
    "C68_requests",
    "C68_responses",
    "C68_analysis_ports",
    "C68_all_received"
   ],
   "note": "For every interleaving of calls through all exports. Items are attributed to the latest call of their process; the exports' forwarding is modelled, port binding is not (C63)."
  },
  {
   "property": "C69",
   "status": "proved",
   "theorems": [
    "C69_copy_limit",
    "C69_queues_independent",
    "C69_copy_shared",
    "C69_copy_equal"
   ],
   "note": "C69_copy_limit: a concrete push on the copy seen in the original."
  },
  {
   "property": "C70",
   "status": "proved",
   "theorems": [
    "C70_print",
    "C70_print_rest",
    "C70_print_limit"
   ],
   "note": "Exact for every content and position."
  },
  {
   "property": "C71",
   "status": "proved",
   "theorems": [
    "C71_string_pool_get",
    "C71_string_pool_delete",
    "C71_string_pool_delete_absent"
   ],
   "note": "delete calls itself on the same key (general theorem for every fuel)."
  },
  {
   "property": "C72",
   "status": "proved",
   "theorems": [
    "C72_slice_limit",
    "C72_slice"
   ],
   "note": "C72_slice_limit: a concrete wrong value."
  },
  {
   "property": "C73",
   "status": "proved",
   "theorems": [
    "C73_wide_big_endian",
    "C73_wide_little_endian",
    "C73_wide_little_endian_limit",
    "C73_negative_diverges"
   ],
   "note": "C73_wide_little_endian_limit: a neighbouring field read back wrongly."
  },
  {
   "property": "C74",
   "status": "proved",
   "theorems": [
    "C74_write"
   ],
   "note": "Front door, automatic prediction, no user callbacks."
  },
  {
   "property": "C75",
   "status": "proved",
   "theorems": [
    "C75_write_only_compared_limit",
    "C75_check"
   ],
   "note": "C75_write_only_compared_limit: a write-only field fails the check."
  },
  {
   "property": "C76",
   "status": "proved",
   "theorems": [
    "C76_reset",
    "C76_unknown_kind"
   ],
   "note": "All layouts."
  },
  {
   "property": "C77",
   "status": "proved",
   "theorems": [
    "C77_access_summary"
   ],
   "note": "Exact characterisation for every list of fields."
  },
  {
   "property": "C78",
   "status": "proved",
   "theorems": [
    "C78_failure_stops",
    "C78_read_failure",
    "C78_burst_status",
    "C78_burst_limit"
   ],
   "note": "C78_burst_limit: a failed burst with status OK."
  },
  {
   "property": "C79",
   "status": "proved",
   "theorems": [
    "C79_move",
    "C79_shared",
    "C79_default_keeps",
    "C79_default_limit"
   ],
   "note": "C79_default_keeps is general; C79_default_limit a concrete stale lookup."
  },
  {
   "property": "C80",
   "status": "proved",
   "theorems": [
    "C80_element_addresses",
    "C80_burst",
    "C80_single_element"
   ],
   "note": ""
  },
  {
   "property": "C81",
   "status": "proved",
   "theorems": [
    "C81_set_policy",
    "C81_noaccess_set",
    "C81_noaccess_limit"
   ],
   "note": "C81_noaccess_limit: a NOACCESS field whose desired value changes."
  },
  {
   "property": "C82",
   "status": "proved",
   "theorems": [
    "C82_object_ignored",
    "C82_none_sets_top",
    "C82_drain_time_limit"
   ],
   "note": "The assignment is inside the branch for a missing object. C82_drain_time_limit: a concrete ignored setting."
  },
  {
   "property": "C83",
   "status": "proved",
   "theorems": [
    "C83_shown",
    "C83_twice_limit",
    "C83_record"
   ],
   "note": "C83_twice_limit: a message shown twice."
  },
  {
   "property": "C84",
   "status": "proved",
   "theorems": [
    "C84_reset",
    "C84_survive",
    "C84_reset_limit"
   ],
   "note": "C84_survive gives the exact result; C84_reset_limit a concrete survivor."
  },
  {
   "property": "C85",
   "status": "proved",
   "theorems": [
    "C85_counters"
   ],
   "note": "For every message whose processing does not end in an exception inside a catcher."
  },
  {
   "property": "C86",
   "status": "proved",
   "theorems": [
    "C86_never_again",
    "C86_raise_sticks",
    "C86_limit",
    "C86_reset"
   ],
   "note": "C86_limit: a concrete history."
  },
  {
   "property": "C87",
   "status": "proved",
   "theorems": [
    "C87_handshake",
    "C87_stream",
    "C87_try_limit"
   ],
   "note": "C87_try_limit: try_next_item after peek makes two grants and the request FIFO overflows."
  },
  {
   "property": "C88",
   "status": "proved",
   "theorems": [
    "C88_random",
    "C88_modes"
   ],
   "note": "First-in-first-out mode is C50."
  },
  {
   "property": "C89",
   "status": "proved",
   "theorems": [
    "C89_not_early",
    "C89_done",
    "C89_unseen_limit",
    "C89_overtaken_limit"
   ],
   "note": "C89_unseen_limit and C89_overtaken_limit are the executions for the last sentence."
  },
  {
   "property": "C90",
   "status": "proved",
   "theorems": [
    "C90_wait_trigger",
    "C90_stale_trigger"
   ],
   "note": "C90_stale_trigger is general in what happens in between (only cancels and wait_on calls)."
  },
  {
   "property": "C91",
   "status": "proved",
   "theorems": [
    "C91_ptrigger",
    "C91_ptrigger_lost"
   ],
   "note": ""
  },
  {
   "property": "C92",
   "status": "proved",
   "theorems": [
    "C92_add_callback",
    "C92_add_first_dropped",
    "C92_nodup",
    "C92_delete"
   ],
   "note": ""
  },
  {
   "property": "C93",
   "status": "proved",
   "theorems": [
    "C93_answer",
    "C93_never_suggests"
   ],
   "note": "max_val is 1, so no alternative is below the limit."
  },
  {
   "property": "C94",
   "status": "proved",
   "theorems": [
    "C94_leaf",
    "C94_no_separator",
    "C94_single",
    "C94_leading_dot",
    "C94_brackets",
    "C94_all_bracket",
    "C94_all_bracket_limit"
   ],
   "note": ""
  },
  {
   "property": "C95",
   "status": "proved",
   "theorems": [
    "C95_unsigned",
    "C95_decimal",
    "C95_wrong_cases"
   ],
   "note": "Python's own digit formatting is trusted."
  },
  {
   "property": "C96",
   "status": "proved",
   "theorems": [
    "C96_index",
    "C96_bare",
    "C96_wildcard"
   ],
   "note": ""
  },
  {
   "property": "C97",
   "status": "proved",
   "theorems": [
    "C97_copy",
    "C97_self_reference_limit",
    "C97_cycle_limit",
    "C97_frame"
   ],
   "note": "With cycles: C97_self_reference_limit (a self reference leaves the global copy map filled, so later copies of that object do nothing) and C97_cycle_limit (endless recursion)."
  },
  {
   "property": "C98",
   "status": "proved",
   "theorems": [
    "C98_compare",
    "C98_shared_limit",
    "C98_none_limit",
    "C98_other_limit",
    "C98_string_limit",
    "C98_nested_do_compare_limit",
    "C98_check_type",
    "C98_reference"
   ],
   "note": "The _limit theorems show what happens otherwise: sharing on the right gives False for equal objects one way round, None or lists on the left are ignored, differing strings raise, do_compare of nested objects is ignored. Differing classes below the top are not covered."
  },
  {
   "property": "C99",
   "status": "proved",
   "theorems": [
    "C99_copy_compare",
    "C99_copy_compare_back",
    "C99_shared_limit"
   ],
   "note": "C99_shared_limit: with an object held twice, b.compare(a) is False."
  },
  {
   "property": "C100",
   "status": "proved",
   "theorems": [
    "C100_unrelated",
    "C100_derived",
    "C100_base_copy"
   ],
   "note": ""
  },
  {
   "property": "C101",
   "status": "proved",
   "theorems": [
    "C101_pairs",
    "C101_complete",
    "C101_counts"
   ],
   "note": "Built on C62."
  },
  {
   "property": "C102",
   "status": "proved",
   "theorems": [
    "C102_write",
    "C102_phantom",
    "C102_full"
   ],
   "note": "write() calls set(), so pre_write always finds values not yet updated."
  },
  {
   "property": "C103",
   "status": "proved",
   "theorems": [
    "C103_exact",
    "C103_too_many",
    "C103_full",
    "C103_raise_limit",
    "C103_randomize"
   ],
   "note": "C103_exact gives the exact sequence for every state."
  },
  {
   "property": "C104",
   "status": "proved",
   "theorems": [
    "C104_count",
    "C104_get_if",
    "C104_single"
   ],
   "note": ""
  },
  {
   "property": "C105",
   "status": "proved",
   "theorems": [
    "C105_alone",
    "C105_nested_limit"
   ],
   "note": "C105_nested_limit is the endless walk."
  },
  {
   "property": "C106",
   "status": "proved",
   "theorems": [
    "C106_nonneg",
    "C106_waiters",
    "C106_defined",
    "C106_count_limit"
   ],
   "note": ""
  },
  {
   "property": "C107",
   "status": "proved",
   "theorems": [
    "C107_history",
    "C107_defined",
    "C107_any_order",
    "C107_byte_enable_limit",
    "C107_mixed_limit",
    "C107_repeated"
   ],
   "note": "C107_byte_enable_limit: with the byte enables of the bus word the prediction raises and the access stays pending. C107_mixed_limit: a read of one word and a write of the other are one access. C107_repeated: registers with repeated addresses."
  },
  {
   "property": "C108",
   "status": "proved",
   "theorems": [
    "C108_write",
    "C108_write_as_auto",
    "C108_read",
    "C108_width_limit"
   ],
   "note": "C108_width_limit: below a wider top map the value is garbled."
  },
  {
   "property": "C109",
   "status": "proved",
   "theorems": [
    "C109_front",
    "C109_in_range",
    "C109_beyond",
    "C109_beyond_read",
    "C109_burst_past_end",
    "C109_burst_read",
    "C109_poke_peek",
    "C109_back_door_burst",
    "C109_no_back_door",
    "C109_outside_limit"
   ],
   "note": "Front door, HDL back door without slices; user-defined doors and callbacks are left out."
  },
  {
   "property": "C110",
   "status": "proved",
   "theorems": [
    "C110_detects",
    "C110_correct",
    "C110_through_map",
    "C110_read_failure",
    "C110_restore_failure",
    "C110_refused_limit"
   ],
   "note": "The device is any function of addresses with stuck-at faults; C110_through_map ties it to the map model."
  },
  {
   "property": "C111",
   "status": "proved",
   "theorems": [
    "C111_stuck",
    "C111_decoding",
    "C111_draw",
    "C111_raise_last",
    "C111_read_only",
    "C111_wide_limit",
    "C111_rights_limit"
   ],
   "note": "ModeRO is a model constant (peek called with an integer as output list raises) and only shown as an example."
  },
  {
   "property": "C112",
   "status": "proved",
   "theorems": [
    "C112_overlap",
    "C112_range",
    "C112_nested_limit"
   ],
   "note": "The report itself formats Python builtins and raises, so refusing is the observable effect."
  },
  {
   "property": "C113",
   "status": "proved",
   "theorems": [
    "C113_order",
    "C113_completes",
    "C113_exclusive",
    "C113_restart",
    "C113_refused",
    "C113_exception",
    "C113_wait",
    "C113_priority"
   ],
   "note": "Recording and the response queue are left out; kill() does not exist in the library."
  },
  {
   "property": "C114",
   "status": "proved",
   "theorems": [
    "C114_balanced",
    "C114_window",
    "C114_outside",
    "C114_finished",
    "C114_after",
    "C114_overlap_limit"
   ],
   "note": "One starting phase object per value; the objection mechanism itself is C40-C43."
  },
  {
   "property": "C115",
   "status": "proved",
   "theorems": [
    "C115_registered",
    "C115_children",
    "C115_fresh",
    "C115_distinct",
    "C115_no_id",
    "C115_overlap_limit",
    "C115_parent_limit",
    "C115_stale_parent_limit",
    "C115_priority_limit"
   ],
   "note": "One sequencer; registration of other sequences is the label LOther."
  },
  {
   "property": "C116",
   "status": "proved",
   "theorems": [
    "C116_path",
    "C116_unique",
    "C116_depth",
    "C116_root_depth",
    "C116_stable",
    "C116_set_name",
    "C116_new",
    "C116_number",
    "C116_children",
    "C116_iteration",
    "C116_dotted_limit"
   ],
   "note": "Names, children, constructor refusals and iteration for all call histories."
  },
  {
   "property": "C117",
   "status": "proved",
   "theorems": [
    "C117_relative",
    "C117_absolute",
    "C117_round_trip",
    "C117_any",
    "C117_dots_limit"
   ],
   "note": "Relative, absolute, round trip and arbitrary strings; limits by concrete executions."
  },
  {
   "property": "C118",
   "status": "proved",
   "theorems": [
    "C118_find_all",
    "C118_order",
    "C118_frame",
    "C118_find",
    "C118_find_parent",
    "C118_iteration_limit"
   ],
   "note": "find_all exact, ordered and framed; find derived from it; iteration limit by a concrete execution."
  },
  {
   "property": "C119",
   "status": "proved",
   "theorems": [
    "C119_sound",
    "C119_write_once_limit",
    "C119_too_wide"
   ],
   "note": "Soundness over an abstract design given by laws; limit and width cases by theorem and concrete execution."
  },
  {
   "property": "C120",
   "status": "proved",
   "theorems": [
    "C120_detects",
    "C120_wiring",
    "C120_coupling_limit",
    "C120_tested"
   ],
   "note": "Exact characterisation for read/write fields, corollary for wirings; coupling limit by a concrete design."
  },
  {
   "property": "C121",
   "status": "proved",
   "theorems": [
    "C121_register",
    "C121_mirror",
    "C121_blocks",
    "C121_submap_first_limit"
   ],
   "note": "Per register exact; traversal counted exactly; submap limit for all trees."
  },
  {
   "property": "C122",
   "status": "proved",
   "theorems": [
    "C122_blocks",
    "C122_inside"
   ],
   "note": "Exact multiplicities."
  },
  {
   "property": "C123",
   "status": "proved",
   "theorems": [
    "C123_lines",
    "C123_forward",
    "C123_freed",
    "C123_closed_db",
    "C123_close_twice_limit"
   ],
   "note": "Proved for every history; closing twice shown by a concrete execution."
  },
  {
   "property": "C124",
   "status": "proved",
   "theorems": [
    "C124_lookup",
    "C124_handle",
    "C124_freed_handle_limit"
   ],
   "note": "Proved for histories that ask no freed recorder for its handle; the limit is a concrete execution."
  },
  {
   "property": "C125",
   "status": "proved",
   "theorems": [
    "C125_recorders",
    "C125_end",
    "C125_new",
    "C125_accept",
    "C125_begin",
    "C125_disable_limit"
   ],
   "note": "Proved for every history of transaction calls without switching recording off; the limit is a concrete execution."
  },
  {
   "property": "C126",
   "status": "proved",
   "theorems": [
    "C126_begin",
    "C126_end",
    "C126_kept",
    "C126_main_once",
    "C126_no_link",
    "C126_leak_limit"
   ],
   "note": "begin_tr()/end_tr() effects for transactions that do not record themselves; main stream, kept recorder and links for every history."
  },
  {
   "property": "C127",
   "status": "proved",
   "theorems": [
    "C127_reach",
    "C127_children",
    "C127_all",
    "C127_failure"
   ],
   "note": "Exact set under the stated hypotheses on register updates (instance given); reach and missing success for any register behaviour."
  },
  {
   "property": "C128",
   "status": "proved",
   "theorems": [
    "C128_reset",
    "C128_needs",
    "C128_mirror",
    "C128_mirror_all"
   ],
   "note": "Proved for every tree and register behaviour."
  },
  {
   "property": "C129",
   "status": "proved",
   "theorems": [
    "C129_registers",
    "C129_found",
    "C129_missing"
   ],
   "note": "Proved for every tree and naming."
  },
  {
   "property": "C130",
   "status": "proved",
   "theorems": [
    "C130_lock",
    "C130_closed",
    "C130_registers",
    "C130_frozen",
    "C130_add",
    "C130_add_reg",
    "C130_once"
   ],
   "note": "Proved for every history, cyclic block graphs included."
  },
  {
   "property": "C131",
   "status": "proved",
   "theorems": [
    "C131_block",
    "C131_register",
    "C131_no_parent",
    "C131_in_file"
   ],
   "note": "Proved for every hierarchy; the parts are specified independently of the code."
  },
  {
   "property": "C132",
   "status": "proved",
   "theorems": [
    "C132_rows",
    "C132_element_limit"
   ],
   "note": "Proved for every graph and depth limit with plain names (the relation of rows is shown to be deterministic); the limit is a concrete execution."
  },
  {
   "property": "C133",
   "status": "proved",
   "theorems": [
    "C133_brackets",
    "C133_rows",
    "C133_values",
    "C133_object"
   ],
   "note": "Proved for every sequence of rows and, with C132, for every printed object."
  },
  {
   "property": "C134",
   "status": "proved",
   "theorems": [
    "C134_columns",
    "C134_wide_limit"
   ],
   "note": "Proved for every table below the width; the limit is a concrete table."
  },
  {
   "property": "C135",
   "status": "proved",
   "theorems": [
    "C135_history"
   ],
   "note": "Proved for every history; the quotient is taken exact (floating point below 2^53)."
  },
  {
   "property": "C136",
   "status": "proved",
   "theorems": [
    "C136_values",
    "C136_first",
    "C136_matches",
    "C136_classes"
   ],
   "note": "Proved for every command line; regular expressions are a parameter."
  },
  {
   "property": "C137",
   "status": "proved",
   "theorems": [
    "C137_told",
    "C137_determined",
    "C137_short"
   ],
   "note": "Proved for every command line; matching, regular expressions and integer parsing are parameters; the relations that say what a line means are shown to be deterministic."
  },
  {
   "property": "C138",
   "status": "proved",
   "theorems": [
    "C138_told",
    "C138_determined"
   ],
   "note": "Proved for every command line; matching, regular expressions and integer parsing are parameters; the relations that say what a line means are shown to be deterministic."
  },
  {
   "property": "C139",
   "status": "proved",
   "theorems": [
    "C139_told",
    "C139_later",
    "C139_malformed"
   ],
   "note": "Proved for every set of lines; the last clause is a concrete execution."
  },
  {
   "property": "C140",
   "status": "proved",
   "theorems": [
    "C140_times",
    "C140_on_time"
   ],
   "note": "Proved for every list of settings."
  },
  {
   "property": "C141",
   "status": "proved",
   "theorems": [
    "C141_config",
    "C141_determined"
   ],
   "note": "Proved for every command line; matching, regular expressions and integer parsing are parameters; the relations that say what a line means are shown to be deterministic."
  },
  {
   "property": "C142",
   "status": "proved",
   "theorems": [
    "C142_quit",
    "C142_no_protection",
    "C142_protected",
    "C142_timeout"
   ],
   "note": "Proved for every value and state; the scan of the time-out is a parameter."
  },
  {
   "property": "C143",
   "status": "proved",
   "theorems": [
    "C143_permutation",
    "C143_stable",
    "C143_order",
    "C143_highest_first",
    "C143_limit"
   ],
   "note": "Proved for every list; the failure of the documented order is a concrete list."
  },
  {
   "property": "C144",
   "status": "proved",
   "theorems": [
    "C144_visible",
    "C144_order",
    "C144_names"
   ],
   "note": "Proved for every reachable pool; scope matching is a parameter."
  },
  {
   "property": "C145",
   "status": "proved",
   "theorems": [
    "C145_value",
    "C145_single",
    "C145_rest",
    "C145_total",
    "C145_substring_limit"
   ],
   "note": "Proved for every component and list of resources whose names have no regular expression characters."
  },
  {
   "property": "C146",
   "status": "proved",
   "theorems": [
    "C146_agree",
    "C146_older_limit",
    "C146_lower_limit"
   ],
   "note": "Proved for every reachable pool; the differences are concrete executions."
  },
  {
   "property": "C147",
   "status": "proved",
   "theorems": [
    "C147_sets",
    "C147_only",
    "C147_raises_limit"
   ],
   "note": "Proved for every object graph, for clone false."
  },
  {
   "property": "C148",
   "status": "proved",
   "theorems": [
    "C148_ignored_limit",
    "C148_first"
   ],
   "note": "Proved for every list of resources."
  },
  {
   "property": "C149",
   "status": "proved",
   "theorems": [
    "C149_layout",
    "C149_little_endian",
    "C149_big_endian",
    "C149_reference"
   ],
   "note": "Proved for every object structure; fuel is existential."
  },
  {
   "property": "C150",
   "status": "proved",
   "theorems": [
    "C150_unpack",
    "C150_round_trip",
    "C150_even_limit",
    "C150_same_packer"
   ],
   "note": "Proved for every object structure and bit stream."
  },
  {
   "property": "C151",
   "status": "proved",
   "theorems": [
    "C151_marked",
    "C151_left_out",
    "C151_until",
    "C151_cleared",
    "C151_balanced",
    "C151_ends"
   ],
   "note": "Proved for every object graph and sequence of calls."
  },
  {
   "property": "C152",
   "status": "proved",
   "theorems": [
    "C152_last_string",
    "C152_big_endian_limit",
    "C152_following_limit",
    "C152_empty"
   ],
   "note": "Proved for every string and prefix of fields; the failures of the default packer are concrete executions."
  },
  {
   "property": "C153",
   "status": "proved",
   "theorems": [
    "C153_clone",
    "C153_copy",
    "C153_shared"
   ],
   "note": "Proved for every history."
  },
  {
   "property": "C154",
   "status": "proved",
   "theorems": [
    "C154_write",
    "C154_lost"
   ],
   "note": "Proved for every reachable state; accesses run one after the other except that an object copy may come between index and data access."
  },
  {
   "property": "C155",
   "status": "proved",
   "theorems": [
    "C155_read"
   ],
   "note": "Proved for every reachable state, with the same restriction."
  },
  {
   "property": "C156",
   "status": "proved",
   "theorems": [
    "C156_status",
    "C156_stuck",
    "C156_ends"
   ],
   "note": "Proved for every reachable state and later history."
  },
  {
   "property": "C157",
   "status": "proved",
   "theorems": [
    "C157_create",
    "C157_same_name",
    "C157_later_class"
   ],
   "note": "Proved for every history: with overrides if type names are unique, without for any names."
  },
  {
   "property": "C158",
   "status": "proved",
   "theorems": [
    "C158_by_name",
    "C158_new_factory",
    "C158_reset",
    "C158_reset_overrides"
   ],
   "note": "Proved for every history."
  },
  {
   "property": "C159",
   "status": "proved",
   "theorems": [
    "C159_relative"
   ],
   "note": "Proved for every history and all paths of literal characters."
  },
  {
   "property": "C160",
   "status": "proved",
   "theorems": [
    "C160_chosen",
    "C160_driver",
    "C160_progress",
    "C160_value_limit",
    "C160_lock_limit"
   ],
   "note": "Proved for every interleaving. The limit theorem shows an execution in which is_relevant() returns 2."
  },
  {
   "property": "C161",
   "status": "proved",
   "theorems": [
    "C161_irrelevant"
   ],
   "note": "Proved for every history."
  },
  {
   "property": "C162",
   "status": "proved",
   "theorems": [
    "C162_raises",
    "C162_deaf",
    "C162_hears"
   ],
   "note": "Proved for every history."
  },
  {
   "property": "C163",
   "status": "proved",
   "theorems": [
    "C163_registered",
    "C163_own"
   ],
   "note": "Proved for every interleaving."
  },
  {
   "property": "C164",
   "status": "proved",
   "theorems": [
    "C164_never_returns",
    "C164_once",
    "C164_one_transfer",
    "C164_hangs",
    "C164_raises",
    "C164_taken"
   ],
   "note": "Proved for every interleaving; the raising part for a transfer from any reachable state."
  },
  {
   "property": "C165",
   "status": "proved",
   "theorems": [
    "C165_status",
    "C165_overflow"
   ],
   "note": "Proved for every interleaving."
  },
  {
   "property": "C166",
   "status": "proved",
   "theorems": [
    "C166_block",
    "C166_register",
    "C166_errors",
    "C166_slices",
    "C166_empty_limit"
   ],
   "note": "Proved for every hierarchy; C166_empty_limit shows the condition on empty paths is needed."
  },
  {
   "property": "C167",
   "status": "proved",
   "theorems": [
    "C167_write",
    "C167_differ"
   ],
   "note": "Proved for every register, hierarchy and value."
  },
  {
   "property": "C168",
   "status": "proved",
   "theorems": [
    "C168_read",
    "C168_differ",
    "C168_mirror_limit"
   ],
   "note": "Proved for every register, hierarchy and value; C168_mirror_limit shows that the mirror and the design differ afterwards."
  },
  {
   "property": "C169",
   "status": "proved",
   "theorems": [
    "C169_stuck",
    "C169_raises",
    "C169_front",
    "C169_no_block_path"
   ],
   "note": "Proved; every later sequence of calls."
  },
  {
   "property": "C170",
   "status": "proved",
   "theorems": [
    "C170_tested",
    "C170_sound",
    "C170_exact",
    "C170_stuck_limit",
    "C170_write_only"
   ],
   "note": "Proved for every design; C170_stuck_limit shows a stuck bit that passes."
  },
  {
   "property": "C171",
   "status": "proved",
   "theorems": [
    "C171_settings",
    "C171_said",
    "C171_top",
    "C171_in_force",
    "C171_ends"
   ],
   "note": "Proved for every history; C171_in_force gives the values in force."
  },
  {
   "property": "C172",
   "status": "proved",
   "theorems": [
    "C172_level",
    "C172_empty_id_limit"
   ],
   "note": "Proved for every history; C172_empty_id_limit shows the condition on the empty id is needed."
  },
  {
   "property": "C173",
   "status": "proved",
   "theorems": [
    "C173_domain",
    "C173_executes",
    "C173_flag_limit"
   ],
   "note": "Proved for every history; C173_flag_limit shows hier=1 and later components."
  },
  {
   "property": "C174",
   "status": "proved",
   "theorems": [
    "C174_pre_abort",
    "C174_all"
   ],
   "note": "Proved for every hierarchy, hooks that do not change it."
  },
  {
   "property": "C175",
   "status": "proved",
   "theorems": [
    "C175_order",
    "C175_own_callbacks",
    "C175_no_bus",
    "C175_modes",
    "C175_release"
   ],
   "note": "Proved for every register, hook and callback; C175_plain_limit: a plain function as pre_write raises TypeError."
  },
  {
   "property": "C176",
   "status": "proved",
   "theorems": [
    "C176_value",
    "C176_silent"
   ],
   "note": "Proved for every register with fields that do not overlap; C176_wide_limit shows the condition on widths is needed."
  },
  {
   "property": "C177",
   "status": "proved",
   "theorems": [
    "C177_order",
    "C177_value"
   ],
   "note": "Proved for every register, hook and callback."
  },
  {
   "property": "C178",
   "status": "proved",
   "theorems": [
    "C178_values",
    "C178_told",
    "C178_missing_write",
    "C178_missing_read"
   ],
   "note": "Proved for every register and callback."
  },
  {
   "property": "C179",
   "status": "proved",
   "theorems": [
    "C179_write",
    "C179_read"
   ],
   "note": "Proved for every register."
  },
  {
   "property": "C180",
   "status": "proved",
   "theorems": [
    "C180_parent",
    "C180_accept",
    "C180_ends",
    "C180_lists"
   ],
   "note": "Proved for every sequence of calls."
  },
  {
   "property": "C181",
   "status": "proved",
   "theorems": [
    "C181_in_map",
    "C181_local",
    "C181_keeps"
   ],
   "note": "Proved for every sequence of calls."
  },
  {
   "property": "C182",
   "status": "proved",
   "theorems": [
    "C182_refused",
    "C182_outcome",
    "C182_cases"
   ],
   "note": "Proved for every sequence of calls; C182_cases shows that C182_outcome always applies when a map is chosen."
  },
  {
   "property": "C183",
   "status": "proved",
   "theorems": [
    "C183_lock",
    "C183_late",
    "C183_subblock"
   ],
   "note": "Proved for every sequence of calls."
  },
  {
   "property": "C184",
   "status": "proved",
   "theorems": [
    "C184_sequencer",
    "C184_none",
    "C184_predict",
    "C184_check"
   ],
   "note": "Proved for every sequence of calls; C184_sub_limit shows a map losing its own settings when it becomes a submap."
  },
  {
   "property": "C185",
   "status": "proved",
   "theorems": [
    "C185_item",
    "C185_do",
    "C185_sticky"
   ],
   "note": "Proved for every history; C185_limit shows that the object made by the factory inside uvm_do only selects the branch."
  },
  {
   "property": "C186",
   "status": "proved",
   "theorems": [
    "C186_context",
    "C186_tree",
    "C186_no_error"
   ],
   "note": "Proved for every history; C186_limit shows a stale depth."
  },
  {
   "property": "C187",
   "status": "proved",
   "theorems": [
    "C187_names",
    "C187_endless",
    "C187_bound",
    "C187_tree"
   ],
   "note": "Proved for every state, and every tidy history; C187_limit is a cycle of two parents."
  },
  {
   "property": "C188",
   "status": "proved",
   "theorems": [
    "C188_start",
    "C188_parent",
    "C188_plain"
   ],
   "note": "Proved for every history; C188_limit shows the priority -1."
  },
  {
   "property": "C189",
   "status": "proved",
   "theorems": [
    "C189_full_name",
    "C189_domain_name",
    "C189_schedule",
    "C189_schedule_name",
    "C189_orphan",
    "C189_unique"
   ],
   "note": "Proved for every assignment of parents; the walk needs as many steps as schedules."
  },
  {
   "property": "C190",
   "status": "proved",
   "theorems": [
    "C190_found",
    "C190_not_found",
    "C190_ends"
   ],
   "note": "Proved for every graph; C190_ends needs a graph without cycles."
  },
  {
   "property": "C191",
   "status": "proved",
   "theorems": [
    "C191_found",
    "C191_self",
    "C191_not_found",
    "C191_ends"
   ],
   "note": "Proved for every graph; C191_limit is the choice that hides a phase."
  },
  {
   "property": "C192",
   "status": "proved",
   "theorems": [
    "C192_returns",
    "C192_not_missed",
    "C192_late",
    "C192_single_bits"
   ],
   "note": "Proved for every interleaving."
  },
  {
   "property": "C193",
   "status": "proved",
   "theorems": [
    "C193_phases",
    "C193_parallel",
    "C193_once",
    "C193_again",
    "C193_empty"
   ],
   "note": "Proved for every sequence of calls, by an invariant of the whole graph and its shared dictionaries; C193_limit shows the two excluded cases. A domain whose user overrides define_domain is not modelled."
  },
  {
   "property": "C194",
   "status": "proved",
   "theorems": [
    "C194_exact",
    "C194_reaches",
    "C194_late",
    "C194_ids"
   ],
   "note": "Proved for every history of calls by an invariant that orders all registrations; the two limits in brackets are examples C194_limit_*."
  },
  {
   "property": "C195",
   "status": "proved",
   "theorems": [
    "C195_numbers",
    "C195_distinct",
    "C195_kept",
    "C195_grants"
   ],
   "note": "Proved for every history; C195_limit shows the need for the condition."
  },
  {
   "property": "C196",
   "status": "proved",
   "theorems": [
    "C196_no_lost",
    "C196_sound",
    "C196_at_once",
    "C196_woken"
   ],
   "note": "Proved for every history; cocotb Event semantics are stated in WtModel.v."
  },
  {
   "property": "C197",
   "status": "proved",
   "theorems": [
    "C197_exact",
    "C197_content",
    "C197_count",
    "C197_between"
   ],
   "note": "Refinement to a model without events; proved for every history and any notion of equality of values."
  },
  {
   "property": "C198",
   "status": "proved",
   "theorems": [
    "C198_write",
    "C198_single",
    "C198_readonly",
    "C198_read"
   ],
   "note": "Proved for arbitrary hook, callback and data mover code that changes offset, values and status; changes of other attributes of the operation, e.g. the path, are not modelled."
  },
  {
   "property": "C199",
   "status": "proved",
   "theorems": [
    "C199_post_read",
    "C199_pre_read"
   ],
   "note": "Proved."
  },
  {
   "property": "C200",
   "status": "proved",
   "theorems": [
    "C200_door",
    "C200_limits",
    "C200_unmapped",
    "C200_sequencer",
    "C200_stays"
   ],
   "note": "Proved; the choice of the sequencer is the same code for registers."
  },
  {
   "property": "C201",
   "status": "proved",
   "theorems": [
    "C201_read",
    "C201_nothing"
   ],
   "note": "Proved."
  },
  {
   "property": "C202",
   "status": "proved",
   "theorems": [
    "C202_terminates",
    "C202_forward"
   ],
   "note": "Proved on top of the port model (C63, C104); sockets are connected with sockets only."
  },
  {
   "property": "C203",
   "status": "proved",
   "theorems": [
    "C203_backward",
    "C203_round_trip",
    "C203_no_way_back"
   ],
   "note": "Proved on top of the port model (C63, C104); sockets are connected with sockets only."
  },
  {
   "property": "C204",
   "status": "proved",
   "theorems": [
    "C204_calls",
    "C204_mismatch"
   ],
   "note": "Proved on top of the port model (C63, C104); sockets are connected with sockets only."
  },
  {
   "property": "C205",
   "status": "proved",
   "theorems": [
    "C205_once",
    "C205_no_deadlock",
    "C205_two_translators",
    "C205_two_fatal"
   ],
   "note": "Proved; arbitration is arbitrary, no locks or other drivers on the upstream sequencer, the wake-up of a finished access is that of C89."
  },
  {
   "property": "C206",
   "status": "proved",
   "theorems": [
    "C206_stops"
   ],
   "note": "Proved, same model as C205."
  },
  {
   "property": "C207",
   "status": "proved",
   "theorems": [
    "C207_summary",
    "C207_listed",
    "C207_totals",
    "C207_query",
    "C207_twice_limit"
   ],
   "note": "Proved; what a message does besides being counted is in C44, C45 and C83; the layout of the text is not modelled, its lines are."
  },
  {
   "property": "C208",
   "status": "proved",
   "theorems": [
    "C208_once",
    "C208_all",
    "C208_print_limit"
   ],
   "note": "Proved, same model as C207."
  },
  {
   "property": "C209",
   "status": "proved",
   "theorems": [
    "C209_parts",
    "C209_severity",
    "C209_verbosity",
    "C209_id_limit"
   ],
   "note": "Proved for messages without elements; the time is any string without a colon."
  },
  {
   "property": "C210",
   "status": "proved",
   "theorems": [
    "C210_no_exception",
    "C210_woken",
    "C210_not_early",
    "C210_forgets",
    "C210_other_limit",
    "C210_kill_limit"
   ],
   "note": "Proved; when events reach an object is C40-C43."
  },
  {
   "property": "C211",
   "status": "proved",
   "theorems": [
    "C211_total",
    "C211_reads",
    "C211_all_or_none",
    "C211_number_and_word",
    "C211_sign_limit",
    "C211_timeout"
   ],
   "note": "Proved; floats (%f) are left out."
  },
  {
   "property": "C212",
   "status": "proved",
   "theorems": [
    "C212_level",
    "C212_messages"
   ],
   "note": "Proved."
  },
  {
   "property": "C213",
   "status": "proved",
   "theorems": [
    "C213_total",
    "C213_errors",
    "C213_raises"
   ],
   "note": "Proved; +uvm_set_type_override does nothing in the code (uvm_root.py:634-641)."
  },
  {
   "property": "C214",
   "status": "proved",
   "theorems": [
    "C214_text",
    "C214_ends"
   ],
   "note": "Proved; called with level 0. The texts for an unresolved port are never printed, as the phase they depend on is imported before it exists."
  },
  {
   "property": "C215",
   "status": "proved",
   "theorems": [
    "C215_dual",
    "C215_text",
    "C215_ends"
   ],
   "note": "Proved; called with level 0."
  },
  {
   "property": "C216",
   "status": "proved",
   "theorems": [
    "C216_lists",
    "C216_messages"
   ],
   "note": "Proved; null providers are left out, full names of ports differ."
  },
  {
   "property": "C217",
   "status": "proved",
   "theorems": [
    "C217_paths",
    "C217_errors",
    "C217_write",
    "C217_poke",
    "C217_burst"
   ],
   "note": "Proved. Only the simulator for which the index of an element is split off is modelled (Verilator)."
  },
  {
   "property": "C218",
   "status": "proved",
   "theorems": [
    "C218_peek",
    "C218_round_trip",
    "C218_burst",
    "C218_raises",
    "C218_poke_raises"
   ],
   "note": "Proved; C218_half_written_limit shows that poke may have written copies before it fails."
  },
  {
   "property": "C219",
   "status": "proved",
   "theorems": [
    "C219_user",
    "C219_none",
    "C219_block"
   ],
   "note": "Proved; read and write of a user-defined back door are coroutines, as in uvm_reg_backdoor.py."
  },
  {
   "property": "C220",
   "status": "proved",
   "theorems": [
    "C220_text",
    "C220_rows",
    "C220_listed",
    "C220_hidden",
    "C220_by_name",
    "C220_instances"
   ],
   "note": "Proved for types with unique, proper names, that stand for the type objects."
  },
  {
   "property": "C221",
   "status": "proved",
   "theorems": [
    "C221_text",
    "C221_top",
    "C221_beneath",
    "C221_missing_limit"
   ],
   "note": "Proved; C221_missing_limit is an object beneath the one displayed that is missing. Objects with objections have different full names, and totals are not negative."
  },
  {
   "property": "C222",
   "status": "proved",
   "theorems": [
    "C222_debug",
    "C222_resolves"
   ],
   "note": "Proved; the create is one after the first debug pass, for which a detected circle does not start another (C34)."
  },
  {
   "property": "C223",
   "status": "proved",
   "theorems": [
    "C223_default",
    "C223_table",
    "C223_config",
    "C223_agrees",
    "C223_single",
    "C223_limit"
   ],
   "note": "Proved; the documented rule, highest precedence and then newest, is refuted by C223_limit."
  },
  {
   "property": "C224",
   "status": "proved",
   "theorems": [
    "C224_set",
    "C224_has",
    "C224_get",
    "C224_added_off",
    "C224_on_present",
    "C224_all_limit",
    "C224_sample_values",
    "C224_sample_once"
   ],
   "note": "Proved."
  },
  {
   "property": "C225",
   "status": "proved",
   "theorems": [
    "C225_first",
    "C225_later"
   ],
   "note": "Proved."
  },
  {
   "property": "C226",
   "status": "proved",
   "theorems": [
    "C226_started",
    "C226_documented",
    "C226_walk",
    "C226_walk_limit"
   ],
   "note": "Proved; for the memory walk the rule the code follows is proved and the documented one refuted by C226_walk_limit."
  },
  {
   "property": "C227",
   "status": "proved",
   "theorems": [
    "C227_records",
    "C227_gets",
    "C227_transparent",
    "C227_dump"
   ],
   "note": "Proved; what a get finds is taken as given here (C37)."
  },
  {
   "property": "C228",
   "status": "proved",
   "theorems": [
    "C228_story",
    "C228_one",
    "C228_alone",
    "C228_reasons",
    "C228_summary",
    "C228_caught_limit"
   ],
   "note": "Proved for fatal messages that raise; C228_caught_limit shows what happens otherwise. What the factory makes for a name is a parameter (C34 and others)."
  },
  {
   "property": "C229",
   "status": "proved",
   "theorems": [
    "C229_adjacent",
    "C229_siblings",
    "C229_mutual",
    "C229_cycle_limit",
    "C229_back_cycle_limit"
   ],
   "note": "Proved for graphs without cycles of non-nodes; C229_cycle_limit shows the other case."
  },
  {
   "property": "C230",
   "status": "proved",
   "theorems": [
    "C230_found",
    "C230_exists",
    "C230_stays"
   ],
   "note": ""
  },
  {
   "property": "C231",
   "status": "proved",
   "theorems": [
    "C231_end",
    "C231_ready",
    "C231_held",
    "C231_bound",
    "C231_repeat",
    "C231_back",
    "C231_late_limit"
   ],
   "note": ""
  },
  {
   "property": "C232",
   "status": "proved",
   "theorems": [
    "C232_clear",
    "C232_drains",
    "C232_fatal",
    "C232_ignored",
    "C232_no_warning",
    "C232_fresh"
   ],
   "note": ""
  },
  {
   "property": "C233",
   "status": "proved",
   "theorems": [
    "C233_text",
    "C233_same",
    "C233_words",
    "C233_read",
    "C233_round_trip",
    "C233_not_readable"
   ],
   "note": ""
  },
  {
   "property": "C234",
   "status": "proved",
   "theorems": [
    "C234_full_name",
    "C234_path",
    "C234_same",
    "C234_dot_limit"
   ],
   "note": ""
  }
 ]
}