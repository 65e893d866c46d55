{
 "claims": [
  {
   "property": "C01",
   "status": "proved",
   "theorems": [
    "transitions_lawful",
    "transitions_contiguous",
    "run_after_start",
    "complete_after_end_or_stop",
    "start_needs_trigger",
    "stop_needs_reason",
    "progress_needs_parent",
    "standard_lifecycle_refuted"
   ],
   "note": "The engine's own life cycle is proved; the stricter life cycle of the standard is refuted by an override Event that stops itself while starting."
  },
  {
   "property": "C02",
   "status": "proved",
   "theorems": [
    "frame_terminates"
   ],
   "note": ""
  },
  {
   "property": "C03",
   "status": "proved",
   "theorems": [
    "executions_bounded",
    "event_executions_bounded",
    "end_complete_iff_exhausted",
    "child_executions_bounded",
    "execution_limit_zero_refuted"
   ],
   "note": "For maximumExecutionCount >= 1 as stated; execution_limit_zero_refuted shows that 0 behaves like 1."
  },
  {
   "property": "C04",
   "status": "proved",
   "theorems": [
    "finished_never_executes_again",
    "restart_only_by_parent",
    "finished_stays_finished_refuted",
    "activity_needs_active_ancestors",
    "nothing_below_complete"
   ],
   "note": "The stronger statement is refuted: a completed Event overridden by a sibling is in stopTransition at a frame end. Proved: it never starts, runs or ends again."
  },
  {
   "property": "C05",
   "status": "proved",
   "theorems": [
    "stop_reaches_descendants_refuted",
    "stop_trigger_completes",
    "complete_has_nothing_executing",
    "completion_leaves_nothing_executing",
    "complete_is_quiet",
    "stop_finishes_in_frame",
    "nothing_below_complete"
   ],
   "note": "The stronger statement is refuted: an Event in standby can be started by the evaluation that stops its Act."
  },
  {
   "property": "C06",
   "status": "proved",
   "theorems": [
    "override_leaves_single_running",
    "stop_needs_reason"
   ],
   "note": ""
  },
  {
   "property": "C07",
   "status": "proved",
   "theorems": [
    "skip_never_beside_running",
    "skipped_event_untouched",
    "all_skip_at_most_one_running"
   ],
   "note": ""
  },
  {
   "property": "C08",
   "status": "proved",
   "theorems": [
    "reexecution_restarts_children",
    "children_execute_once_per_execution",
    "reexecution_refuted"
   ],
   "note": "False as stated for Events below a re-executed ManeuverGroup; proved for the direct children of ManeuverGroups and Events."
  },
  {
   "property": "C09",
   "status": "proved",
   "theorems": [
    "end_only_when_children_complete",
    "running_has_unfinished_child",
    "settled_between_frames"
   ],
   "note": "The converse: between frames no composite is running whose children are all complete."
  },
  {
   "property": "C10",
   "status": "proved",
   "theorems": [
    "trigger_evaluates_all_once",
    "trigger_updates_each_condition",
    "trigger_is_or_of_ands",
    "trigger_corner_cases",
    "active_group_is_first_true",
    "active_group_description_undefined_refuted"
   ],
   "note": "Also: the description of the active group is well defined after a true evaluation and dereferences end() after a false one."
  },
  {
   "property": "C11",
   "status": "proved",
   "theorems": [
    "condition_follows_definition",
    "condition_without_delay",
    "sticky_stays"
   ],
   "note": ""
  },
  {
   "property": "C12",
   "status": "proved",
   "theorems": [
    "edge_reported_exactly_once",
    "edge_reported_once_nonuniform_refuted",
    "edge_missed_nonuniform_refuted"
   ],
   "note": "Proved for uniform sampling as stated; the _refuted theorems show that uniformity is needed."
  },
  {
   "property": "C13",
   "status": "proved",
   "theorems": [
    "history_bounded",
    "history_bounded_uniform"
   ],
   "note": ""
  },
  {
   "property": "C14",
   "status": "proved",
   "theorems": [
    "state_condition_sees_every_visit",
    "state_condition_is_ever_visited",
    "state_condition_only_if_refuted"
   ],
   "note": "First half proved. Second half false: the condition latches, it is true iff the element was ever in the monitored state."
  },
  {
   "property": "C15",
   "status": "proved",
   "theorems": [
    "rules_are_the_relations",
    "order_rules_complementary",
    "equality_rules_complementary",
    "equality_rules_cover",
    "equality_rules_complementary_refuted",
    "triggering_entities_rules",
    "entity_condition_meaning"
   ],
   "note": "Order rules and quantifiers proved. equalTo/notEqualTo are not complementary for entity conditions (tolerance against exact comparison)."
  },
  {
   "property": "C16",
   "status": "proved",
   "theorems": [
    "separate_join",
    "join_separate",
    "relative_reference_roundtrip",
    "absolute_iff_leading_separator",
    "absolute_reference_parsed",
    "parse_undefined_iff_empty"
   ],
   "note": "The empty reference is undefined behaviour (parse_undefined_iff_empty); every other one is split as stated."
  },
  {
   "property": "C17",
   "status": "proved",
   "theorems": [
    "unqualified_reference_resolution",
    "scopes_record_the_program",
    "own_definition_shadows",
    "found_is_visible_definition",
    "reference_terminates"
   ],
   "note": ""
  },
  {
   "property": "C18",
   "status": "proved",
   "theorems": [
    "qualified_reference_goes_through_qualifier",
    "qualified_reference_resolves",
    "absolute_reference",
    "unknown_qualifier_refuted",
    "qualifier_escaped_refuted"
   ],
   "note": "The stronger statement is refuted: an unknown first qualifier is ignored, and a name missing in the qualifying scope is looked up outside it. Proved: exactly these fallbacks exist, and existing unambiguous qualifiers are honoured."
  },
  {
   "property": "C19",
   "status": "proved",
   "theorems": [
    "C19_phases_in_order"
   ],
   "note": ""
  },
  {
   "property": "C20",
   "status": "proved",
   "theorems": [
    "C20_phase_lasts",
    "C20_drift",
    "C20_no_phase_overdue"
   ],
   "note": ""
  },
  {
   "property": "C21",
   "status": "proved",
   "theorems": [
    "C21_referencing_controller_follows",
    "C21_referencing_controller_begins_only_then",
    "C21_referencing_controller_follows_refuted",
    "C21_never_begins"
   ],
   "note": "The stronger statement is refuted: a new begin of the referenced controller before the delay is over postpones the pending one, so with a delay longer than the cycle the referencing controller never begins. Proved for the latest begin, and that there is no other reason than a completed own cycle."
  },
  {
   "property": "C22",
   "status": "proved",
   "theorems": [
    "C22_cycle_time_is_the_sum",
    "C22_cycle_time_bounds",
    "C22_cycle_time_is_the_sum_refuted",
    "C22_unequal_cycles_accepted",
    "C22_cycle_time_undefined",
    "C22_accepted",
    "C22_equal_cycles"
   ],
   "note": "The stronger statement is refuted: partial sums are truncated to whole seconds (int accumulator). Proved for whole-second durations; in general bounded below; undefined with an infinite phase."
  },
  {
   "property": "C23",
   "status": "proved",
   "theorems": [
    "C23_predictions",
    "C23_predictions_refuted"
   ],
   "note": "False for durations that are not whole seconds (truncated cycle time suppresses all predictions). Proved for whole-second durations over all runs."
  },
  {
   "property": "C47",
   "status": "proved",
   "theorems": [
    "C47_predictions_stay",
    "C47_predictions_stay_refuted"
   ],
   "note": "False: any controller's phase change clears all predictions. Proved while no controller changes its phase."
  },
  {
   "property": "C48",
   "status": "proved",
   "theorems": [
    "C48_current_phase_defined",
    "C48_current_phase_defined_refuted",
    "C48_current_phase"
   ],
   "note": "False for referencing controllers before their first begin (end() is dereferenced). Proved for unreferenced ones."
  },
  {
   "property": "C24",
   "status": "proved",
   "theorems": [
    "C24_declared_values_admissible",
    "C24_rejected",
    "C24_admissible_accepted"
   ],
   "note": ""
  },
  {
   "property": "C25",
   "status": "proved",
   "theorems": [
    "C25_first_in_first_out",
    "C25_after_a_failure",
    "C25_first_in_first_out_refuted",
    "C25_failing_load_keeps_scenarios_refuted",
    "C25_distribution_refuted",
    "C25_answers_of_a_queue",
    "C25_load_succeeds_iff"
   ],
   "note": "The stronger statement is refuted: a failing load clears the queue, and loading a valid parameter distribution fails too. Proved between failing loads."
  },
  {
   "property": "C49",
   "status": "proved",
   "theorems": [
    "C49_set_then_condition",
    "C49_set_changes_nothing_else",
    "C49_set_then_condition_refuted"
   ],
   "note": "False only for the double nan. Proved for everything else."
  },
  {
   "property": "C50",
   "status": "proved",
   "theorems": [
    "C50_modification",
    "C50_unsigned_modification",
    "C50_not_numeric_rejected",
    "C50_modification_refuted",
    "C50_subtraction_undefined"
   ],
   "note": "False for unsigned parameters: the operand is converted to the unsigned type first, so 10 * 0.5 is 0 and subtracting is undefined. Proved for double and integer, and for unsigned with natural operands without overflow."
  },
  {
   "property": "C51",
   "status": "proved",
   "theorems": [
    "C51_types_preserved",
    "C51_constraints_preserved_refuted"
   ],
   "note": "Type and range are preserved; constraints are not checked again by actions."
  },
  {
   "property": "C52",
   "status": "proved",
   "theorems": [
    "C52_integer_literals",
    "C52_unsigned_literals",
    "C52_negative_unsigned_refuted"
   ],
   "note": "False for negative unsigned literals, which wrap around instead of being rejected."
  },
  {
   "property": "C53",
   "status": "proved",
   "theorems": [
    "C53_overrides_applied",
    "C53_variants_kept_apart_refuted"
   ],
   "note": "The first part is proved. Last part false: loading the same file again before it is derived overwrites it."
  },
  {
   "property": "C26",
   "status": "proved",
   "theorems": [
    "C26_active_iff",
    "C26_at_most_one",
    "C26_active_is_updated"
   ],
   "note": "Any callbacks, any history."
  },
  {
   "property": "C27",
   "status": "proved",
   "theorems": [
    "C27_cleanup_once",
    "C27_elapsed"
   ],
   "note": "Any callbacks, any history; the elapsed time for a constant step."
  },
  {
   "property": "C28",
   "status": "proved",
   "theorems": [
    "C28_latest_request_determines_target",
    "C28_immediately_if_idle",
    "C28_released_when_reached",
    "C28_immediately_refuted",
    "C28_current_speed_refuted",
    "C28_continuous_time_refuted"
   ],
   "note": "The refutations show that each condition of the statement is needed: replacing a pending request clears the new target until the next update, a request for the current speed leaves an older one in force, and a time-constrained continuous request is not held."
  },
  {
   "property": "C54",
   "status": "proved",
   "theorems": [
    "C54_limit_in_force",
    "C54_limit_in_force_refuted"
   ],
   "note": "The refutation shows the condition is needed: a second limited request is executed with the default limits."
  },
  {
   "property": "C55",
   "status": "proved",
   "theorems": [
    "C55_limits_reset",
    "C55_limits_restored_refuted"
   ],
   "note": "The refutation shows that limits set by the user are lost."
  },
  {
   "property": "C43",
   "status": "proved",
   "theorems": [
    "C43_entities",
    "C43_rejected_spawn",
    "C43_rejected_despawn"
   ],
   "note": "Refinement of every history to a map from names to entities."
  },
  {
   "property": "C44",
   "status": "proved",
   "theorems": [
    "C44_scenario_time",
    "C44_constant_step",
    "C44_second_start",
    "C44_first_start",
    "C44_ros_time",
    "C44_ros_time_monotone"
   ],
   "note": "Exact arithmetic; rounding of double is not modelled."
  },
  {
   "property": "C45",
   "status": "proved",
   "theorems": [
    "C45_rate",
    "C45_names_distinct",
    "C45_exception",
    "C45_terminates",
    "C45_zero_rate",
    "C45_negative_rate_never_ends"
   ],
   "note": "A negative rate (not rejected by the constructor) never lets an update end."
  },
  {
   "property": "C46",
   "status": "proved",
   "theorems": [
    "C46_sink"
   ],
   "note": "Any visiting order."
  },
  {
   "property": "C56",
   "status": "proved",
   "theorems": [
    "C56_frame",
    "C56_order",
    "C56_succeeds_iff"
   ],
   "note": ""
  },
  {
   "property": "C57",
   "status": "proved",
   "theorems": [
    "C57_requests_accepted",
    "C57_same_entities",
    "C57_same_entities_refuted"
   ],
   "note": "The refutation shows the condition is needed: a failing behaviour plugin reset leaves an entity that the sensors still see and that no despawn removes."
  },
  {
   "property": "C58",
   "status": "proved",
   "theorems": [
    "C58_one_ego",
    "C58_one_ego_sensed",
    "C58_second_ego_rejected",
    "C58_ego_again"
   ],
   "note": ""
  },
  {
   "property": "C59",
   "status": "proved",
   "theorems": [
    "C59_simultaneous",
    "C59_order_irrelevant",
    "C59_not_started",
    "C59_names_kept"
   ],
   "note": "For every behaviour that depends only on the values it is given."
  },
  {
   "property": "C60",
   "status": "proved",
   "theorems": [
    "C60_front_entity",
    "C60_answer_is_in_front",
    "C60_front_entity_refuted",
    "C60_order_dependent"
   ],
   "note": "False for ties: candidates are keyed by their Euclidean distance, so of two equally distant neighbours one is dropped, depending on the hash map order. Proved without ties."
  },
  {
   "property": "C32",
   "status": "proved",
   "theorems": [
    "C32_bulb_round_trip",
    "C32_light_round_trip",
    "C32_parser_exact",
    "C32_states_exact"
   ],
   "note": ""
  },
  {
   "property": "C33",
   "status": "proved",
   "theorems": [
    "C33_bulb_identity",
    "C33_light_membership"
   ],
   "note": ""
  },
  {
   "property": "C34",
   "status": "proved",
   "theorems": [
    "C34_set_replaces",
    "C34_invalid_refused",
    "C34_unknown_id",
    "C34_reachable",
    "C34_invalid_unchanged_refuted"
   ],
   "note": "The refutation shows that an invalid state does destroy the previous one."
  },
  {
   "property": "C35",
   "status": "proved",
   "theorems": [
    "C35_enable",
    "C35_mirror",
    "C35_set_visible",
    "C35_history",
    "C35_relation_refuted"
   ],
   "note": "The refutation shows that states set through a relation id are not mirrored."
  },
  {
   "property": "C36",
   "status": "proved",
   "theorems": [
    "C36_override",
    "C36_overrides_reachable",
    "C36_requests_reachable",
    "C36_any_id_refuted"
   ],
   "note": "The refutation shows that an override given through a relation id duplicates a light."
  },
  {
   "property": "C61",
   "status": "proved",
   "theorems": [
    "C61_predictions"
   ],
   "note": ""
  },
  {
   "property": "C62",
   "status": "proved",
   "theorems": [
    "C62_compare_after_set",
    "C62_compare_after_clear",
    "C62_none_refuted"
   ],
   "note": "The refutation shows why none is excluded: as a state it is a bulb that is off."
  },
  {
   "property": "C63",
   "status": "proved",
   "theorems": [
    "C63_stop_distance"
   ],
   "note": ""
  },
  {
   "property": "C29",
   "status": "proved",
   "theorems": [
    "C29_step",
    "C29_full_effort",
    "C29_rate_refuted",
    "C29_overspeed_refuted"
   ],
   "note": "The refutations show the caveats: the acceleration may fall faster than the rate limit, and an overspeed is cut at once."
  },
  {
   "property": "C30",
   "status": "proved",
   "theorems": [
    "C30_reaches_and_stays",
    "C30_prediction_terminates",
    "C30_stop_distance_terminates",
    "C30_target_above_maximum_never_ends",
    "C30_no_brakes_never_ends",
    "C30_always_terminates_refuted"
   ],
   "note": ""
  },
  {
   "property": "C31",
   "status": "proved",
   "theorems": [
    "C31_acceleration_meets_time",
    "C31_acceleration_nonneg",
    "C31_deceleration_negative",
    "C31_nonneg_refuted",
    "C31_negative_limit_undefined"
   ],
   "note": "Over the real numbers of the standard library (its three axioms)."
  },
  {
   "property": "C64",
   "status": "proved",
   "theorems": [
    "C64_prediction_error",
    "C64_stop_distance_too_short"
   ],
   "note": ""
  },
  {
   "property": "C37",
   "status": "proved",
   "theorems": [
    "canonicalize_forward",
    "canonicalize_backward",
    "canonicalize_backward_is_upstream",
    "canonicalize_fails",
    "canonicalize_finds",
    "canonicalize_fails_when",
    "canonicalize_terminates",
    "canonicalize_keeps",
    "canonicalize_idempotent"
   ],
   "note": ""
  },
  {
   "property": "C38",
   "status": "proved",
   "theorems": [
    "route_canonicalize_forward",
    "route_canonicalize_fails",
    "route_canonicalize_finds",
    "route_canonicalize_terminates",
    "route_canonicalize_backward",
    "along_route_lands",
    "C38_refuted"
   ],
   "note": "C38_refuted shows that the proviso about forks on the route is needed."
  },
  {
   "property": "C39",
   "status": "proved",
   "theorems": [
    "along_forward_lands",
    "along_backward_lands",
    "along_fails",
    "along_ends",
    "along_composes",
    "along_composes_both_ways",
    "along_can_be_undone",
    "along_and_canonicalize_agree",
    "C39_refuted",
    "along_is_canonicalize_refuted"
   ],
   "note": ""
  },
  {
   "property": "C40",
   "status": "proved",
   "theorems": [
    "following_covers",
    "following_terminates",
    "previous_covers",
    "previous_terminates",
    "following_route_covers",
    "following_route_refuses",
    "following_route_succeeds",
    "broken_route_refuted",
    "last_of_route_refuted"
   ],
   "note": ""
  },
  {
   "property": "C41",
   "status": "proved",
   "theorems": [
    "planned_lanelets_are_drivable",
    "planner_always_answers",
    "waypoints_removed_in_order",
    "reached_waypoint_removed",
    "new_route_leads_to_waypoint",
    "planner_leads_refuted",
    "second_waypoint_refuted",
    "only_reached_refuted"
   ],
   "note": ""
  },
  {
   "property": "C42",
   "status": "proved",
   "theorems": [
    "forward_distance_is_travelled",
    "distance_over_lane_changes",
    "no_route_no_distance",
    "driving_the_distance_arrives",
    "distance_is_the_shorter_way",
    "distance_antisymmetric",
    "distance_defined_both_ways",
    "distance_on_one_lanelet",
    "distances_add_up",
    "adjacent_distance_is_closest",
    "box_distance_antisymmetric",
    "box_distance_gap",
    "C42_refuted",
    "distance_to_alternatives_refuted"
   ],
   "note": ""
  },
  {
   "property": "C65",
   "status": "proved",
   "theorems": [
    "alternatives_forward",
    "alternatives_forward_complete",
    "alternatives_backward",
    "alternatives_backward_complete",
    "alternatives_always_end",
    "no_alternative",
    "canonical_is_alternative",
    "on_lane_alternative",
    "alternatives_on_lane_refuted"
   ],
   "note": ""
  },
  {
   "property": "C66",
   "status": "proved",
   "theorems": [
    "nearest_alternative",
    "nearest_alternative_exists",
    "unreachable_alternative_refuted"
   ],
   "note": ""
  },
  {
   "property": "C67",
   "status": "proved",
   "theorems": [
    "answers_take_effect",
    "nothing_pending_after_frame",
    "exit_only_by_action"
   ],
   "note": ""
  },
  {
   "property": "C68",
   "status": "proved",
   "theorems": [
    "every_frame_serves_everything_due",
    "settled_between_frames"
   ],
   "note": ""
  },
  {
   "property": "C69",
   "status": "proved",
   "theorems": [
    "C69_relative_target",
    "C69_released",
    "C69_step",
    "C69_unknown_reference",
    "C69_continuous_time_refused",
    "C69_step_relative_to_itself",
    "C69_relative_to_itself_lost",
    "C69_linear_time",
    "C69_relative_time",
    "C69_reference_gone_refuted"
   ],
   "note": ""
  },
  {
   "property": "C70",
   "status": "proved",
   "theorems": [
    "C70_terminates",
    "C70_expression_means",
    "C70_unambiguous",
    "C70_mixing_is_an_error"
   ],
   "note": ""
  },
  {
   "property": "C71",
   "status": "proved",
   "theorems": [
    "C71_integers_exact",
    "C71_overflow_undefined",
    "C71_division_is_not_an_integer",
    "C71_empty_is_zero",
    "C71_parameter_value_refuted"
   ],
   "note": ""
  },
  {
   "property": "C72",
   "status": "proved",
   "theorems": [
    "C72_substituted",
    "C72_plain_text_kept",
    "C72_unknown_is_an_error",
    "C72_one_answer",
    "C72_nothing_left",
    "C72_refuted"
   ],
   "note": ""
  },
  {
   "property": "C73",
   "status": "proved",
   "theorems": [
    "C73_missing",
    "C73_default_not_used",
    "C73_literal",
    "C73_reference",
    "C73_unknown_reference",
    "C73_expression",
    "C73_var",
    "C73_empty",
    "C73_expression_of_reference_refuted"
   ],
   "note": ""
  },
  {
   "property": "C74",
   "status": "proved",
   "theorems": [
    "C74_at_most_one_verdict",
    "C74_frame_verdict",
    "C74_start_verdict",
    "C74_load_verdict",
    "C74_timeout_leaves_no_verdict",
    "C74_timeout_refuted"
   ],
   "note": ""
  },
  {
   "property": "C75",
   "status": "proved",
   "theorems": [
    "C75_plays_only_in_a_run",
    "C75_only_while_active",
    "C75_simulator_exists_iff_active",
    "C75_no_undefined_behaviour",
    "C75_refuted"
   ],
   "note": ""
  },
  {
   "property": "C76",
   "status": "proved",
   "theorems": [
    "C76_report",
    "C76_suite_totals",
    "C76_accepted_iff_all_passed",
    "C76_shared_entry_refuted"
   ],
   "note": ""
  },
  {
   "property": "C77",
   "status": "proved",
   "theorems": [
    "C77_recorder_per_run",
    "C77_refuted"
   ],
   "note": ""
  },
  {
   "property": "C78",
   "status": "proved",
   "theorems": [
    "C78_good_iff",
    "C78_intervals",
    "C78_smallest_is_least",
    "C78_largest_is_greatest",
    "C78_exited_for_ever_refuted"
   ],
   "note": ""
  },
  {
   "property": "C79",
   "status": "proved",
   "theorems": [
    "C79_nested_overrides_restore",
    "C79_inside_in_force",
    "C79_overlap_refuted",
    "C79_update_lost"
   ],
   "note": ""
  },
  {
   "property": "C80",
   "status": "proved",
   "theorems": [
    "C80_hangs_or_ends",
    "C80_refuted",
    "C80_can_still_end"
   ],
   "note": ""
  },
  {
   "property": "C81",
   "status": "proved",
   "theorems": [
    "C81_ends",
    "C81_traversal",
    "C81_none_missed",
    "C81_refuted"
   ],
   "note": ""
  },
  {
   "property": "C82",
   "status": "proved",
   "theorems": [
    "C82_objects_are_drawn",
    "C82_only_objects_are_drawn",
    "C82_small_objects_are_not_drawn",
    "C82_refuted"
   ],
   "note": ""
  },
  {
   "property": "C83",
   "status": "proved",
   "theorems": [
    "C83_as_if_alone",
    "C83_number_of_objects",
    "C83_nothing_left_over"
   ],
   "note": ""
  },
  {
   "property": "C84",
   "status": "proved",
   "theorems": [
    "C84_placed",
    "C84_refuted",
    "C84_entities",
    "C84_fails"
   ],
   "note": ""
  },
  {
   "property": "C85",
   "status": "proved",
   "theorems": [
    "C85_schedule",
    "C85_regular",
    "C85_delay",
    "C85_regular_delay",
    "C85_lidar_schedule",
    "C85_lidar_delay",
    "C85_backlog_refuted"
   ],
   "note": ""
  },
  {
   "property": "C86",
   "status": "proved",
   "theorems": [
    "C86_detected",
    "C86_level",
    "C86_plane",
    "C86_refuted"
   ],
   "note": ""
  },
  {
   "property": "C87",
   "status": "proved",
   "theorems": [
    "C87_in_step",
    "C87_refuted"
   ],
   "note": ""
  },
  {
   "property": "C88",
   "status": "proved",
   "theorems": [
    "C88_autocorrelation_refuted",
    "C88_memoryless",
    "C88_rate",
    "C88_beyond",
    "C88_v1",
    "C88_v1_statics_refuted",
    "C88_v3"
   ],
   "note": ""
  },
  {
   "property": "C89",
   "status": "proved",
   "theorems": [
    "C89_all",
    "C89_all_false",
    "C89_any",
    "C89_none",
    "C89_without_errors",
    "C89_error",
    "C89_any_member_refuted",
    "C89_empty"
   ],
   "note": ""
  },
  {
   "property": "C90",
   "status": "proved",
   "theorems": [
    "C90_accepted",
    "C90_reference",
    "C90_triggering",
    "C90_objects",
    "C90_members_are_objects",
    "C90_object_wins",
    "C90_forward_reference_refuted"
   ],
   "note": ""
  },
  {
   "property": "C91",
   "status": "proved",
   "theorems": [
    "C91_add",
    "C91_delete",
    "C91_present_added",
    "C91_add_once_refuted",
    "C91_not_added",
    "C91_deleted"
   ],
   "note": ""
  },
  {
   "property": "C92",
   "status": "proved",
   "theorems": [
    "C92_behind",
    "C92_ahead_refuted",
    "C92_receding_refuted",
    "C92_position",
    "C92_quotient",
    "C92_position_quotient",
    "C92_unsupported"
   ],
   "note": ""
  },
  {
   "property": "C93",
   "status": "proved",
   "theorems": [
    "C93_headway",
    "C93_backwards_refuted",
    "C93_selection"
   ],
   "note": ""
  },
  {
   "property": "C94",
   "status": "proved",
   "theorems": [
    "C94_entity",
    "C94_type",
    "C94_symmetric",
    "C94_selection"
   ],
   "note": ""
  },
  {
   "property": "C95",
   "status": "proved",
   "theorems": [
    "C95_all",
    "C95_any_refuted",
    "C95_listed",
    "C95_selection_refuted"
   ],
   "note": ""
  },
  {
   "property": "C96",
   "status": "proved",
   "theorems": [
    "C96_own_values",
    "C96_relative_speed",
    "C96_relative_speed_aligned",
    "C96_relative_speed_length",
    "C96_relative_distance",
    "C96_relative_distance_symmetric",
    "C96_freespace",
    "C96_distance_sign_refuted",
    "C96_lane_distance",
    "C96_unsupported"
   ],
   "note": ""
  },
  {
   "property": "C97",
   "status": "proved",
   "theorems": [
    "C97_in_order",
    "C97_begins",
    "C97_ends",
    "C97_acts",
    "C97_answer",
    "C97_answer_state",
    "C97_question"
   ],
   "note": ""
  },
  {
   "property": "C98",
   "status": "proved",
   "theorems": [
    "C98_nothing_after",
    "C98_every_request_throws",
    "C98_nothing_more",
    "C98_cause",
    "C98_accepted_after_failure_refuted"
   ],
   "note": ""
  },
  {
   "property": "C99",
   "status": "proved",
   "theorems": [
    "C99_sent",
    "C99_finished"
   ],
   "note": ""
  },
  {
   "property": "C100",
   "status": "proved",
   "theorems": [
    "C100_engage",
    "C100_engaged",
    "C100_route",
    "C100_planned",
    "C100_pose",
    "C100_localized",
    "C100_engage_refuted",
    "C100_arrived_refuted"
   ],
   "note": ""
  },
  {
   "property": "C101",
   "status": "proved",
   "theorems": [
    "C101_not_before",
    "C101_lifted",
    "C101_lifted_by_engagement",
    "C101_expires",
    "C101_unlimited_refuted",
    "C101_driving_refuted"
   ],
   "note": ""
  },
  {
   "property": "C102",
   "status": "proved",
   "theorems": [
    "C102_joins",
    "C102_no_new_task"
   ],
   "note": ""
  },
  {
   "property": "C103",
   "status": "proved",
   "theorems": [
    "C103_once",
    "C103_pose_first",
    "C103_pose_before_route",
    "C103_replan_refuted"
   ],
   "note": ""
  },
  {
   "property": "C104",
   "status": "proved",
   "theorems": [
    "C104_driving",
    "C104_waiting_for_engage",
    "C104_planning",
    "C104_arrived",
    "C104_waiting_for_route",
    "C104_initializing",
    "C104_never_finalizing"
   ],
   "note": ""
  },
  {
   "property": "C105",
   "status": "proved",
   "theorems": [
    "C105_sent",
    "C105_thrown",
    "C105_once",
    "C105_again_refuted"
   ],
   "note": ""
  },
  {
   "property": "C106",
   "status": "proved",
   "theorems": [
    "C106_gone",
    "C106_not_killed",
    "C106_other_child_refuted",
    "C106_interrupted_refuted"
   ],
   "note": ""
  },
  {
   "property": "C107",
   "status": "proved",
   "theorems": [
    "C107_vehicle",
    "C107_pedestrian",
    "C107_current",
    "C107_keeps"
   ],
   "note": ""
  },
  {
   "property": "C108",
   "status": "proved",
   "theorems": [
    "C108_vehicle",
    "C108_walk_refuted",
    "C108_instant_refuted",
    "C108_pedestrian",
    "C108_lane_change_refuted"
   ],
   "note": ""
  },
  {
   "property": "C109",
   "status": "proved",
   "theorems": [
    "C109_decision",
    "C109_unique"
   ],
   "note": ""
  },
  {
   "property": "C110",
   "status": "proved",
   "theorems": [
    "C110_stops",
    "C110_keeps",
    "C110_speed",
    "C110_light_hides_front_refuted",
    "C110_front_hides_light_refuted",
    "C110_front_beyond_light_refuted",
    "C110_yield_hides_light_refuted"
   ],
   "note": ""
  },
  {
   "property": "C111",
   "status": "proved",
   "theorems": [
    "C111_follows",
    "C111_slower",
    "C111_faster_refuted"
   ],
   "note": ""
  },
  {
   "property": "C112",
   "status": "proved",
   "theorems": [
    "C112_stop_line",
    "C112_crossing",
    "C112_tie_refuted",
    "C112_detectors_refuted",
    "C112_stuck_refuted"
   ],
   "note": ""
  },
  {
   "property": "C113",
   "status": "proved",
   "theorems": [
    "C113_once",
    "C113_twice_refuted",
    "C113_backwards"
   ],
   "note": ""
  },
  {
   "property": "C114",
   "status": "proved",
   "theorems": [
    "C114_trajectory_taken",
    "C114_trajectory_ends",
    "C114_frozen_refuted",
    "C114_unmeetable"
   ],
   "note": ""
  },
  {
   "property": "C115",
   "status": "proved",
   "theorems": [
    "C115_time",
    "C115_constraint",
    "C115_standing_refuted",
    "C115_best_effort_refuted",
    "C115_second_refuted"
   ],
   "note": ""
  },
  {
   "property": "C116",
   "status": "proved",
   "theorems": [
    "C116_stands",
    "C116_throws_refuted"
   ],
   "note": ""
  },
  {
   "property": "C117",
   "status": "proved",
   "theorems": [
    "C117_lane",
    "C117_off_lane",
    "C117_straight",
    "C117_trajectory",
    "C117_straight_for_ever_refuted"
   ],
   "note": ""
  },
  {
   "property": "C118",
   "status": "proved",
   "theorems": [
    "C118_limits",
    "C118_range",
    "C118_deceleration_refuted"
   ],
   "note": ""
  },
  {
   "property": "C119",
   "status": "proved",
   "theorems": [
    "C119_hard_braking",
    "C119_fails",
    "C119_reverses_refuted"
   ],
   "note": ""
  },
  {
   "property": "C120",
   "status": "proved",
   "theorems": [
    "C120_stop_choice",
    "C120_prediction",
    "C120_given_up",
    "C120_overshoot"
   ],
   "note": ""
  },
  {
   "property": "C121",
   "status": "proved",
   "theorems": [
    "C121_arrival_choice",
    "C121_prediction",
    "C121_rounding",
    "C121_last_frames"
   ],
   "note": ""
  },
  {
   "property": "C122",
   "status": "proved",
   "theorems": [
    "C122_ramp",
    "C122_clamp_refuted"
   ],
   "note": ""
  },
  {
   "property": "C123",
   "status": "proved",
   "theorems": [
    "C123_frame",
    "C123_open",
    "C123_closed"
   ],
   "note": ""
  },
  {
   "property": "C124",
   "status": "proved",
   "theorems": [
    "C124_finished",
    "C124_finishes",
    "C124_closed",
    "C124_closed_two_refuted"
   ],
   "note": ""
  },
  {
   "property": "C125",
   "status": "proved",
   "theorems": [
    "C125_moved",
    "C125_window",
    "C125_absolute",
    "C125_failures"
   ],
   "note": ""
  },
  {
   "property": "C126",
   "status": "proved",
   "theorems": [
    "C126_open_ends",
    "C126_endless_refuted",
    "C126_one_lap"
   ],
   "note": ""
  },
  {
   "property": "C127",
   "status": "proved",
   "theorems": [
    "C127_motion",
    "C127_backwards_refuted"
   ],
   "note": ""
  },
  {
   "property": "C128",
   "status": "proved",
   "theorems": [
    "C128_braking",
    "C128_stops",
    "C128_finishes"
   ],
   "note": ""
  },
  {
   "property": "C129",
   "status": "proved",
   "theorems": [
    "C129_times",
    "C129_shared",
    "C129_selection_refuted"
   ],
   "note": ""
  },
  {
   "property": "C130",
   "status": "proved",
   "theorems": [
    "C130_closed",
    "C130_complete",
    "C130_all_ended",
    "C130_stays",
    "C130_forgotten_refuted",
    "C130_no_actor_refuted",
    "C130_selection_refuted"
   ],
   "note": ""
  },
  {
   "property": "C131",
   "status": "proved",
   "theorems": [
    "C131_crossing",
    "C131_side",
    "C131_tolerance_misses_refuted",
    "C131_tolerance_invents_refuted"
   ],
   "note": ""
  },
  {
   "property": "C132",
   "status": "proved",
   "theorems": [
    "C132_point",
    "C132_absent",
    "C132_error",
    "C132_straight_continuation_refuted"
   ],
   "note": ""
  },
  {
   "property": "C133",
   "status": "proved",
   "theorems": [
    "C133_position",
    "C133_found",
    "C133_range"
   ],
   "note": ""
  },
  {
   "property": "C134",
   "status": "proved",
   "theorems": [
    "C134_segments",
    "C134_covers",
    "C134_order"
   ],
   "note": ""
  },
  {
   "property": "C135",
   "status": "proved",
   "theorems": [
    "C135_linear",
    "C135_linear_degenerate",
    "C135_quadratic",
    "C135_quadratic_double"
   ],
   "note": ""
  },
  {
   "property": "C136",
   "status": "proved",
   "theorems": [
    "C136_complete",
    "C136_sound",
    "C136_three_exact",
    "C136_lost_refuted",
    "C136_residual"
   ],
   "note": ""
  },
  {
   "property": "C137",
   "status": "proved",
   "theorems": [
    "C137_built",
    "C137_through"
   ],
   "note": ""
  },
  {
   "property": "C138",
   "status": "proved",
   "theorems": [
    "C138_continuous",
    "C138_direction",
    "C138_hermite"
   ],
   "note": ""
  },
  {
   "property": "C139",
   "status": "proved",
   "theorems": [
    "C139_length",
    "C139_even"
   ],
   "note": ""
  },
  {
   "property": "C140",
   "status": "proved",
   "theorems": [
    "C140_backwards_refuted",
    "C140_distance_refuted"
   ],
   "note": ""
  },
  {
   "property": "C141",
   "status": "proved",
   "theorems": [
    "C141_found",
    "C141_sound",
    "C141_exact",
    "C141_along",
    "C141_along_refuted"
   ],
   "note": ""
  },
  {
   "property": "C142",
   "status": "proved",
   "theorems": [
    "C142_answers",
    "C142_first",
    "C142_hit",
    "C142_line",
    "C142_two_points_refuted"
   ],
   "note": ""
  },
  {
   "property": "C143",
   "status": "proved",
   "theorems": [
    "C143_range",
    "C143_range_refuted",
    "C143_part"
   ],
   "note": ""
  },
  {
   "property": "C144",
   "status": "proved",
   "theorems": [
    "C144_samples",
    "C144_zero_step",
    "C144_curve_refuted"
   ],
   "note": ""
  },
  {
   "property": "C145",
   "status": "proved",
   "theorems": [
    "C145_altitudes",
    "C145_below_zero_refuted"
   ],
   "note": ""
  },
  {
   "property": "C146",
   "status": "proved",
   "theorems": [
    "C146_delay",
    "C146_late",
    "C146_size"
   ],
   "note": ""
  },
  {
   "property": "C147",
   "status": "proved",
   "theorems": [
    "C147_speed",
    "C147_speed_commanded",
    "C147_acceleration",
    "C147_stop_refuted"
   ],
   "note": ""
  },
  {
   "property": "C148",
   "status": "proved",
   "theorems": [
    "C148_direction",
    "C148_still",
    "C148_stop",
    "C148_park_refuted"
   ],
   "note": ""
  },
  {
   "property": "C149",
   "status": "proved",
   "theorems": [
    "C149_step",
    "C149_limit",
    "C149_factor_refuted"
   ],
   "note": ""
  },
  {
   "property": "C150",
   "status": "proved",
   "theorems": [
    "C150_holds",
    "C150_rolls",
    "C150_brakes"
   ],
   "note": ""
  },
  {
   "property": "C151",
   "status": "proved",
   "theorems": [
    "C151_change",
    "C151_commanded",
    "C151_limit_refuted"
   ],
   "note": ""
  },
  {
   "property": "C152",
   "status": "proved",
   "theorems": [
    "C152_line",
    "C152_refused",
    "C152_entry",
    "C152_acceleration",
    "C152_entries",
    "C152_bounds"
   ],
   "note": ""
  },
  {
   "property": "C153",
   "status": "proved",
   "theorems": [
    "C153_position",
    "C153_motion",
    "C153_waiting",
    "C153_standing_refuted",
    "C153_ideal_refuted",
    "C153_memory_refuted",
    "C153_forgotten_refuted"
   ],
   "note": ""
  },
  {
   "property": "C154",
   "status": "proved",
   "theorems": [
    "C154_plane",
    "C154_reported",
    "C154_standing",
    "C154_jerk_refuted"
   ],
   "note": ""
  },
  {
   "property": "C155",
   "status": "proved",
   "theorems": [
    "C155_nearest",
    "C155_order",
    "C155_order_refuted"
   ],
   "note": ""
  },
  {
   "property": "C156",
   "status": "proved",
   "theorems": [
    "C156_length",
    "C156_direction",
    "C156_direction_refuted"
   ],
   "note": ""
  },
  {
   "property": "C157",
   "status": "proved",
   "theorems": [
    "C157_outline",
    "C157_polygon",
    "C157_extended"
   ],
   "note": ""
  },
  {
   "property": "C158",
   "status": "proved",
   "theorems": [
    "C158_elements",
    "C158_elements_error",
    "C158_element",
    "C158_unknown",
    "C158_repeated_refuted"
   ],
   "note": ""
  },
  {
   "property": "C159",
   "status": "proved",
   "theorems": [
    "C159_choice",
    "C159_order",
    "C159_groups",
    "C159_repeated_refuted",
    "C159_silent_refuted"
   ],
   "note": ""
  },
  {
   "property": "C160",
   "status": "proved",
   "theorems": [
    "C160_rejected",
    "C160_deterministic",
    "C160_deterministic_refuted",
    "C160_stochastic",
    "C160_stochastic_refuted"
   ],
   "note": "The property is false of the code; what the code does instead is proved for all conforming documents."
  },
  {
   "property": "C161",
   "status": "proved",
   "theorems": [
    "C161_stop_line",
    "C161_light",
    "C161_lights",
    "C161_lights_refuted"
   ],
   "note": ""
  },
  {
   "property": "C162",
   "status": "proved",
   "theorems": [
    "C162_yield",
    "C162_free"
   ],
   "note": ""
  },
  {
   "property": "C163",
   "status": "proved",
   "theorems": [
    "C163_room",
    "C163_wrong_sides",
    "C163_room_refuted",
    "C163_lateral",
    "C163_defined"
   ],
   "note": ""
  },
  {
   "property": "C164",
   "status": "proved",
   "theorems": [
    "C164_attained",
    "C164_ends",
    "C164_straight",
    "C164_curved_refuted"
   ],
   "note": ""
  },
  {
   "property": "C165",
   "status": "proved",
   "theorems": [
    "C165_ahead",
    "C165_overlap",
    "C165_overlap_refuted",
    "C165_behind_refuted"
   ],
   "note": ""
  },
  {
   "property": "C166",
   "status": "proved",
   "theorems": [
    "C166_nearest",
    "C166_off_lane"
   ],
   "note": ""
  },
  {
   "property": "C167",
   "status": "proved",
   "theorems": [
    "C167_bulb",
    "C167_upper_arrows",
    "C167_shape_refuted",
    "C167_direct",
    "C167_readable"
   ],
   "note": ""
  },
  {
   "property": "C168",
   "status": "proved",
   "theorems": [
    "C168_array",
    "C168_groups",
    "C168_no_others",
    "C168_count",
    "C168_formats",
    "C168_one_group_refuted",
    "C168_dark_refuted",
    "C168_wide_refuted"
   ],
   "note": ""
  },
  {
   "property": "C169",
   "status": "proved",
   "theorems": [
    "C169_predictions",
    "C169_not_detected",
    "C169_dark_refuted"
   ],
   "note": ""
  },
  {
   "property": "C170",
   "status": "proved",
   "theorems": [
    "C170_shown",
    "C170_nothing_else",
    "C170_truth",
    "C170_no_detector",
    "C170_wide_refuted",
    "C170_v2i",
    "C170_v2i_nothing_else"
   ],
   "note": ""
  },
  {
   "property": "C171",
   "status": "proved",
   "theorems": [
    "C171_dated",
    "C171_same",
    "C171_both_refuted",
    "C171_unknown_refuted"
   ],
   "note": ""
  },
  {
   "property": "C172",
   "status": "proved",
   "theorems": [
    "C172_status_sent",
    "C172_status_read",
    "C172_status_refused",
    "C172_read_refused",
    "C172_round_trip"
   ],
   "note": ""
  },
  {
   "property": "C173",
   "status": "proved",
   "theorems": [
    "C173_sent",
    "C173_read",
    "C173_refused",
    "C173_echo",
    "C173_answered",
    "C173_whole_refuted"
   ],
   "note": ""
  },
  {
   "property": "C174",
   "status": "proved",
   "theorems": [
    "C174_vehicle",
    "C174_object",
    "C174_subtype_refuted",
    "C174_trajectory",
    "C174_trajectory_read",
    "C174_gear",
    "C174_gear_refuted",
    "C174_control",
    "C174_control_refuted"
   ],
   "note": ""
  },
  {
   "property": "C175",
   "status": "proved",
   "theorems": [
    "C175_consistent",
    "C175_spawned"
   ],
   "note": ""
  },
  {
   "property": "C176",
   "status": "proved",
   "theorems": [
    "C176_lane",
    "C176_world",
    "C176_on_lane",
    "C176_object",
    "C176_ego_guard",
    "C176_match_refuted",
    "C176_direction_refuted",
    "C176_relative_refuted",
    "C176_ego_refuted"
   ],
   "note": ""
  },
  {
   "property": "C177",
   "status": "proved",
   "theorems": [
    "C177_lane",
    "C177_world",
    "C177_world_off",
    "C177_object",
    "C177_relative_refuted"
   ],
   "note": ""
  },
  {
   "property": "C178",
   "status": "proved",
   "theorems": [
    "C178_same",
    "C178_off",
    "C178_ego",
    "C178_not_ego"
   ],
   "note": ""
  },
  {
   "property": "C179",
   "status": "proved",
   "theorems": [
    "C179_distance",
    "C179_driven_refuted"
   ],
   "note": ""
  },
  {
   "property": "C180",
   "status": "proved",
   "theorems": [
    "C180_ego",
    "C180_driven",
    "C180_misc",
    "C180_road_end_refuted",
    "C180_object_refuted",
    "C180_stopped_refuted"
   ],
   "note": ""
  },
  {
   "property": "C181",
   "status": "proved",
   "theorems": [
    "C181_checked",
    "C181_unchecked",
    "C181_performance"
   ],
   "note": ""
  },
  {
   "property": "C182",
   "status": "proved",
   "theorems": [
    "C182_answer",
    "C182_follow",
    "C182_passed",
    "C182_standing_refuted",
    "C182_forward_refuted",
    "C182_arrived_refuted"
   ],
   "note": ""
  },
  {
   "property": "C183",
   "status": "proved",
   "theorems": [
    "C183_undefined",
    "C183_refused",
    "C183_meant",
    "C183_refuted"
   ],
   "note": ""
  },
  {
   "property": "C184",
   "status": "proved",
   "theorems": [
    "C184_points",
    "C184_lanes",
    "C184_position",
    "C184_once"
   ],
   "note": ""
  },
  {
   "property": "C185",
   "status": "proved",
   "theorems": [
    "C185_lanes",
    "C185_off_lane",
    "C185_matched",
    "C185_skipped",
    "C185_unreachable_refuted",
    "C185_dropped_refuted",
    "C185_goal_refuted"
   ],
   "note": ""
  },
  {
   "property": "C186",
   "status": "proved",
   "theorems": [
    "C186_on_lane",
    "C186_refused",
    "C186_taken_refuted",
    "C186_agree_refuted"
   ],
   "note": ""
  },
  {
   "property": "C187",
   "status": "proved",
   "theorems": [
    "C187_frame",
    "C187_asks",
    "C187_done",
    "C187_failed",
    "C187_direction_refuted",
    "C187_control_refuted"
   ],
   "note": ""
  },
  {
   "property": "C188",
   "status": "proved",
   "theorems": [
    "C188_replan",
    "C188_refuted"
   ],
   "note": ""
  },
  {
   "property": "C189",
   "status": "proved",
   "theorems": [
    "C189_each",
    "C189_refused",
    "C189_objects"
   ],
   "note": ""
  },
  {
   "property": "C190",
   "status": "proved",
   "theorems": [
    "C190_follow",
    "C190_ends",
    "C190_free",
    "C190_refused",
    "C190_limit",
    "C190_taken",
    "C190_time"
   ],
   "note": ""
  },
  {
   "property": "C191",
   "status": "proved",
   "theorems": [
    "C191_sound",
    "C191_complete",
    "C191_one",
    "C191_requests",
    "C191_step",
    "C191_continuous",
    "C191_forgotten_refuted"
   ],
   "note": ""
  },
  {
   "property": "C192",
   "status": "proved",
   "theorems": [
    "C192_ends",
    "C192_order",
    "C192_rate_refuted"
   ],
   "note": ""
  },
  {
   "property": "C193",
   "status": "proved",
   "theorems": [
    "C193_at_once",
    "C193_duration_refuted",
    "C193_lasts",
    "C193_gone",
    "C193_group_refuted",
    "C193_empty",
    "C193_requests"
   ],
   "note": ""
  },
  {
   "property": "C194",
   "status": "proved",
   "theorems": [
    "C194_before",
    "C194_once",
    "C194_order_refuted",
    "C194_ends",
    "C194_environment"
   ],
   "note": ""
  },
  {
   "property": "C195",
   "status": "proved",
   "theorems": [
    "C195_ends"
   ],
   "note": ""
  },
  {
   "property": "C196",
   "status": "proved",
   "theorems": [
    "C196_relative",
    "C196_reference",
    "C196_same",
    "C196_far_refuted",
    "C196_direction",
    "C196_ignored_refuted",
    "C196_absolute",
    "C196_kinds"
   ],
   "note": ""
  },
  {
   "property": "C197",
   "status": "proved",
   "theorems": [
    "C197_count",
    "C197_none",
    "C197_offset",
    "C197_two_refuted"
   ],
   "note": ""
  },
  {
   "property": "C198",
   "status": "proved",
   "theorems": [
    "C198_best",
    "C198_none",
    "C198_allowed",
    "C198_distance",
    "C198_offset_refuted"
   ],
   "note": ""
  },
  {
   "property": "C199",
   "status": "proved",
   "theorems": [
    "C199_answers",
    "C199_unloaded",
    "C199_repeated",
    "C199_failed_refuted"
   ],
   "note": ""
  },
  {
   "property": "C200",
   "status": "proved",
   "theorems": [
    "C200_answers",
    "C200_safe",
    "C200_ends",
    "C200_no_race",
    "C200_race_refuted",
    "C200_replace_refuted"
   ],
   "note": ""
  },
  {
   "property": "C201",
   "status": "proved",
   "theorems": [
    "C201_lane",
    "C201_first",
    "C201_box",
    "C201_position",
    "C201_neighbours_refuted",
    "C201_across",
    "C201_route",
    "C201_off_route"
   ],
   "note": ""
  },
  {
   "property": "C202",
   "status": "proved",
   "theorems": [
    "C202_nearby",
    "C202_position",
    "C202_hidden_refuted",
    "C202_subtype_refuted"
   ],
   "note": ""
  },
  {
   "property": "C203",
   "status": "proved",
   "theorems": [
    "C203_own",
    "C203_shortest",
    "C203_none",
    "C203_nearest_refuted"
   ],
   "note": ""
  },
  {
   "property": "C204",
   "status": "proved",
   "theorems": [
    "C204_on_lane",
    "C204_near",
    "C204_missing",
    "C204_failed",
    "C204_end",
    "C204_within"
   ],
   "note": ""
  },
  {
   "property": "C205",
   "status": "proved",
   "theorems": [
    "C205_stay",
    "C205_next",
    "C205_short"
   ],
   "note": ""
  },
  {
   "property": "C206",
   "status": "proved",
   "theorems": [
    "C206_direction",
    "C206_last_refuted"
   ],
   "note": ""
  },
  {
   "property": "C207",
   "status": "proved",
   "theorems": [
    "C207_nearest",
    "C207_order",
    "C207_free"
   ],
   "note": ""
  },
  {
   "property": "C208",
   "status": "proved",
   "theorems": [
    "C208_least",
    "C208_speed"
   ],
   "note": ""
  },
  {
   "property": "C209",
   "status": "proved",
   "theorems": [
    "C209_unit",
    "C209_apart",
    "C209_separate",
    "C209_front",
    "C209_front_refuted",
    "C209_standing"
   ],
   "note": ""
  },
  {
   "property": "C210",
   "status": "proved",
   "theorems": [
    "C210_corner",
    "C210_covers",
    "C210_symmetric"
   ],
   "note": ""
  },
  {
   "property": "C211",
   "status": "proved",
   "theorems": [
    "C211_goal",
    "C211_lost",
    "C211_total"
   ],
   "note": ""
  },
  {
   "property": "C212",
   "status": "proved",
   "theorems": [
    "C212_next",
    "C212_behind",
    "C212_ended",
    "C212_loop_refuted",
    "C212_success_refuted",
    "C212_end",
    "C212_followed",
    "C212_left_refuted",
    "C212_kept",
    "C212_cleared",
    "C212_request"
   ],
   "note": ""
  },
  {
   "property": "C213",
   "status": "proved",
   "theorems": [
    "C213_vertex",
    "C213_wait",
    "C213_in_time",
    "C213_last_refuted",
    "C213_absolute_refuted",
    "C213_untimed_refuted",
    "C213_zero_refuted",
    "C213_sampled_refuted"
   ],
   "note": ""
  },
  {
   "property": "C214",
   "status": "proved",
   "theorems": [
    "C214_compose",
    "C214_unit",
    "C214_rigid",
    "C214_between",
    "C214_between_unit",
    "C214_normalize",
    "C214_normalize_refused",
    "C214_normal"
   ],
   "note": ""
  },
  {
   "property": "C215",
   "status": "proved",
   "theorems": [
    "C215_start",
    "C215_finish",
    "C215_unit",
    "C215_rate",
    "C215_same",
    "C215_shortest_refuted"
   ],
   "note": ""
  },
  {
   "property": "C216",
   "status": "proved",
   "theorems": [
    "C216_order",
    "C216_axes",
    "C216_unit",
    "C216_direction",
    "C216_yaw",
    "C216_yaw_given"
   ],
   "note": ""
  },
  {
   "property": "C217",
   "status": "proved",
   "theorems": [
    "C217_still",
    "C217_refused",
    "C217_jerk_refuted"
   ],
   "note": ""
  },
  {
   "property": "C218",
   "status": "proved",
   "theorems": [
    "C218_one",
    "C218_before",
    "C218_position",
    "C218_points",
    "C218_end",
    "C218_speed",
    "C218_action",
    "C218_first_refuted",
    "C218_absolute_refuted",
    "C218_single_refuted",
    "C218_acceleration_refuted"
   ],
   "note": ""
  },
  {
   "property": "C219",
   "status": "proved",
   "theorems": [
    "C219_flip",
    "C219_displaced",
    "C219_none",
    "C219_height",
    "C219_slope_refuted"
   ],
   "note": ""
  },
  {
   "property": "C220",
   "status": "proved",
   "theorems": [
    "C220_wildcards",
    "C220_found",
    "C220_listed",
    "C220_dot_refuted"
   ],
   "note": ""
  },
  {
   "property": "C221",
   "status": "proved",
   "theorems": [
    "C221_first",
    "C221_kept",
    "C221_total",
    "C221_renamed_refuted"
   ],
   "note": ""
  },
  {
   "property": "C222",
   "status": "proved",
   "theorems": [
    "C222_cloud",
    "C222_unattributed",
    "C222_no_noise",
    "C222_detected_refuted"
   ],
   "note": ""
  },
  {
   "property": "C223",
   "status": "proved",
   "theorems": [
    "C223_ring",
    "C223_lengths",
    "C223_squared_refuted",
    "C223_ratio_refuted"
   ],
   "note": ""
  },
  {
   "property": "C224",
   "status": "proved",
   "theorems": [
    "C224_radial",
    "C224_tangential",
    "C224_across",
    "C224_amount_refuted"
   ],
   "note": ""
  },
  {
   "property": "C225",
   "status": "proved",
   "theorems": [
    "C225_orientation",
    "C225_motion",
    "C225_noise",
    "C225_covariance",
    "C225_overridden_refuted"
   ],
   "note": ""
  },
  {
   "property": "C226",
   "status": "proved",
   "theorems": [
    "C226_strength",
    "C226_upright",
    "C226_turned",
    "C226_slope_refuted",
    "C226_aside_refuted",
    "C226_rest_refuted"
   ],
   "note": ""
  },
  {
   "property": "C227",
   "status": "proved",
   "theorems": [
    "C227_columns",
    "C227_ends",
    "C227_covered",
    "C227_ray",
    "C227_cached",
    "C227_twice_refuted"
   ],
   "note": ""
  },
  {
   "property": "C228",
   "status": "proved",
   "theorems": [
    "C228_point",
    "C228_all",
    "C228_distance"
   ],
   "note": ""
  },
  {
   "property": "C229",
   "status": "proved",
   "theorems": [
    "C229_new"
   ],
   "note": ""
  },
  {
   "property": "C230",
   "status": "proved",
   "theorems": [
    "C230_found",
    "C230_gap_refuted",
    "C230_backwards_refuted"
   ],
   "note": ""
  },
  {
   "property": "C231",
   "status": "proved",
   "theorems": [
    "C231_completed",
    "C231_reports",
    "C231_collision",
    "C231_remembered",
    "C231_silent_refuted",
    "C231_last_refuted"
   ],
   "note": ""
  },
  {
   "property": "C232",
   "status": "proved",
   "theorems": [
    "C232_distance",
    "C232_inside",
    "C232_ends",
    "C232_beside_refuted"
   ],
   "note": ""
  },
  {
   "property": "C233",
   "status": "proved",
   "theorems": [
    "C233_npcs",
    "C233_ego",
    "C233_found",
    "C233_behind_refuted"
   ],
   "note": ""
  },
  {
   "property": "C234",
   "status": "proved",
   "theorems": [
    "C234_value",
    "C234_nothing",
    "C234_either"
   ],
   "note": ""
  },
  {
   "property": "C235",
   "status": "proved",
   "theorems": [
    "C235_broken",
    "C235_stays",
    "C235_again",
    "C235_defined",
    "C235_others_refuted"
   ],
   "note": ""
  },
  {
   "property": "C236",
   "status": "proved",
   "theorems": [
    "C236_state",
    "C236_only_state",
    "C236_dot",
    "C236_topic",
    "C236_heading",
    "C236_unknown",
    "C236_decimal_refuted",
    "C236_compare",
    "C236_emergency"
   ],
   "note": ""
  },
  {
   "property": "C237",
   "status": "proved",
   "theorems": [
    "C237_refer",
    "C237_order",
    "C237_order_refuted"
   ],
   "note": ""
  },
  {
   "property": "C238",
   "status": "proved",
   "theorems": [
    "C238_assigned",
    "C238_declared",
    "C238_twice",
    "C238_seen",
    "C238_default_refuted",
    "C238_two_refuted"
   ],
   "note": ""
  },
  {
   "property": "C239",
   "status": "proved",
   "theorems": [
    "C239_rate",
    "C239_asked",
    "C239_nothing",
    "C239_start_refuted"
   ],
   "note": ""
  }
 ]
}