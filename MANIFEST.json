{
 "claims": [
  {
   "property": "C01",
   "status": "proved",
   "theorems": [
    "C01_step",
    "C01_run_time",
    "C01_n_steps"
   ],
   "note": "Model_World.v; for arbitrary behaviour/execution/observer models; exact rational time."
  },
  {
   "property": "C02",
   "status": "proved",
   "theorems": [
    "C02_order_irrelevant",
    "C02_no_interference"
   ],
   "note": "Order irrelevance (stateless observer such as ObserverModelNone) and non-interference (any observer). Behaviours are assumed not to mutate the observed world through its pointers."
  },
  {
   "property": "C03",
   "status": "proved",
   "theorems": [
    "C03_clone_isolated",
    "C03_predict_leaves_original_unchanged",
    "C03_composite_behavior_isolated_refuted",
    "C03_observer_isolated_refuted",
    "C03_clone_faithful"
   ],
   "note": "Value level (Props_World) and pointer level (Props_Heap, arbitrary models/observers/operations). Isolation of inner models of composite behaviours and of the observer is refuted with witnesses."
  },
  {
   "property": "C04",
   "status": "proved",
   "theorems": [
    "C04_removal_exact",
    "C04_disabled_only_expired",
    "C04_valid_agent_outside_refuted"
   ],
   "note": "Exact characterisation; the naive expectation 'no VALID agent outside the map after a step' is refuted (index predates the move); EXPIRED agents are removed even with removal disabled."
  },
  {
   "property": "C05",
   "status": "proved",
   "theorems": [
    "C05_fresh_after_step",
    "C05_nearest",
    "C05_intersecting",
    "C05_stale_index_crash",
    "C05_added_agent_invisible",
    "C05_k_nearest_live_refuted"
   ],
   "note": "Under explicit contracts for the R-tree queries; stale-index null dereference and invisible added agents proved; 'k nearest live agents' refuted."
  },
  {
   "property": "C06",
   "status": "proved",
   "theorems": [
    "C06_table_refines_map",
    "C06_unique_ids",
    "C06_fresh_ids",
    "C06_ids_never_reused_refuted"
   ],
   "note": "Finite-map refinement for any operation sequence; ids distinct for up to 2^32 objects, reuse after wrap proved."
  },
  {
   "property": "C07",
   "status": "proved",
   "theorems": [
    "C07_history_window"
   ],
   "note": "The bound is max(1,max_history)."
  },
  {
   "property": "C08",
   "status": "proved",
   "theorems": [
    "C08_valid_from_first_timestamp",
    "C08_enters_once",
    "C08_get_valid_agents"
   ],
   "note": ""
  },
  {
   "property": "C09",
   "status": "proved",
   "theorems": [
    "C09_front_is_nearest_ahead",
    "C09_front_nearest_mode",
    "C09_front_nearest_mode_all_agents_refuted",
    "C09_ties_go_to_the_smallest_id"
   ],
   "note": "Both modes; completeness over all agents refuted for the nearest-agents mode. Frenet difference is an oracle here (see C26)."
  },
  {
   "property": "C10",
   "status": "partial",
   "theorems": [
    "C10_rear_partial",
    "C10_rear_is_nearest_behind_refuted"
   ],
   "note": "The claim itself is refuted (C10_rear_is_nearest_behind_refuted); proved: the reported rear is the one with least longitudinal difference (farthest behind), none iff nobody is behind, right if only one is behind."
  },
  {
   "property": "C11",
   "status": "partial",
   "theorems": [
    "C11_invalid_is_permanent",
    "C11_outside_becomes_invalid",
    "C11_row_hit_uniform",
    "C11_result_form",
    "C11_interpolation_partial",
    "C11_interpolates_bracketing_rows_refuted",
    "C11_row_hit_refuted"
   ],
   "note": "Row hits on uniform grids, first segment, permanence of INVALID, general result form proved; interpolation between the bracketing rows refuted (C11_interpolates_bracketing_rows_refuted), row hit on non-uniform grids refuted."
  },
  {
   "property": "C12",
   "status": "proved",
   "theorems": [
    "C12_status",
    "C12_replay"
   ],
   "note": "Exact rationals, increasing recording, positive horizon. The Frenet action computation is not modelled."
  },
  {
   "property": "C13",
   "status": "proved",
   "theorems": [
    "C13_read_returns_last_write",
    "C13_child_and_qualified_name_agree",
    "C13_trailing_colon_child_refuted"
   ],
   "note": "Model_Params: refinement of a flat assignment log for every call sequence through the root or child pointers. Side condition: names passed to AddChild do not end in a colon; C13_trailing_colon_child_refuted shows it is needed."
  },
  {
   "property": "C14",
   "status": "proved",
   "theorems": [
    "C14_condensed_list_is_exact",
    "C14_reload_is_lossless",
    "C14_trailing_colon_child_refuted",
    "C14_equality_sound",
    "C14_equality_recognises_reload",
    "C14_equality_mixed_types_unspecified"
   ],
   "note": "Exactness, reload under any hash-map iteration order, operator== soundness and completeness. Same side condition on AddChild names (refuted otherwise)."
  },
  {
   "property": "C15",
   "status": "proved",
   "theorems": [
    "C15_command_within_limits",
    "C15_tracking_command_within_limits",
    "C15_command_defined",
    "C15_coolness_one_is_nan_refuted",
    "C15_follows_the_law",
    "C15_free_road",
    "C15_leader_never_speeds_up",
    "C15_closer_leader_brakes_more",
    "C15_faster_leader_brakes_less_partial",
    "C15_faster_leader_brakes_less_refuted",
    "C15_coolness_never_brakes_harder",
    "C15_coolness_exceeds_free_road_refuted"
   ],
   "note": "Exact reals with infinities and NaN (Base_Ext.v). The three deviations are proved as _refuted theorems; monotonicity in the leader speed under the extra hypothesis that the desired gap is non-negative (_partial)."
  },
  {
   "property": "C16",
   "status": "proved",
   "theorems": [
    "C16_rollout",
    "C16_constant_acceleration",
    "C16_lane_tracking_partial",
    "C16_lane_tracking_max_velocity_refuted"
   ],
   "note": "classic, constant acceleration and lane tracking rollouts; the missing upper limit of lane tracking is the property's own exception (proved as _refuted)."
  },
  {
   "property": "C17",
   "status": "partial",
   "theorems": [
    "C17_forward_partial",
    "C17_backwards_refuted",
    "C17_backwards_bounded"
   ],
   "note": "Refuted in general (C17_backwards_refuted); proved while planned velocities stay above the minimum velocity, and the backward motion is bounded."
  },
  {
   "property": "C18",
   "status": "partial",
   "theorems": [
    "C18_accepted_is_safe_partial",
    "C18_safe_when_front_brakes_harder",
    "C18_rejected_touches",
    "C18_needed_gap_when_closest_in_motion",
    "C18_second_branch_unreachable",
    "C18_accepted_is_safe_refuted",
    "C18_front_speed_after_reaction",
    "C18_negative_gap_accepted",
    "C18_default_evaluator_always_safe",
    "C18_default_decelerations_refuted"
   ],
   "note": "Proved for continuous time: acceptance implies no contact except in the configuration closest_in_motion, every rejected gap touches; refuted in that configuration (the time the front stops is divided by the rear's deceleration, so the formula for it is dead code). The default evaluator accepts everything (crossing corridors off) and its default decelerations have the wrong sign."
  },
  {
   "property": "C19",
   "status": "partial",
   "theorems": [
    "C19_ego_in_front",
    "C19_ego_behind_partial",
    "C19_ego_behind_refuted",
    "C19_lateral_rate_of_other_ignored",
    "C19_angle_threshold_getter_refuted",
    "C19_label_conjunction"
   ],
   "note": "Ego in front: right roles. Ego behind: only with equal decelerations, refuted otherwise. Lateral rate asked of the ego twice; the angle-threshold getter returns another parameter. Label = conjunction over the nearest agents (proved)."
  },
  {
   "property": "C20",
   "status": "proved",
   "theorems": [
    "C20_norm0to2pi",
    "C20_normtopi",
    "C20_normtopi_rounded",
    "C20_float_range_refuted"
   ],
   "note": "Over the reals for any positive value of the pi constant; float conversion of NormToPI as an arbitrary rounding with bounded error, and C20_float_range_refuted for binary32 (Flocq rounding)."
  },
  {
   "property": "C21",
   "status": "proved",
   "theorems": [
    "C21_signed_angle_difference",
    "C21_signed_angle_difference_rounded"
   ],
   "note": "Exact and with float rounding."
  },
  {
   "property": "C22",
   "status": "partial",
   "theorems": [
    "C22_wraparound_refuted",
    "C22_absolute_angle_difference_partial"
   ],
   "note": "The property is false of the code: C22_wraparound_refuted (quarter turn reported as three quarters). C22_absolute_angle_difference_partial proves what holds: symmetric, in [0,2pi), zero iff same direction, min(d, 2pi-d) is the smallest rotation."
  },
  {
   "property": "C23",
   "status": "proved",
   "theorems": [
    "C23_stored_arc_lengths",
    "C23_arc_lengths_meaning",
    "C23_point_at_arc_length",
    "C23_vertices",
    "C23_ends",
    "C23_no_jumps",
    "C23_single_point_refuted",
    "C23_tangent_inside_segment"
   ],
   "note": "Model_Line over R; every sequence of building operations. One-point lines return the origin (C23_single_point_refuted)."
  },
  {
   "property": "C24",
   "status": "proved",
   "theorems": [
    "C24_nearest_point",
    "C24_repeated_start_refuted",
    "C24_short_lines"
   ],
   "note": "Global minimality incl. arc length; boost's comparable_distance is written out and proved minimal. NaN for a repeated first point shown."
  },
  {
   "property": "C25",
   "status": "proved",
   "theorems": [
    "C25_append",
    "C25_rotate",
    "C25_translate_refuted",
    "C25_reverse",
    "C25_reverse_refuted",
    "C25_concatenate",
    "C25_remove_duplicates",
    "C25_concatenate_joins_closest_ends",
    "C25_concatenate_stale_arc_lengths_refuted",
    "C25_shape_transform_of_lines",
    "C25_scaling_transform_of_lines_refuted"
   ],
   "note": "Append, Rotate (clockwise), RemoveDuplicates, Concatenate consistent; Reverse characterised exactly and refuted; Translate refuted; stale arc lengths make Concatenate misjudge crossings (refuted witness). boost intersection/simplify are parameters."
  },
  {
   "property": "C26",
   "status": "partial",
   "theorems": [
    "C26_lateral_offset",
    "C26_signed_distance_inside_segment",
    "C26_round_trip",
    "C26_round_trip_coordinates",
    "C26_beyond_end_refuted",
    "C26_velocity_components",
    "C26_extension_front_rear",
    "C26_extension_sides_partial",
    "C26_extension_sides_refuted",
    "C26_longitudinal_difference",
    "C26_lateral_difference_partial",
    "C26_swap_longitudinal",
    "C26_swap_lateral_refuted",
    "C26_touching_zero_refuted",
    "C26_angle_difference_sign_refuted"
   ],
   "note": "Proved: sign and size of the lateral coordinate, signed distance and round trips for feet strictly inside a segment, velocity components, front/rear reach for all angles, longitudinal difference = gap and antisymmetric. Refuted: lateral reach outside [0,pi/2], antisymmetry of the lateral difference, zero distance of touching vehicles, documented sign of the angle difference, positions past the end of the line."
  },
  {
   "property": "C27",
   "status": "proved",
   "theorems": [
    "C27_transform_is_rigid",
    "C27_rigid_preserves",
    "C27_body_frame_invariant",
    "C27_group",
    "C27_rotate_translate",
    "C27_polygon_from_state",
    "C27_car_rectangle_origin_refuted",
    "C27_scaling"
   ],
   "note": "Distances between points preserved, composition, identity; any pose. The stock CarRectangle has its center at (1.25,0), so its origin swings when it turns (witness)."
  },
  {
   "property": "C28",
   "status": "proved",
   "theorems": [
    "C28_step_time_and_speed",
    "C28_steering_rate_step",
    "C28_straight_no_input",
    "C28_straight_accelerating",
    "C28_many_steps",
    "C28_euler_local_error",
    "C28_rk4_heading_refuted",
    "C28_steering_limits",
    "C28_steers_towards_line",
    "C28_no_reverse_refuted",
    "C28_standing_does_not_reverse",
    "C28_evasive_acceleration_refuted",
    "C28_triple_integrator_exact",
    "C28_triple_integrator_solves_ode",
    "C28_triple_integrator_time_refuted",
    "C28_constant_input_plan",
    "C28_constant_input_triple_refuted"
   ],
   "note": "Single track: time, speed, straight motion, n steps, second-order local error against the exact bicycle motion; steering clamps incl. resulting lateral acceleration; triple integrator exact under RK4 in all axes. Additional refutations: RK4 heading not normalised, triple integrator time stays 0, admissible accelerations can reverse the vehicle in a step, evasive lateral acceleration depends on world orientation, BehaviorDynamicModel unusable with the triple integrator."
  },
  {
   "property": "C29",
   "status": "proved",
   "theorems": [
    "C29_reached_iff_accomplished_in_order",
    "C29_plain_subgoals_at_increasing_calls",
    "C29_at_most_one_subgoal_per_call",
    "C29_next_goal_is_the_one_asked",
    "C29_clone_of_plain_goals_is_independent",
    "C29_empty_goal_is_undefined",
    "C29_clone_shares_progress_refuted"
   ],
   "note": "iff characterisation for arbitrarily nested sequential goals; refutation of isolation for Clone of nested goals; sub-goal pointers assumed distinct."
  },
  {
   "property": "C30",
   "status": "proved",
   "theorems": [
    "C30_state_limits_region",
    "C30_state_limits_wraparound_refuted",
    "C30_lane_goal_region"
   ],
   "note": "Point-in-polygon test and nearest-point/tangent are quantified oracles; orientation test of the lane goal proved wrap-around safe, that of the state-limits goal refuted."
  },
  {
   "property": "C31",
   "status": "partial",
   "theorems": [
    "C31_collision_agents",
    "C31_collision_ego_sound",
    "C31_collision_ego_iff_partial",
    "C31_collision_ego_complete_refuted",
    "C31_goal_reached_all",
    "C31_goal_reached_one",
    "C31_goal_reached_corner_cases",
    "C31_drivable_area",
    "C31_behavior_expired",
    "C31_step_count",
    "C31_number_of_agents",
    "C31_number_of_agents_monotone",
    "C31_mean_evaluators"
   ],
   "note": "All evaluators proved as stated except EvaluatorCollisionEgoAgent: sound for every world; complete only for worlds of at most four agents (C31_collision_ego_iff_partial); completeness refuted with a five-agent world (C31_collision_ego_complete_refuted)."
  },
  {
   "property": "C32",
   "status": "proved",
   "theorems": [
    "C32_violations_never_decrease",
    "C32_monitored_exactly",
    "C32_reappearing_never_monitored",
    "C32_violations_counted_exactly",
    "C32_plain_rule",
    "C32_reported_number",
    "C32_first_label_wins"
   ],
   "note": "The monitor library is external: quantified over every monitor meeting the stated contract (one new rule state per wanted tuple of current agents containing a not-yet-known agent)."
  },
  {
   "property": "C33",
   "status": "proved",
   "theorems": [
    "C33_decision",
    "C33_change_is_admissible",
    "C33_rear_gap_refuted",
    "C33_change_gains_space_refuted",
    "C33_plan_follows_decision"
   ],
   "note": "The statement describes the code's actual decision; the two natural stronger readings are refuted by C33_rear_gap_refuted and C33_change_gains_space_refuted. Corridors, Frenet relation and tracking are quantified oracles."
  },
  {
   "property": "C34",
   "status": "proved",
   "theorems": [
    "C34_decision",
    "C34_change_is_safe_and_worthwhile",
    "C34_follower_safe_refuted",
    "C34_criteria_every_step_refuted"
   ],
   "note": "The statement describes the code's actual decision; the stronger readings are refuted by C34_follower_safe_refuted and C34_criteria_every_step_refuted. Real arithmetic extended with inf/NaN."
  },
  {
   "property": "C35",
   "status": "proved",
   "theorems": [
    "C35_earliest_predicted_conflict",
    "C35_plan_values",
    "C35_full_braking_without_leader",
    "C35_straight_traffic_never_yields_refuted",
    "C35_nonpositive_increment_diverges"
   ],
   "note": "Detection, plan values, braking without leader, termination for positive / divergence for non-positive increment proved for every world, oracle behaviour and parameters; the stronger reading 'always yields to the right' is refuted (C35_straight_traffic_never_yields_refuted)."
  },
  {
   "property": "C36",
   "status": "proved",
   "theorems": [
    "C36_intents_follow_sampled_durations",
    "C36_durations_are_samples_of_the_intent",
    "C36_lateral_tolerance_matches_intent",
    "C36_parameters_in_reported_regions",
    "C36_reseeding_reproduces_parameters",
    "C36_reseeded_intents_reproducible_refuted",
    "C36_clone_planning_isolated_refuted"
   ],
   "note": "Generators are quantified oracles; parameter regions for uniform and fixed distributions (normal: support is the whole double range, C59)."
  },
  {
   "property": "C37",
   "status": "proved",
   "theorems": [
    "C37_left_lane_is_the_lane_to_the_left",
    "C37_right_lane_is_the_lane_to_the_right",
    "C37_left_and_right_are_inverse",
    "C37_answers_stay_in_the_section",
    "C37_all_neighbors_of_a_side",
    "C37_one_way_road_refuted"
   ],
   "note": "Right-hand layouts in full; the one-way layout is proved wrong (C37_one_way_road_refuted). d = BOTH is outside the theorem."
  },
  {
   "property": "C38",
   "status": "proved",
   "theorems": [
    "C38_find_path",
    "C38_routes_are_connected",
    "C38_drivable_path",
    "C38_search_defined",
    "C38_drivable_search_out_of_bounds",
    "C38_road_path",
    "C38_road_path_unknown",
    "C38_search_contract_satisfiable"
   ],
   "note": "boost::dijkstra_shortest_paths is an oracle with its documented contract, shown satisfiable by a verified Dijkstra; FindRoadPath for maps with one section per road. Which num_vertices behaviour applies depends on the Boost release, both are covered."
  },
  {
   "property": "C39",
   "status": "proved",
   "theorems": [
    "C39_next_lane"
   ],
   "note": "On generated graphs; successor edges exist in both orientations, so the next lane may be a predecessor if its road is in the list."
  },
  {
   "property": "C40",
   "status": "proved",
   "theorems": [
    "C40_no_corridor_between_roads",
    "C40_returns_null"
   ],
   "note": "for every map, road search and pair of roads the overload returns null and leaves the store unchanged"
  },
  {
   "property": "C41",
   "status": "proved",
   "theorems": [
    "C41_lanes_of_the_roads",
    "C41_next_lane",
    "C41_lane_corridors_are_chains",
    "C41_every_usable_lane_has_a_corridor",
    "C41_lane_corridor_query",
    "C41_starts_are_new",
    "C41_starts_have_no_predecessor",
    "C41_corridors_are_disjoint",
    "C41_corridor_is_built",
    "C41_steps_do_not_matter",
    "C41_return_route_never_ends",
    "C41_sides_of_a_lane",
    "C41_lines_of_a_corridor",
    "C41_lanes_in_driving_order",
    "C41_current_corridor",
    "C41_nearest_corridor",
    "C41_left_right_corridor",
    "C41_left_right_outside",
    "C41_current_lane",
    "C41_sentinel",
    "C41_cache",
    "C41_corridor_to_goal",
    "C41_agent_without_route",
    "C41_agent_without_goal",
    "C41_agent_with_route",
    "C41_maximal_in_any_order_refuted",
    "C41_lane_change_before_a_merge_never_ends",
    "C41_colliding_keys_refuted"
   ],
   "note": "chains, coverage, termination on simple routes, non-termination on return routes, neighbours, lines, queries, cache and agent; geometric line operations (ConcatenateLinestring, ComputeCenterLine, Simplify, polygon tests) are quantified oracles; backward maximality in arbitrary order is refuted by C41_maximal_in_any_order_refuted"
  },
  {
   "property": "C42",
   "status": "proved",
   "theorems": [
    "C42_action_executes_its_primitive",
    "C42_unknown_action",
    "C42_first_plan_with_check",
    "C42_available_set_is_frozen",
    "C42_later_plans",
    "C42_legal_actions",
    "C42_reported_number_refuted",
    "C42_reported_action_refuted",
    "C42_reported_action_partial",
    "C42_executes_unavailable_refuted",
    "C42_valid_before_plan_refuted",
    "C42_added_index_stays",
    "C42_status_always_valid",
    "C42_change_left_target",
    "C42_change_right_target",
    "C42_stay_keeps_target",
    "C42_held_change_left",
    "C42_random_choice",
    "C42_random_with_check_refuted",
    "C42_from_parameters"
   ],
   "note": "the wished-for 'currently valid' selection is refuted by C42_executes_unavailable_refuted, C42_reported_number_refuted, C42_reported_action_refuted; primitives as values (not shared pointers)"
  },
  {
   "property": "C43",
   "status": "proved",
   "theorems": [
    "C43_continuous_plan",
    "C43_time_grid",
    "C43_zero_horizon",
    "C43_unknown_action",
    "C43_past_horizon",
    "C43_other_models",
    "C43_add_input",
    "C43_index_action_stops_followers_refuted",
    "C43_const_acc_plan",
    "C43_const_acc_speed",
    "C43_restricted_acc",
    "C43_stay_lane_precondition",
    "C43_change_precondition",
    "C43_no_target_expires"
   ],
   "note": "exact real arithmetic"
  },
  {
   "property": "C44",
   "status": "proved",
   "theorems": [
    "C44_assignment",
    "C44_defined",
    "C44_hidden_agents_stay_hidden"
   ],
   "note": ""
  },
  {
   "property": "C45",
   "status": "partial",
   "theorems": [
    "C45_not_selected_exact",
    "C45_observation",
    "C45_missing_agent",
    "C45_succeeds",
    "C45_deviation",
    "C45_too_few_components",
    "C45_orthogonal_refuted",
    "C45_orthogonal_iff"
   ],
   "note": "Everything but the last clause is proved (C45_observation, C45_not_selected_exact, C45_missing_agent, C45_succeeds, C45_deviation). The orthogonal displacement is refuted (C45_orthogonal_refuted) and the exact condition for it given (C45_orthogonal_iff)."
  },
  {
   "property": "C46",
   "status": "proved",
   "theorems": [
    "C46_length_between",
    "C46_lines_exact",
    "C46_arc_not_counted",
    "C46_trailing_arc_refuted"
   ],
   "note": "text describes the code: trailing arcs are not counted (C46_trailing_arc_refuted refutes the naive claim)"
  },
  {
   "property": "C47",
   "status": "partial",
   "theorems": [
    "C47_lateral_towards_each_other",
    "C47_lateral_same_direction_refuted",
    "C47_lateral_apart_or_overlapping"
   ],
   "note": "Exact iff for vehicles moving towards each other; refuted for the same direction."
  },
  {
   "property": "C48",
   "status": "proved",
   "theorems": [
    "C48_line_from_interval",
    "C48_empty_interval_at_vertex_refuted",
    "C48_shifted_line",
    "C48_straight_line_shifted_left"
   ],
   "note": ""
  },
  {
   "property": "C49",
   "status": "proved",
   "theorems": [
    "C49_center_line"
   ],
   "note": ""
  },
  {
   "property": "C50",
   "status": "partial",
   "theorems": [
    "C50_extents_partial",
    "C50_left_right_swapped_refuted",
    "C50_inflate_body_frame",
    "C50_scale_body_frame",
    "C50_extents_after_inflate_refuted",
    "C50_bounding_box"
   ],
   "note": "Front/rear extents, Inflate/Scale in the body frame for every heading and the bounding box proved; refuted: left/right are swapped, and extents after Inflate of a rotated shape are those of the axis-parallel box."
  },
  {
   "property": "C51",
   "status": "proved",
   "theorems": [
    "C51_lateral_acceleration",
    "C51_undefined_across"
   ],
   "note": ""
  },
  {
   "property": "C52",
   "status": "proved",
   "theorems": [
    "C52_free_road_rollout_uses_initial_speed",
    "C52_law_at_planned_speed_refuted",
    "C52_leader_rollout",
    "C52_assumed_gap",
    "C52_gap_optimism",
    "C52_gap_optimism_refuted"
   ],
   "note": "The stated behaviour is proved for the free road and, for coolness in [0,1) and no backwards driving, behind a leader (plus concrete refutations of the law a reader would expect). Not covered: a leader together with the brake-at-lane-end option, and coolness >= 1."
  },
  {
   "property": "C53",
   "status": "proved",
   "theorems": [
    "C53_nearest_obstacle",
    "C53_no_corridor_expires"
   ],
   "note": "A constant lane corridor set from outside is not modelled."
  },
  {
   "property": "C54",
   "status": "proved",
   "theorems": [
    "C54_points_on_curve",
    "C54_curve_unique",
    "C54_spiral_constant_curvature_refuted",
    "C54_arc_zero_curvature_refuted",
    "C54_zero_increment_hangs"
   ],
   "note": "positive part plus refutations for constant-curvature spirals, zero-curvature arcs, zero increment"
  },
  {
   "property": "C55",
   "status": "proved",
   "theorems": [
    "C55_offset_transform",
    "C55_counterclockwise_refuted",
    "C55_positions_lost_refuted"
   ],
   "note": "text describes the code; the _refuted theorems show the deviation from the OpenDRIVE convention"
  },
  {
   "property": "C56",
   "status": "proved",
   "theorems": [
    "C56_constant_width",
    "C56_variable_width",
    "C56_append"
   ],
   "note": "simplification is an arbitrary function; the claim is about the vertices handed to the final simplification"
  },
  {
   "property": "C57",
   "status": "proved",
   "theorems": [
    "C57_other_agents",
    "C57_observe_for_other",
    "C57_predict",
    "C57_world_at_time"
   ],
   "note": ""
  },
  {
   "property": "C58",
   "status": "proved",
   "theorems": [
    "C58_siblings_share_agents",
    "C58_original_untouched",
    "C58_predict_isolated"
   ],
   "note": "Stated for the default observer; at the pointer level (Model_Heap.v)."
  },
  {
   "property": "C59",
   "status": "proved",
   "theorems": [
    "C59_reseeding_reproduces_samples",
    "C59_reseeding_equals_construction",
    "C59_odd_multivariate_reseeding_refuted",
    "C59_samples_in_support",
    "C59_uniform_range",
    "C59_bernoulli"
   ],
   "note": "mt19937, the quantile of the normal distribution and Eigen's decomposition are oracles; the generator's output is only assumed in [0,1)."
  },
  {
   "property": "C60",
   "status": "proved",
   "theorems": [
    "C60_every_current_state_deviated_once",
    "C60_unlisted_agents_see_the_truth",
    "C60_state_deviation",
    "C60_lateral_deviation_orthogonal_refuted",
    "C60_default_configuration_fails",
    "C60_copy_keeps_restriction_refuted",
    "C60_spatial_queries_see_deviated_states_refuted"
   ],
   "note": "Statement describes the actual behaviour; failed expectations are proved as _refuted theorems."
  },
  {
   "property": "C61",
   "status": "proved",
   "theorems": [
    "C61_generate_is_defined",
    "C61_successor_lanes",
    "C61_vertices",
    "C61_plan_view_for_lane"
   ],
   "note": "Statement describes the actual behaviour."
  },
  {
   "property": "C62",
   "status": "proved",
   "theorems": [
    "C62_lane_polygon",
    "C62_no_inner_lane_no_polygon"
   ],
   "note": ""
  },
  {
   "property": "C63",
   "status": "proved",
   "theorems": [
    "C63_all_paths_are_isolated_lanes",
    "C63_all_paths_defined"
   ],
   "note": "Statement describes the actual behaviour; defined for num_vertices counting all vertices, otherwise possibly undefined."
  },
  {
   "property": "C64",
   "status": "proved",
   "theorems": [
    "C64_status",
    "C64_limits",
    "C64_expired",
    "C64_executes",
    "C64_safety_corridor",
    "C64_safety_corridor_kept",
    "C64_undefined_first_step_off_lane",
    "C64_undefined_without_verdict",
    "C64_undefined_after_losing_the_lane",
    "C64_clone_is_independent_refuted"
   ],
   "note": "Status, executed plan, corridor history over arbitrary runs, undefined steps; clone sharing refuted as stated. The lane-tracking model, evaluator and map queries are arbitrary functions."
  },
  {
   "property": "C65",
   "status": "proved",
   "theorems": [
    "C65_verdict",
    "C65_world_verdict",
    "C65_pairwise",
    "C65_verdict_is_all_pairwise",
    "C65_directional",
    "C65_pairwise_hides_a_violation_refuted",
    "C65_failed_check_is_reported_safe_refuted"
   ],
   "note": "Verdict and pairwise answers for an arbitrary RSS library; the two NOT-guaranteed parts are refuted by construction. ad-rss-lib itself is external."
  },
  {
   "property": "C66",
   "status": "proved",
   "theorems": [
    "C66_response_lags_one_evaluation",
    "C66_response_history",
    "C66_street_limits",
    "C66_vehicle_limits",
    "C66_conversion_ignores_history",
    "C66_reversed_when_driving_against_the_road"
   ],
   "note": "Response lag over arbitrary histories; limits in street and vehicle frame."
  },
  {
   "property": "C67",
   "status": "proved",
   "theorems": [
    "C67_longitudinal",
    "C67_lateral",
    "C67_surrounds_the_vehicle_refuted",
    "C67_polygon",
    "C67_second_call_appends"
   ],
   "note": "Exact displacement of every vertex; containment refuted."
  },
  {
   "property": "C68",
   "status": "proved",
   "theorems": [
    "C68_relevant_agents",
    "C68_stopping_distance_used",
    "C68_upper_bound_refuted",
    "C68_monotone_in_speed"
   ],
   "note": "With the kinematic formulas of ad-rss-lib (valid inputs, speed limit not reached)."
  },
  {
   "property": "C69",
   "status": "proved",
   "theorems": [
    "C69_one_label_per_valid_other_agent",
    "C69_front_behind",
    "C69_no_lane",
    "C69_front_behind_dual",
    "C69_side",
    "C69_rel_speed",
    "C69_near",
    "C69_preceding",
    "C69_front_straight",
    "C69_front_of_antisymmetric_refuted"
   ],
   "note": "Polygon distance and the road-corridor lane queries are oracles (the queries are modelled in Model_Corridor; 'the current lane is the nearest lane' is an explicit premise of the duality theorem)."
  },
  {
   "property": "C70",
   "status": "proved",
   "theorems": [
    "C70_outermost",
    "C70_at_lane_end",
    "C70_at_lane_end_refuted",
    "C70_accelerate",
    "C70_accelerate_equal_times",
    "C70_dense_traffic",
    "C70_beyond",
    "C70_other_labels",
    "C70_lane_change",
    "C70_lane_change_straight",
    "C70_generic_history_free",
    "C70_never_beyond_lane_end",
    "C70_dense_traffic_counts_absent_agents"
   ],
   "note": "Intersection of two polylines is an oracle with the contract 'they share a point'; polygon containment is an oracle."
  },
  {
   "property": "C71",
   "status": "proved",
   "theorems": [
    "C71_violations_are_real",
    "C71_violations_up_to_four_agents",
    "C71_missing_ego",
    "C71_counts_violations",
    "C71_world_without_agent",
    "C71_world_with_agent",
    "C71_drivable_area",
    "C71_five_agents_refuted",
    "C71_no_violation_no_collision",
    "C71_required_distance",
    "C71_reference_on_rear_edge_refuted"
   ],
   "note": "Collide of polygons is an oracle; its contract for rectangles (common point) is explicit and shown satisfiable. The int counter is unbounded in the model."
  },
  {
   "property": "C72",
   "status": "proved",
   "theorems": [
    "C72_indices",
    "C72_configs_complete",
    "C72_configs_per_behavior",
    "C72_generation"
   ],
   "note": "For the modelled Python code; simulation, evaluators, pickle sizes and the behavior of the components are quantified."
  },
  {
   "property": "C73",
   "status": "proved",
   "theorems": [
    "C73_stops_at_first",
    "C73_row_means",
    "C73_runs_on",
    "C73_history_length",
    "C73_row_columns",
    "C73_terminal_why",
    "C73_terminal_per_set"
   ],
   "note": "For the modelled Python code; simulation, evaluators, pickle sizes and the behavior of the components are quantified."
  },
  {
   "property": "C74",
   "status": "proved",
   "theorems": [
    "C74_rows",
    "C74_checkpoints_irrelevant",
    "C74_archive",
    "C74_overwrites_refuted",
    "C74_views_disagree_refuted"
   ],
   "note": "The overwriting of an unmerged directory and the disagreeing getters are counterexample theorems (suffix _refuted)."
  },
  {
   "property": "C75",
   "status": "proved",
   "theorems": [
    "C75_resume_exactly_once",
    "C75_resume_completed",
    "C75_merge_crash_safe",
    "C75_killed_not_resumable_refuted",
    "C75_second_resume_refuted"
   ],
   "note": "Safety proved for all crash points at file-operation granularity; the two unrecoverable situations are theorems (suffix _refuted)."
  },
  {
   "property": "C76",
   "status": "proved",
   "theorems": [
    "C76_row_index",
    "C76_confined",
    "C76_not_confined",
    "C76_no_criteria",
    "C76_aborts_run"
   ],
   "note": "For the modelled Python code; simulation, evaluators, pickle sizes and the behavior of the components are quantified."
  },
  {
   "property": "C77",
   "status": "proved",
   "theorems": [
    "C77_split",
    "C77_rows",
    "C77_no_actor",
    "C77_not_resumable_refuted"
   ],
   "note": "For the modelled Python code; simulation, evaluators, pickle sizes and the behavior of the components are quantified."
  },
  {
   "property": "C78",
   "status": "proved",
   "theorems": [
    "C78_roundtrip",
    "C78_load_selected",
    "C78_reload_refuted",
    "C78_too_large",
    "C78_member_clash",
    "C78_dump_moves"
   ],
   "note": "For the modelled Python code; simulation, evaluators, pickle sizes and the behavior of the components are quantified."
  },
  {
   "property": "C79",
   "status": "proved",
   "theorems": [
    "C79_selection",
    "C79_single_ignored_refuted",
    "C79_add"
   ],
   "note": "For the modelled Python code; simulation, evaluators, pickle sizes and the behavior of the components are quantified."
  },
  {
   "property": "C80",
   "status": "proved",
   "theorems": [
    "C80_get_scenario_unaffected",
    "C80_get_scenario_index",
    "C80_next_cycles",
    "C80_empty_raises",
    "C80_loop",
    "C80_nested_loop_refuted",
    "C80_worlds_are_harmless",
    "C80_reloaded_without_map",
    "C80_nested_parameters_shared_refuted"
   ],
   "note": "Text describes the code. C80_nested_loop_refuted and C80_nested_parameters_shared_refuted prove the exceptions named in the text."
  },
  {
   "property": "C81",
   "status": "proved",
   "theorems": [
    "C81_find_configs",
    "C81_find_configs_returns",
    "C81_find_configs_raises",
    "C81_scenario_ids",
    "C81_congruent",
    "C81_congruent_returns_iff",
    "C81_render_frames",
    "C81_viewer_shows",
    "C81_missing_history_raises_refuted",
    "C81_visualize_all",
    "C81_visualize_unknown_config_stops",
    "C81_unknown_configs_no_restriction_refuted",
    "C81_sets_mixed_refuted"
   ],
   "note": "Text describes the code, including its exceptions (theorems with suffix _refuted prove them)."
  },
  {
   "property": "C82",
   "status": "proved",
   "theorems": [
    "C82_step_needs_reset",
    "C82_run_raises_refuted",
    "C82_history_records",
    "C82_history_length",
    "C82_no_history",
    "C82_time_series",
    "C82_failed_reset",
    "C82_reset_clears",
    "C82_reset_restarts",
    "C82_reset_ready",
    "C82_reset_same_scenario_refuted"
   ],
   "note": "Text describes the code. C82_run_raises_refuted and C82_reset_same_scenario_refuted prove the exceptions named in the text."
  },
  {
   "property": "C83",
   "status": "proved",
   "theorems": [
    "C83_agents",
    "C83_ids",
    "C83_sizes",
    "C83_succeeds",
    "C83_scenarios",
    "C83_empty_source",
    "C83_kwargs",
    "C83_first_scenario"
   ],
   "note": "readers are arbitrary state-passing functions that may raise"
  },
  {
   "property": "C84",
   "status": "proved",
   "theorems": [
    "C84_failure_kind",
    "C84_copyable_iff",
    "C84_copy_keeps",
    "C84_copy_loses",
    "C84_inner_models_replaced_refuted",
    "C84_goal_starts_over",
    "C84_fresh_goal_kept",
    "C84_corridor_rebuilt",
    "C84_corridor_lost",
    "C84_corridor_searched",
    "C84_history_window",
    "C84_copy_idempotent"
   ],
   "note": "The round trip is exact for the listed fields; losses are stated by C84_copy_loses and C84_inner_models_replaced_refuted. Parameter objects come back through their condensed list (C14)."
  },
  {
   "property": "C85",
   "status": "proved",
   "theorems": [
    "C85_find",
    "C85_find_raises",
    "C85_resolved",
    "C85_resolve_succeeds",
    "C85_orientation",
    "C85_one_of_two",
    "C85_refused",
    "C85_boxes_demand_scheme_refuted",
    "C85_not_applied_refuted"
   ],
   "note": "box index and polygon collision are oracles with a contract (Spec_ScenGen.geometry_contract), the actual defects stated in the property are proved as _refuted theorems"
  },
  {
   "property": "C86",
   "status": "proved",
   "theorems": [
    "C86_spacing",
    "C86_terminates",
    "C86_diverges",
    "C86_in_range",
    "C86_lane_recorded",
    "C86_default_positions_refuted",
    "C86_default_goals_refuted"
   ],
   "note": "exact rational positions; random draws are an arbitrary sequence in [0,1]"
  },
  {
   "property": "C87",
   "status": "proved",
   "theorems": [
    "C87_none",
    "C87_random",
    "C87_ids",
    "C87_positioning",
    "C87_positioning_single_lane_partial",
    "C87_positioning_refuted",
    "C87_goal_lane",
    "C87_goals_per_agent",
    "C87_goal_kind",
    "C87_off_lane"
   ],
   "note": "property text describes what the code does; C87_positioning_single_lane_partial / _refuted settle the intended reading"
  },
  {
   "property": "C88",
   "status": "proved",
   "theorems": [
    "C88_first_window",
    "C88_terminates",
    "C88_recorded",
    "C88_moves_on",
    "C88_fresh",
    "C88_stuck",
    "C88_initial_state",
    "C88_first_window_skipped_refuted",
    "C88_zero_minimum_refuted",
    "C88_between_samples_refuted"
   ],
   "note": "property text describes what the code does, including the three defects proved as _refuted"
  },
  {
   "property": "C89",
   "status": "proved",
   "theorems": [
    "C89_rounding",
    "C89_usable",
    "C89_scenarios",
    "C89_agents",
    "C89_succeeds",
    "C89_distinct",
    "C89_excluded_refuted",
    "C89_offset_refuted",
    "C89_replay_ids",
    "C89_replay_no_end"
   ],
   "note": "road geometry is an arbitrary predicate on motion states; float seconds/milliseconds conversion is exact in the model"
  },
  {
   "property": "C90",
   "status": "proved",
   "theorems": [
    "C90_lane",
    "C90_s_min_ignored_refuted",
    "C90_stacked_refuted",
    "C90_ends",
    "C90_endless_refuted",
    "C90_count",
    "C90_controlled",
    "C90_controlled_model_refuted",
    "C90_ids",
    "C90_all_scenarios"
   ],
   "note": "the _refuted theorems show the traps named in the statement: s_min unused, agents stacked at the lane end, endless placing, the controlled agent without behavior model. Draws are an arbitrary stream in [0,1); positions and speeds rational; map and geometry opaque"
  },
  {
   "property": "C91",
   "status": "proved",
   "theorems": [
    "C91_forward",
    "C91_backward_refuted",
    "C91_backward_elsewhere_refuted",
    "C91_all_forward",
    "C91_ego_route",
    "C91_ego_picked",
    "C91_ego_none_refuted",
    "C91_lanes_differ",
    "C91_ends",
    "C91_all_scenarios"
   ],
   "note": "the statement names the traps; the _refuted theorems prove them (map reversed in place through the reference binding, agents outside the route, no agent to pick). Lines and map queries opaque; C91_backward_elsewhere needs the explicit contract that positions on the reversed line count from its other end"
  },
  {
   "property": "C92",
   "status": "proved",
   "theorems": [
    "C92_assign",
    "C92_stored_as_is",
    "C92_read_back",
    "C92_default_stored",
    "C92_first_default_wins",
    "C92_get_keeps",
    "C92_get_raises",
    "C92_shadowed_refuted",
    "C92_item_refuted",
    "C92_described_assignment_lost_refuted",
    "C92_empty_list_swallows_refuted",
    "C92_assign_below_value",
    "C92_broadcast",
    "C92_delete_child",
    "C92_add_child"
   ],
   "note": "The traps are the _refuted theorems, as stated in the property. Python exceptions as None; json text, logging and descriptions not modelled"
  },
  {
   "property": "C93",
   "status": "proved",
   "theorems": [
    "C93_from_dict",
    "C93_to_dict",
    "C93_roundtrip",
    "C93_clone",
    "C93_clone_same",
    "C93_clone_empty_refuted",
    "C93_condensed",
    "C93_lost_refuted"
   ],
   "note": "Empty groups and untransferable parameters as the property says (_refuted theorems). Python exceptions as None; json text, logging and descriptions not modelled"
  },
  {
   "property": "C94",
   "status": "proved",
   "theorems": [
    "C94_append",
    "C94_merged_right",
    "C94_merged_left",
    "C94_merged_clash",
    "C94_append_shares_refuted",
    "C94_find_key",
    "C94_compare",
    "C94_one_sided_refuted",
    "C94_group_list_refuted",
    "C94_clone_equal"
   ],
   "note": "The parameters reported by HasEqualParamsAs are modelled, only the truth value is characterised. Python exceptions as None; json text, logging and descriptions not modelled"
  },
  {
   "property": "C95",
   "status": "proved",
   "theorems": [
    "C95_roads",
    "C95_lane_ids",
    "C95_map_ok",
    "C95_no_gap",
    "C95_contiguous",
    "C95_graph",
    "C95_junctions",
    "C95_required"
   ],
   "note": "xml trees, number parsing and geometry operations are parameters"
  },
  {
   "property": "C96",
   "status": "proved",
   "theorems": [
    "C96_borders",
    "C96_no_width",
    "C96_constant_width",
    "C96_lane_offset_refuted"
   ],
   "note": "the property describes the actual behaviour; the shift OpenDRIVE defines is refuted (C96_lane_offset_refuted)"
  },
  {
   "property": "C97",
   "status": "proved",
   "theorems": [
    "C97_used_attributes",
    "C97_section_start_ignored",
    "C97_contact_point_ignored",
    "C97_geometry_start_ignored"
   ],
   "note": "by a simulation between trees"
  },
  {
   "property": "C98",
   "status": "proved",
   "theorems": [
    "C98_nearest_lanes",
    "C98_all_lanes",
    "C98_find_lane",
    "C98_current_lane_and_road",
    "C98_bounding_box",
    "C98_no_map",
    "C98_corridor_between_points",
    "C98_store_empty",
    "C98_store_kept",
    "C98_nearest_is_not_where_you_are_refuted",
    "C98_find_lane_misses_refuted"
   ],
   "note": "The property describes what the code does; the stronger readings (nearest lane = lane under the point; FindXodrLane complete on any map) are refuted by C98_..._refuted."
  },
  {
   "property": "C99",
   "status": "proved",
   "theorems": [
    "C99_missing_file",
    "C99_load",
    "C99_one_lane",
    "C99_find_lane",
    "C99_bounding_box",
    "C99_agent_corridor",
    "C99_corridor_between_points"
   ],
   "note": "Column parsing (stod, tokenizer) abstracted to optional rationals per cell."
  },
  {
   "property": "C100",
   "status": "proved",
   "theorems": [
    "C100_point_queries_follow_the_map",
    "C100_corridors_survive",
    "C100_table_mark_survives",
    "C100_corridors_follow_the_map_refuted"
   ],
   "note": "States the stale corridors as they are; C100_corridors_follow_the_map_refuted is a concrete instance."
  },
  {
   "property": "C101",
   "status": "proved",
   "theorems": [
    "C101_scenarios",
    "C101_random_seed_is_ignored",
    "C101_fixed_states_are_deterministic",
    "C101_when_generation_succeeds",
    "C101_world_has_one_agent_per_id",
    "C101_controlled_agents_exist_refuted"
   ],
   "note": "Also shown: with default controlled_ids no agent under evaluation need exist (refuted expectation)."
  },
  {
   "property": "C102",
   "status": "proved",
   "theorems": [
    "C102_csv_export_leaves_these_files",
    "C102_csv_export_succeeds_iff",
    "C102_openscenario_export_leaves_these_files",
    "C102_openscenario_export_succeeds_iff",
    "C102_csv_several",
    "C102_openscenario_several",
    "C102_csv_stops_at_the_first_failure",
    "C102_exported_configs",
    "C102_nothing_selected_is_refused",
    "C102_history_is_the_end_of_the_run",
    "C102_trajectories_cover_the_run_refuted",
    "C102_every_config_keeps_its_map_refuted",
    "C102_filter_restricts_the_list_refuted"
   ],
   "note": "Refuted expectations shown: the table covers the whole run, every config keeps its map, the filter restricts the list."
  },
  {
   "property": "C103",
   "status": "proved",
   "theorems": [
    "C103_followed_agent",
    "C103_world_bounds",
    "C103_follows_the_agent",
    "C103_fixed_centre",
    "C103_camera_options",
    "C103_false_does_not_follow_refuted",
    "C103_default_length_of_x_range_refuted",
    "C103_keywords_survive_a_benchmark_refuted"
   ],
   "note": "three natural readings (False does not follow, default x length is that of the x range, keywords survive a benchmark) are refuted, the statement describes the code"
  },
  {
   "property": "C104",
   "status": "proved",
   "theorems": [
    "C104_pictures",
    "C104_view_of_a_picture",
    "C104_colours_are_kept",
    "C104_up_to_18_agents_are_told_apart",
    "C104_19_agents_are_told_apart_refuted",
    "C104_debug_drawing_without_evaluated_agent_refuted"
   ],
   "note": "RSS/LTL/text drawings only as far as they need an evaluated agent; shapes and lanes are not kept"
  },
  {
   "property": "C105",
   "status": "proved",
   "theorems": [
    "C105_frames_of_the_worlds",
    "C105_video_shows_the_worlds",
    "C105_old_frames_follow",
    "C105_intermediate_steps",
    "C105_refused",
    "C105_intermediate_pictures_are_in_the_video_refuted"
   ],
   "note": "ffmpeg reduced to the frames it reads (0,1,2,... up to the first missing)"
  },
  {
   "property": "C106",
   "status": "proved",
   "theorems": [
    "C106_every_schedule",
    "C106_replay",
    "C106_waits",
    "C106_latest_is_unique",
    "C106_never_a_later_world_refuted",
    "C106_never_fails_refuted"
   ],
   "note": "one access per step, sequentially consistent; clock exact"
  },
  {
   "property": "C107",
   "status": "proved",
   "theorems": [
    "C107_draw",
    "C107_primitives_pile_up",
    "C107_observed_world_has_its_own_renderer",
    "C107_other_renderers_are_untouched",
    "C107_clones_share",
    "C107_every_picture_shows_its_world",
    "C107_copies_are_separate_refuted",
    "C107_failed_drawing_leaves_no_trace_refuted",
    "C107_points_can_be_drawn_refuted"
   ],
   "note": "geometry opaque; colours are symbols"
  },
  {
   "property": "C108",
   "status": "proved",
   "theorems": [
    "C108_fixed_behaviors",
    "C108_fixed_next_scenario",
    "C108_fixed_dynamics",
    "C108_execution_parameters_configurable_refuted",
    "C108_sampled_behaviors",
    "C108_sample_needs_all_types",
    "C108_track_behaviors",
    "C108_fixed_stops",
    "C108_saved_configuration_works_refuted"
   ],
   "note": "all readers for every tree-shaped configuration; hypotheses: no parameter of a class lies below another one of the class (true of the BARK classes). Two expectations refuted and described in the statement."
  },
  {
   "property": "C109",
   "status": "proved",
   "theorems": [
    "C109_screen_is_the_view",
    "C109_map_under_shapes",
    "C109_default_scales_agree",
    "C109_scale_always_agrees_refuted",
    "C109_whole_map_under_shapes",
    "C109_map_scrolls_with_followed_agent_refuted",
    "C109_map_box"
   ],
   "note": "The property describes the actual behaviour; the _refuted theorems show where the natural expectation (one scale for all, map scrolls with a followed agent) fails."
  },
  {
   "property": "C110",
   "status": "proved",
   "theorems": [
    "C110_layers",
    "C110_order_never_changes",
    "C110_without_clearing_everything_stays",
    "C110_lines_are_drawn_refuted",
    "C110_clear_without_screen_refuted",
    "C110_colours",
    "C110_rgb",
    "C110_names_mean_their_colour_refuted",
    "C110_dashes"
   ],
   "note": "The property describes the actual behaviour; the _refuted theorems show where the natural expectation fails."
  },
  {
   "property": "C111",
   "status": "proved",
   "theorems": [
    "C111_point",
    "C111_line",
    "C111_line_transform_after",
    "C111_line_transform_moves",
    "C111_polygon_transform_moves",
    "C111_line_center_refuted",
    "C111_reversed_line_refuted",
    "C111_line_of_array",
    "C111_area_is_shoelace",
    "C111_constructed_ring",
    "C111_constructed_polygon",
    "C111_polygon",
    "C111_moved_polygon",
    "C111_shifted_polygon",
    "C111_empty_polygon_refuted",
    "C111_turned_polygon_extents_refuted",
    "C111_added_points"
   ],
   "note": "The property describes the actual behaviour; the _refuted theorems give the cases in which a natural expectation fails. Doubles are real numbers; boost's correct and envelope are modelled."
  },
  {
   "property": "C112",
   "status": "proved",
   "theorems": [
    "C112_distance_to_sub_goal_passed_last",
    "C112_nested_goals_have_a_shape",
    "C112_zero_when_passed",
    "C112_distance_to_what_is_left_refuted"
   ],
   "note": "The property describes the actual behaviour; C112_distance_to_what_is_left_refuted shows the natural expectation fails. The polygon-point distance is a parameter."
  },
  {
   "property": "C113",
   "status": "proved",
   "theorems": [
    "C113_route_flag",
    "C113_best_planned_route",
    "C113_guessed_route",
    "C113_no_route",
    "C113_start_in_direction",
    "C113_scenes",
    "C113_no_close_agent_is_missed",
    "C113_far_agents_do_not_matter",
    "C113_time_resolution",
    "C113_route_found_means_planned_refuted"
   ],
   "note": "The route flag, the choice of the route in all cases, the scenes handed to the library, non-influence of far agents; the expectation that a found route leads to the goal is refuted for probability zero (C113_route_found_means_planned_refuted). RSS, map matching and planner are arbitrary functions."
  },
  {
   "property": "C114",
   "status": "proved",
   "theorems": [
    "C114_lanes_are_drivable",
    "C114_no_holes",
    "C114_first_part_is_kept",
    "C114_failed_lane_is_skipped",
    "C114_add_polygon",
    "C114_area_lost_when_it_cannot_grow",
    "C114_junction_area",
    "C114_junction_area_depends_on_its_lanes_only",
    "C114_junction_ids",
    "C114_full_junction_area",
    "C114_every_lane_is_drivable_refuted"
   ],
   "note": "Stated with the conditions under which it holds; the unconditional expectation is refuted (C114_every_lane_is_drivable_refuted). boost union, buffer and correct are arguments with stated laws."
  },
  {
   "property": "C115",
   "status": "proved",
   "theorems": [
    "C115_get_road",
    "C115_get_lane",
    "C115_road_sections",
    "C115_new_road",
    "C115_new_section",
    "C115_section_lane",
    "C115_road_lane",
    "C115_bounding_box",
    "C115_empty_map_box",
    "C115_merge_boxes",
    "C115_complete_map",
    "C115_order_of_roads",
    "C115_lanes_are_those_of_the_roads_refuted"
   ],
   "note": "The expectation that the lanes of the map are those of its roads is refuted for lanes added later and for replaced roads (C115_lanes_are_those_of_the_roads_refuted)."
  },
  {
   "property": "C116",
   "status": "proved",
   "theorems": [
    "C116_defined",
    "C116_formula",
    "C116_similarity",
    "C116_mirror",
    "C116_reversed",
    "C116_straight",
    "C116_three_points",
    "C116_circle",
    "C116_signed_distance",
    "C116_signed_distance_point",
    "C116_ahead_refuted",
    "C116_smooth",
    "C116_smooth_undefined",
    "C116_smooth_negative"
   ],
   "note": "The ends of a curvature sequence, lines straight ahead and the undefined cases are stated as the code has them. tk::spline is any interpolating function."
  },
  {
   "property": "C117",
   "status": "proved",
   "theorems": [
    "C117_history",
    "C117_goal",
    "C117_results",
    "C117_agent",
    "C117_draw_agent_id_refuted",
    "C117_true_world",
    "C117_draw_agents_refuted",
    "C117_text",
    "C117_rss_texts",
    "C117_rss_shapes",
    "C117_rss_shapes_no_evaluator",
    "C117_braking",
    "C117_braking_refuted",
    "C117_rss_state"
   ],
   "note": "Failures and stale polygons are part of the statement (theorems with suffix _refuted)."
  },
  {
   "property": "C118",
   "status": "proved",
   "theorems": [
    "C118_center_line",
    "C118_two_lines_defined",
    "C118_two_lines",
    "C118_area_of_pairs",
    "C118_strip_area",
    "C118_moved_copy_area",
    "C118_exchange",
    "C118_opposite_directions_refuted",
    "C118_round",
    "C118_set_precision",
    "C118_round_monotone",
    "C118_rounded_orientation_refuted"
   ],
   "note": "Over the reals; boost's tolerance in comparing first and last point of a ring is exact equality here."
  },
  {
   "property": "C119",
   "status": "proved",
   "theorems": [
    "C119_choice",
    "C119_choice_defined",
    "C119_no_corridor",
    "C119_no_fixed",
    "C119_tracking",
    "C119_classic_stays_on_nearest",
    "C119_command_within_limits",
    "C119_own_leader_ignored",
    "C119_target_leader_ignored",
    "C119_reported"
   ],
   "note": "Corridors enter through their center line, point-in-polygon test, remaining length and front agent (C09 covers the search for the latter)."
  },
  {
   "property": "C120",
   "status": "proved",
   "theorems": [
    "C120_shape",
    "C120_straight",
    "C120_at_goal"
   ],
   "note": "Polygon test assumed right for convex polygons only; the variables of the code call the right border left and vice versa, without effect on the region. Curved center lines: border distances and orientation only."
  },
  {
   "property": "C121",
   "status": "proved",
   "theorems": [
    "C121_edge_descr",
    "C121_edges",
    "C121_all_edges_listed",
    "C121_parallel_edges",
    "C121_out_edges",
    "C121_vertices",
    "C121_all_edges_of_a_map_refuted",
    "C121_neighbors",
    "C121_route_boundaries",
    "C121_route_boundaries_unknown",
    "C121_path_boundaries",
    "C121_path_boundaries_defined",
    "C121_polygon",
    "C121_next_road",
    "C121_next_road_on_a_round_trip_refuted"
   ],
   "note": "Includes the actual behaviour with parallel edges (C121_all_edges_of_a_map_refuted: edges of a generated map are missing from GetEdges) and on round trips. Undefined uses (unknown lanes, roads not on the route) are explicit."
  },
  {
   "property": "C122",
   "status": "proved",
   "theorems": [
    "C122_accuracy",
    "C122_far",
    "C122_far_accuracy_refuted",
    "C122_odd",
    "C122_defined",
    "C122_standard_spiral",
    "C122_standard_spiral_accuracy",
    "C122_road_spiral_accuracy"
   ],
   "note": "Over the reals with the decimal table entries as written and exact pi, sin, cos and sqrt (the code: double). Accuracy by Taylor bounds for the small arguments (coefficient-wise check of the rational function) and by bounding the derivative of the error of the asymptotic formula for the large ones; the true integrals exist (fresnel_from_0_exists). C122_far_accuracy_refuted: 1e-8 does not extend beyond 36974."
  },
  {
   "property": "C123",
   "status": "proved",
   "theorems": [
    "C123_contours",
    "C123_limousine_extents",
    "C123_limousine_in_rectangle",
    "C123_stock_limousine",
    "C123_goal_rectangle",
    "C123_rectangle_extents"
   ],
   "note": "Over the reals with exact decimal literals (doubles not modelled). The containment claim states the code's actual behaviour: the two generated contours of equal arguments generally do not nest."
  },
  {
   "property": "C124",
   "status": "proved",
   "theorems": [
    "C124_equal_iff",
    "C124_equivalence",
    "C124_history_independent",
    "C124_equal_not_interchangeable"
   ],
   "note": "Params::operator== is a parameter of the theorems (it is modelled in C14); the last sentence is shown by two equal behaviors whose lane change preconditions differ. Python primitives, whose isEqual is not implemented by the library, are outside."
  }
 ]
}