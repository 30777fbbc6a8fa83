{
"C01": {"status": "proved", "note": "Model_World.v; for arbitrary behaviour/execution/observer models; exact rational time."},
"C02": {"status": "proved", "note": "Order irrelevance (stateless observer such as ObserverModelNone) and non-interference (any observer). Behaviours are assumed not to mutate the observed world through its pointers."},
"C03": {"status": "proved", "note": "Value level (Props_World) and pointer level (Props_Heap, arbitrary models/observers/operations). Isolation of inner models of composite behaviours and of the observer is refuted with witnesses."},
"C04": {"status": "proved", "note": "Exact characterisation; the naive expectation 'no VALID agent outside the map after a step' is refuted (index predates the move); EXPIRED agents are removed even with removal disabled."},
"C05": {"status": "proved", "note": "Under explicit contracts for the R-tree queries; stale-index null dereference and invisible added agents proved; 'k nearest live agents' refuted."},
"C06": {"status": "proved", "note": "Finite-map refinement for any operation sequence; ids distinct for up to 2^32 objects, reuse after wrap proved."},
"C07": {"status": "proved", "note": "The bound is max(1,max_history)."},
"C08": {"status": "proved", "note": ""},
"C09": {"status": "proved", "note": "Both modes; completeness over all agents refuted for the nearest-agents mode. Frenet difference is an oracle here (see C26)."},
"C10": {"status": "partial", "note": "The claim itself is refuted (C10_rear_is_nearest_behind_refuted); proved: the reported rear is the one with least longitudinal difference (farthest behind), none iff nobody is behind, right if only one is behind."},
"C100": {"status": "proved", "note": "States the stale corridors as they are; C100_corridors_follow_the_map_refuted is a concrete instance."},
"C101": {"status": "proved", "note": "Also shown: with default controlled_ids no agent under evaluation need exist (refuted expectation)."},
"C102": {"status": "proved", "note": "Refuted expectations shown: the table covers the whole run, every config keeps its map, the filter restricts the list."},
"C103": {"status": "proved", "note": "three natural readings (False does not follow, default x length is that of the x range, keywords survive a benchmark) are refuted, the statement describes the code"},
"C104": {"status": "proved", "note": "RSS/LTL/text drawings only as far as they need an evaluated agent; shapes and lanes are not kept"},
"C105": {"status": "proved", "note": "ffmpeg reduced to the frames it reads (0,1,2,... up to the first missing)"},
"C106": {"status": "proved", "note": "one access per step, sequentially consistent; clock exact"},
"C107": {"status": "proved", "note": "geometry opaque; colours are symbols"},
"C108": {"status": "proved", "note": "all readers for every tree-shaped configuration; hypotheses: no parameter of a class lies below another one of the class (true of the BARK classes). Two expectations refuted and described in the statement."},
"C109": {"status": "proved", "note": "The property describes the actual behaviour; the _refuted theorems show where the natural expectation (one scale for all, map scrolls with a followed agent) fails."},
"C11": {"status": "partial", "note": "Row hits on uniform grids, first segment, permanence of INVALID, general result form proved; interpolation between the bracketing rows refuted (C11_interpolates_bracketing_rows_refuted), row hit on non-uniform grids refuted."},
"C110": {"status": "proved", "note": "The property describes the actual behaviour; the _refuted theorems show where the natural expectation fails."},
"C111": {"status": "proved", "note": "The property describes the actual behaviour; the _refuted theorems give the cases in which a natural expectation fails. Doubles are real numbers; boost's correct and envelope are modelled."},
"C112": {"status": "proved", "note": "The property describes the actual behaviour; C112_distance_to_what_is_left_refuted shows the natural expectation fails. The polygon-point distance is a parameter."},
"C113": {"status": "proved", "note": "The route flag, the choice of the route in all cases, the scenes handed to the library, non-influence of far agents; the expectation that a found route leads to the goal is refuted for probability zero (C113_route_found_means_planned_refuted). RSS, map matching and planner are arbitrary functions."},
"C114": {"status": "proved", "note": "Stated with the conditions under which it holds; the unconditional expectation is refuted (C114_every_lane_is_drivable_refuted). boost union, buffer and correct are arguments with stated laws."},
"C115": {"status": "proved", "note": "The expectation that the lanes of the map are those of its roads is refuted for lanes added later and for replaced roads (C115_lanes_are_those_of_the_roads_refuted)."},
"C116": {"status": "proved", "note": "The ends of a curvature sequence, lines straight ahead and the undefined cases are stated as the code has them. tk::spline is any interpolating function."},
"C117": {"status": "proved", "note": "Failures and stale polygons are part of the statement (theorems with suffix _refuted)."},
"C118": {"status": "proved", "note": "Over the reals; boost's tolerance in comparing first and last point of a ring is exact equality here."},
"C119": {"status": "proved", "note": "Corridors enter through their center line, point-in-polygon test, remaining length and front agent (C09 covers the search for the latter)."},
"C12": {"status": "proved", "note": "Exact rationals, increasing recording, positive horizon. The Frenet action computation is not modelled."},
"C120": {"status": "proved", "note": "Polygon test assumed right for convex polygons only; the variables of the code call the right border left and vice versa, without effect on the region. Curved center lines: border distances and orientation only."},
"C121": {"status": "proved", "note": "Includes the actual behaviour with parallel edges (C121_all_edges_of_a_map_refuted: edges of a generated map are missing from GetEdges) and on round trips. Undefined uses (unknown lanes, roads not on the route) are explicit."},
"C122": {"status": "proved", "note": "Over the reals with the decimal table entries as written and exact pi, sin, cos and sqrt (the code: double). Accuracy by Taylor bounds for the small arguments (coefficient-wise check of the rational function) and by bounding the derivative of the error of the asymptotic formula for the large ones; the true integrals exist (fresnel_from_0_exists). C122_far_accuracy_refuted: 1e-8 does not extend beyond 36974."},
"C123": {"status": "proved", "note": "Over the reals with exact decimal literals (doubles not modelled). The containment claim states the code's actual behaviour: the two generated contours of equal arguments generally do not nest."},
"C124": {"status": "proved", "note": "Params::operator== is a parameter of the theorems (it is modelled in C14); the last sentence is shown by two equal behaviors whose lane change preconditions differ. Python primitives, whose isEqual is not implemented by the library, are outside."},
"C13": {"status": "proved", "note": "Model_Params: refinement of a flat assignment log for every call sequence through the root or child pointers. Side condition: names passed to AddChild do not end in a colon; C13_trailing_colon_child_refuted shows it is needed."},
"C14": {"status": "proved", "note": "Exactness, reload under any hash-map iteration order, operator== soundness and completeness. Same side condition on AddChild names (refuted otherwise)."},
"C15": {"status": "proved", "note": "Exact reals with infinities and NaN (Base_Ext.v). The three deviations are proved as _refuted theorems; monotonicity in the leader speed under the extra hypothesis that the desired gap is non-negative (_partial)."},
"C16": {"status": "proved", "note": "classic, constant acceleration and lane tracking rollouts; the missing upper limit of lane tracking is the property's own exception (proved as _refuted)."},
"C17": {"status": "partial", "note": "Refuted in general (C17_backwards_refuted); proved while planned velocities stay above the minimum velocity, and the backward motion is bounded."},
"C18": {"status": "partial", "note": "Proved for continuous time: acceptance implies no contact except in the configuration closest_in_motion, every rejected gap touches; refuted in that configuration (the time the front stops is divided by the rear's deceleration, so the formula for it is dead code). The default evaluator accepts everything (crossing corridors off) and its default decelerations have the wrong sign."},
"C19": {"status": "partial", "note": "Ego in front: right roles. Ego behind: only with equal decelerations, refuted otherwise. Lateral rate asked of the ego twice; the angle-threshold getter returns another parameter. Label = conjunction over the nearest agents (proved)."},
"C20": {"status": "proved", "note": "Over the reals for any positive value of the pi constant; float conversion of NormToPI as an arbitrary rounding with bounded error, and C20_float_range_refuted for binary32 (Flocq rounding)."},
"C21": {"status": "proved", "note": "Exact and with float rounding."},
"C22": {"status": "partial", "note": "The property is false of the code: C22_wraparound_refuted (quarter turn reported as three quarters). C22_absolute_angle_difference_partial proves what holds: symmetric, in [0,2pi), zero iff same direction, min(d, 2pi-d) is the smallest rotation."},
"C23": {"status": "proved", "note": "Model_Line over R; every sequence of building operations. One-point lines return the origin (C23_single_point_refuted)."},
"C24": {"status": "proved", "note": "Global minimality incl. arc length; boost's comparable_distance is written out and proved minimal. NaN for a repeated first point shown."},
"C25": {"status": "proved", "note": "Append, Rotate (clockwise), RemoveDuplicates, Concatenate consistent; Reverse characterised exactly and refuted; Translate refuted; stale arc lengths make Concatenate misjudge crossings (refuted witness). boost intersection/simplify are parameters."},
"C26": {"status": "partial", "note": "Proved: sign and size of the lateral coordinate, signed distance and round trips for feet strictly inside a segment, velocity components, front/rear reach for all angles, longitudinal difference = gap and antisymmetric. Refuted: lateral reach outside [0,pi/2], antisymmetry of the lateral difference, zero distance of touching vehicles, documented sign of the angle difference, positions past the end of the line."},
"C27": {"status": "proved", "note": "Distances between points preserved, composition, identity; any pose. The stock CarRectangle has its center at (1.25,0), so its origin swings when it turns (witness)."},
"C28": {"status": "proved", "note": "Single track: time, speed, straight motion, n steps, second-order local error against the exact bicycle motion; steering clamps incl. resulting lateral acceleration; triple integrator exact under RK4 in all axes. Additional refutations: RK4 heading not normalised, triple integrator time stays 0, admissible accelerations can reverse the vehicle in a step, evasive lateral acceleration depends on world orientation, BehaviorDynamicModel unusable with the triple integrator."},
"C29": {"status": "proved", "note": "iff characterisation for arbitrarily nested sequential goals; refutation of isolation for Clone of nested goals; sub-goal pointers assumed distinct."},
"C30": {"status": "proved", "note": "Point-in-polygon test and nearest-point/tangent are quantified oracles; orientation test of the lane goal proved wrap-around safe, that of the state-limits goal refuted."},
"C31": {"status": "partial", "note": "All evaluators proved as stated except EvaluatorCollisionEgoAgent: sound for every world; complete only for worlds of at most four agents (C31_collision_ego_iff_partial); completeness refuted with a five-agent world (C31_collision_ego_complete_refuted)."},
"C32": {"status": "proved", "note": "The monitor library is external: quantified over every monitor meeting the stated contract (one new rule state per wanted tuple of current agents containing a not-yet-known agent)."},
"C33": {"status": "proved", "note": "The statement describes the code's actual decision; the two natural stronger readings are refuted by C33_rear_gap_refuted and C33_change_gains_space_refuted. Corridors, Frenet relation and tracking are quantified oracles."},
"C34": {"status": "proved", "note": "The statement describes the code's actual decision; the stronger readings are refuted by C34_follower_safe_refuted and C34_criteria_every_step_refuted. Real arithmetic extended with inf/NaN."},
"C35": {"status": "proved", "note": "Detection, plan values, braking without leader, termination for positive / divergence for non-positive increment proved for every world, oracle behaviour and parameters; the stronger reading 'always yields to the right' is refuted (C35_straight_traffic_never_yields_refuted)."},
"C36": {"status": "proved", "note": "Generators are quantified oracles; parameter regions for uniform and fixed distributions (normal: support is the whole double range, C59)."},
"C37": {"status": "proved", "note": "Right-hand layouts in full; the one-way layout is proved wrong (C37_one_way_road_refuted). d = BOTH is outside the theorem."},
"C38": {"status": "proved", "note": "boost::dijkstra_shortest_paths is an oracle with its documented contract, shown satisfiable by a verified Dijkstra; FindRoadPath for maps with one section per road. Which num_vertices behaviour applies depends on the Boost release, both are covered."},
"C39": {"status": "proved", "note": "On generated graphs; successor edges exist in both orientations, so the next lane may be a predecessor if its road is in the list."},
"C40": {"status": "proved", "note": "for every map, road search and pair of roads the overload returns null and leaves the store unchanged"},
"C41": {"status": "proved", "note": "chains, coverage, termination on simple routes, non-termination on return routes, neighbours, lines, queries, cache and agent; geometric line operations (ConcatenateLinestring, ComputeCenterLine, Simplify, polygon tests) are quantified oracles; backward maximality in arbitrary order is refuted by C41_maximal_in_any_order_refuted"},
"C42": {"status": "proved", "note": "the wished-for 'currently valid' selection is refuted by C42_executes_unavailable_refuted, C42_reported_number_refuted, C42_reported_action_refuted; primitives as values (not shared pointers)"},
"C43": {"status": "proved", "note": "exact real arithmetic"},
"C44": {"status": "proved", "note": ""},
"C45": {"status": "partial", "note": "Everything but the last clause is proved (C45_observation, C45_not_selected_exact, C45_missing_agent, C45_succeeds, C45_deviation). The orthogonal displacement is refuted (C45_orthogonal_refuted) and the exact condition for it given (C45_orthogonal_iff)."},
"C46": {"status": "proved", "note": "text describes the code: trailing arcs are not counted (C46_trailing_arc_refuted refutes the naive claim)"},
"C47": {"status": "partial", "note": "Exact iff for vehicles moving towards each other; refuted for the same direction."},
"C48": {"status": "proved", "note": ""},
"C49": {"status": "proved", "note": ""},
"C50": {"status": "partial", "note": "Front/rear extents, Inflate/Scale in the body frame for every heading and the bounding box proved; refuted: left/right are swapped, and extents after Inflate of a rotated shape are those of the axis-parallel box."},
"C51": {"status": "proved", "note": ""},
"C52": {"status": "proved", "note": "The stated behaviour is proved for the free road and, for coolness in [0,1) and no backwards driving, behind a leader (plus concrete refutations of the law a reader would expect). Not covered: a leader together with the brake-at-lane-end option, and coolness >= 1."},
"C53": {"status": "proved", "note": "A constant lane corridor set from outside is not modelled."},
"C54": {"status": "proved", "note": "positive part plus refutations for constant-curvature spirals, zero-curvature arcs, zero increment"},
"C55": {"status": "proved", "note": "text describes the code; the _refuted theorems show the deviation from the OpenDRIVE convention"},
"C56": {"status": "proved", "note": "simplification is an arbitrary function; the claim is about the vertices handed to the final simplification"},
"C57": {"status": "proved", "note": ""},
"C58": {"status": "proved", "note": "Stated for the default observer; at the pointer level (Model_Heap.v)."},
"C59": {"status": "proved", "note": "mt19937, the quantile of the normal distribution and Eigen's decomposition are oracles; the generator's output is only assumed in [0,1)."},
"C60": {"status": "proved", "note": "Statement describes the actual behaviour; failed expectations are proved as _refuted theorems."},
"C61": {"status": "proved", "note": "Statement describes the actual behaviour."},
"C62": {"status": "proved", "note": ""},
"C63": {"status": "proved", "note": "Statement describes the actual behaviour; defined for num_vertices counting all vertices, otherwise possibly undefined."},
"C64": {"status": "proved", "note": "Status, executed plan, corridor history over arbitrary runs, undefined steps; clone sharing refuted as stated. The lane-tracking model, evaluator and map queries are arbitrary functions."},
"C65": {"status": "proved", "note": "Verdict and pairwise answers for an arbitrary RSS library; the two NOT-guaranteed parts are refuted by construction. ad-rss-lib itself is external."},
"C66": {"status": "proved", "note": "Response lag over arbitrary histories; limits in street and vehicle frame."},
"C67": {"status": "proved", "note": "Exact displacement of every vertex; containment refuted."},
"C68": {"status": "proved", "note": "With the kinematic formulas of ad-rss-lib (valid inputs, speed limit not reached)."},
"C69": {"status": "proved", "note": "Polygon distance and the road-corridor lane queries are oracles (the queries are modelled in Model_Corridor; 'the current lane is the nearest lane' is an explicit premise of the duality theorem)."},
"C70": {"status": "proved", "note": "Intersection of two polylines is an oracle with the contract 'they share a point'; polygon containment is an oracle."},
"C71": {"status": "proved", "note": "Collide of polygons is an oracle; its contract for rectangles (common point) is explicit and shown satisfiable. The int counter is unbounded in the model."},
"C72": {"status": "proved", "note": "For the modelled Python code; simulation, evaluators, pickle sizes and the behavior of the components are quantified."},
"C73": {"status": "proved", "note": "For the modelled Python code; simulation, evaluators, pickle sizes and the behavior of the components are quantified."},
"C74": {"status": "proved", "note": "The overwriting of an unmerged directory and the disagreeing getters are counterexample theorems (suffix _refuted)."},
"C75": {"status": "proved", "note": "Safety proved for all crash points at file-operation granularity; the two unrecoverable situations are theorems (suffix _refuted)."},
"C76": {"status": "proved", "note": "For the modelled Python code; simulation, evaluators, pickle sizes and the behavior of the components are quantified."},
"C77": {"status": "proved", "note": "For the modelled Python code; simulation, evaluators, pickle sizes and the behavior of the components are quantified."},
"C78": {"status": "proved", "note": "For the modelled Python code; simulation, evaluators, pickle sizes and the behavior of the components are quantified."},
"C79": {"status": "proved", "note": "For the modelled Python code; simulation, evaluators, pickle sizes and the behavior of the components are quantified."},
"C80": {"status": "proved", "note": "Text describes the code. C80_nested_loop_refuted and C80_nested_parameters_shared_refuted prove the exceptions named in the text."},
"C81": {"status": "proved", "note": "Text describes the code, including its exceptions (theorems with suffix _refuted prove them)."},
"C82": {"status": "proved", "note": "Text describes the code. C82_run_raises_refuted and C82_reset_same_scenario_refuted prove the exceptions named in the text."},
"C83": {"status": "proved", "note": "readers are arbitrary state-passing functions that may raise"},
"C84": {"status": "proved", "note": "The round trip is exact for the listed fields; losses are stated by C84_copy_loses and C84_inner_models_replaced_refuted. Parameter objects come back through their condensed list (C14)."},
"C85": {"status": "proved", "note": "box index and polygon collision are oracles with a contract (Spec_ScenGen.geometry_contract), the actual defects stated in the property are proved as _refuted theorems"},
"C86": {"status": "proved", "note": "exact rational positions; random draws are an arbitrary sequence in [0,1]"},
"C87": {"status": "proved", "note": "property text describes what the code does; C87_positioning_single_lane_partial / _refuted settle the intended reading"},
"C88": {"status": "proved", "note": "property text describes what the code does, including the three defects proved as _refuted"},
"C89": {"status": "proved", "note": "road geometry is an arbitrary predicate on motion states; float seconds/milliseconds conversion is exact in the model"},
"C90": {"status": "proved", "note": "the _refuted theorems show the traps named in the statement: s_min unused, agents stacked at the lane end, endless placing, the controlled agent without behavior model. Draws are an arbitrary stream in [0,1); positions and speeds rational; map and geometry opaque"},
"C91": {"status": "proved", "note": "the statement names the traps; the _refuted theorems prove them (map reversed in place through the reference binding, agents outside the route, no agent to pick). Lines and map queries opaque; C91_backward_elsewhere needs the explicit contract that positions on the reversed line count from its other end"},
"C92": {"status": "proved", "note": "The traps are the _refuted theorems, as stated in the property. Python exceptions as None; json text, logging and descriptions not modelled"},
"C93": {"status": "proved", "note": "Empty groups and untransferable parameters as the property says (_refuted theorems). Python exceptions as None; json text, logging and descriptions not modelled"},
"C94": {"status": "proved", "note": "The parameters reported by HasEqualParamsAs are modelled, only the truth value is characterised. Python exceptions as None; json text, logging and descriptions not modelled"},
"C95": {"status": "proved", "note": "xml trees, number parsing and geometry operations are parameters"},
"C96": {"status": "proved", "note": "the property describes the actual behaviour; the shift OpenDRIVE defines is refuted (C96_lane_offset_refuted)"},
"C97": {"status": "proved", "note": "by a simulation between trees"},
"C98": {"status": "proved", "note": "The property describes what the code does; the stronger readings (nearest lane = lane under the point; FindXodrLane complete on any map) are refuted by C98_..._refuted."},
"C99": {"status": "proved", "note": "Column parsing (stod, tokenizer) abstracted to optional rationals per cell."}
}
