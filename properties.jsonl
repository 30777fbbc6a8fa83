{"id": "C01", "title": "A simulation step advances time exactly and touches only agents that planned successfully", "statement": "World::Step(dt) moves the world time from t to exactly t+dt. Every agent that is already valid at t and whose behavior and execution are both VALID after planning gets exactly one new (state, action) pair appended to its history - the executed state and the behavior's last action. Every other agent still in the world has an unchanged history. n steps of dt give world time t+n*dt.", "quantifier": "every world, every set of agents, every behavior/execution outcome, every dt and any number of steps", "why_tests_cant": "A test fixes a handful of agents and outcomes; the frame condition (who must NOT move) ranges over all combinations of statuses, first-valid times and step counts.", "anchors": ["bark/world/world.cpp:World::Step", "bark/world/world.cpp:World::PlanAgents", "bark/world/world.cpp:World::Execute", "bark/world/objects/agent.cpp:Agent::UpdateStateAction"]}
{"id": "C02", "title": "All agents plan against the same pre-step snapshot", "statement": "During World::PlanAgents every agent is handed an observed world whose agents are those at the start of the step; no agent sees the plan another agent computed in the same step, so permuting the order in which agents are planned leads to the same planned behaviors and the same next world.", "quantifier": "every world, every agent order, every deterministic per-agent behavior", "why_tests_cant": "Tests exercise one iteration order; independence must hold for all permutations and all behaviors.", "anchors": ["bark/world/world.cpp:World::PlanAgents", "bark/world/world.hpp:World::Clone"]}
{"id": "C03", "title": "Cloned and predicted worlds are isolated from the original", "statement": "World::Clone copies time, agents (same ids, same histories, same models) and objects; any sequence of steps, additions, removals, re-equipping with other behaviors and evaluations on the clone leaves every agent of the original world (history and model contents) unchanged, and ObservedWorld::Predict starts from such a clone, so predicting for any horizon leaves the observed world's time and agent histories unchanged. Shared, and hence affected, are only the observer, the evaluators, behavior models handed over by the caller, and models nested inside other models: composite behaviors (BehaviorSafety, BehaviorRSSConformant) clone shallowly, so stepping a clone changes the inner model of the original.", "quantifier": "every world, every sequence of operations on the clone, every horizon", "why_tests_cant": "Aliasing bugs only show for particular operation sequences; isolation is a statement over all of them.", "anchors": ["bark/world/world.hpp:World::Clone", "bark/world/objects/agent.cpp:Agent::Clone", "bark/world/observed_world.cpp:ObservedWorld::Predict"]}
{"id": "C04", "title": "Agent removal removes exactly the agents that left the map or whose behavior expired", "statement": "After a step, the remaining agents are exactly those that are not removable: an agent is dropped iff removal is enabled and its indexed bounding box is not within the map's bounding box while it is valid at the pre-step time and its behavior is VALID, or its behavior status is EXPIRED (also when removal is disabled). A user also expects that no VALID agent is outside the map after the step; the index used is the pre-move one, so this fails.", "quantifier": "every world, every bounding-box assignment and status combination", "why_tests_cant": "Requires every combination of stale index, statuses, and start times, including the ones nobody wrote a test for.", "anchors": ["bark/world/world.cpp:World::RemoveInvalidAgents", "bark/world/world.cpp:World::Execute"]}
{"id": "C05", "title": "Spatial queries agree with the agent table while the index is fresh", "statement": "Immediately after World::UpdateAgentRTree (and hence after Step), GetNearestAgents(p,k) considers min(k, number of agents) agents of the world, none further away than any agent left out, and returns exactly the live (valid at the world time, VALID behavior) ones among them, so it may return fewer than k although more live agents exist; GetAgentsIntersectingPolygon returns exactly the live agents whose shape collides. After RemoveAgentById without a refresh the same query dereferences a missing agent; after AddAgent without a refresh the new agent is invisible.", "quantifier": "every world, query point, k, and sequence of add/remove/update operations", "why_tests_cant": "Needs every interleaving of table mutation, index refresh and query.", "anchors": ["bark/world/world.cpp:World::UpdateAgentRTree", "bark/world/world.cpp:World::GetNearestAgents", "bark/world/world.cpp:World::GetAgentsIntersectingPolygon", "bark/world/world.cpp:World::RemoveAgentById"]}
{"id": "C06", "title": "The agent table is a map keyed by agent id", "statement": "AddAgent followed by GetAgent with that id returns that agent and leaves every other id's lookup unchanged; adding a second agent with the same id replaces the first; RemoveAgentById makes lookup return null and leaves others unchanged; GetAgents never contains two agents with the same id and every entry is keyed by the agent's own id; ids handed out to new objects are never handed out twice.", "quantifier": "every operation sequence over the world's agent table", "why_tests_cant": "An invariant over all operation histories.", "anchors": ["bark/world/world.cpp:World::AddAgent", "bark/world/world.cpp:World::RemoveAgentById", "bark/world/world.hpp:World::GetAgent", "bark/world/objects/object.cpp:Object::agent_count"]}
{"id": "C07", "title": "An agent's history is a bounded, append-only window", "statement": "After any number of updates, an agent's state-action history is the suffix of length min(max(1,max_history), n+1) of the full sequence (initial pair followed by all executed pairs), newest last; GetCurrentState is the last executed state (the initial one before any update); the history is never empty, even with max_history 0.", "quantifier": "every max_history, initial state and update sequence", "why_tests_cant": "The bound and the suffix property hold for unboundedly long executions.", "anchors": ["bark/world/objects/agent.cpp:Agent::UpdateStateAction", "bark/world/objects/agent.cpp:Agent::Agent", "bark/world/objects/agent.hpp:GetCurrentState"]}
{"id": "C08", "title": "An agent is simulated only from its first-valid time on and enters at most once", "statement": "Agent::IsValidAtTime(t) holds iff t plus machine epsilon is not below the agent's first valid time; it is monotone in t, so in any run with non-negative step sizes an agent that is valid in one step is valid in all later steps, and before that time neither its behavior is planned nor its history changed; GetValidAgents returns exactly the agents that are valid at the world time with VALID behavior.", "quantifier": "every first-valid time, every sequence of step sizes", "why_tests_cant": "Boundary equality and monotonicity over arbitrary schedules.", "anchors": ["bark/world/objects/agent.cpp:Agent::IsValidAtTime", "bark/world/world.cpp:World::GetValidAgents", "bark/world/world.cpp:World::PlanAgents"]}
{"id": "C09", "title": "The reported front agent is the nearest one ahead in the corridor", "statement": "With must_be_in_corridor, GetAgentFrontRearForId returns as front agent a live agent other than the ego, touching the corridor polygon and inside the lateral and angular thresholds, whose longitudinal distance is at least the threshold and minimal among all such agents of the world; it returns none iff no such agent exists; the reported Frenet distance belongs to that agent. In the other mode (used by ObservedWorld::GetAgentFrontRear) the same holds among the max_agents_front_rear+1 nearest agents only, so an existing leader may be missed.", "quantifier": "every set of agents with every Frenet offset and every threshold", "why_tests_cant": "Minimum over all configurations and all iteration orders.", "anchors": ["bark/world/world.cpp:World::GetAgentFrontRearForId"]}
{"id": "C10", "title": "The reported rear agent is the nearest one behind in the corridor", "statement": "GetAgentFrontRearForId should return as rear agent the considered agent with longitudinal distance below the threshold that is closest to the ego. The code picks the one with the smallest (most negative) distance, i.e. the farthest one, whenever there are two agents behind.", "quantifier": "every set of agents with every Frenet offset", "why_tests_cant": "Only shows with two or more agents behind; the shape of the violation is a statement over all such configurations.", "anchors": ["bark/world/world.cpp:World::GetAgentFrontRearForId"]}
{"id": "C11", "title": "Interpolated execution stays on the planned trajectory", "statement": "ExecutionModelInterpolate at a time that hits a trajectory row (within 1 ms, equally spaced rows) returns that row; at a time strictly between two consecutive rows it should return the linear interpolation of those two rows - the code always uses the first two rows, so this holds only in the first segment and later the vehicle is put on the extension of the first segment, with a correct time stamp; more than 1 ms outside the time range the model becomes INVALID and stays INVALID, with a frozen state, for the rest of its life.", "quantifier": "every trajectory with strictly increasing times, every query time", "why_tests_cant": "Row lookup is an index search whose correctness depends on all trajectories; the bracketing row search in the code only ever selects row 0.", "anchors": ["bark/models/execution/interpolation/interpolate.cpp:ExecutionModelInterpolate::Execute", "bark/models/execution/interpolation/interpolate.cpp:ExecutionModelInterpolate::FindClosestLowerTrajectoryRow"]}
{"id": "C12", "title": "A static trajectory is replayed faithfully and expires at its end", "statement": "BehaviorStaticTrajectory reports NOT_STARTED before its first time stamp, EXPIRED once the planning horizon reaches its end and VALID otherwise; while VALID the returned partial trajectory starts at the query time, ends at the horizon, has increasing time stamps, contains every recorded row strictly inside the horizon, and its first and last rows are linear interpolations of the recording.", "quantifier": "every recorded trajectory with increasing times, every query time and horizon", "why_tests_cant": "Index arithmetic at every alignment of query window and recording.", "anchors": ["bark/models/behavior/constant_acceleration/../static_trajectory/behavior_static_trajectory.cpp:BehaviorStaticTrajectory::Plan", "bark/models/behavior/static_trajectory/behavior_static_trajectory.cpp:CalculatePartialTrajectory"]}
{"id": "C13", "title": "Parameters read back what was set, hierarchically", "statement": "Whatever sequence of setter, getter and AddChild calls is made, through the root or through pointers returned by AddChild, each getter returns the value most recently set for that fully qualified name (\"A::B::x\") and type, or the caller's default if there is none; getters and AddChild change no value. (Names passed to AddChild must not end in a colon: otherwise this is false of the code.)", "quantifier": "every sequence of calls, every name, every value of the six types", "why_tests_cant": "Laws over all histories of sets and gets on nested keys.", "anchors": ["bark/commons/params/setter_params.hpp:SetterParams"]}
{"id": "C14", "title": "Serialising parameters and loading them again is lossless", "statement": "GetCondensedParamList lists every current parameter exactly once with its full path and nothing else; a SetterParams built from that list, in whatever order the hash maps were iterated, answers every later call sequence like the original; operator== never equates stores that answer differently and recognises a reloaded store when no name is used with two types. (Names passed to AddChild must not end in a colon.)", "quantifier": "every parameter hierarchy of any depth", "why_tests_cant": "Round trip over all trees.", "anchors": ["bark/commons/params/setter_params.hpp:SetterParams::GetCondensedParamList", "bark/commons/params/params.hpp:CondensedParamList"]}
{"id": "C15", "title": "IDM acceleration commands respect the configured limits", "statement": "For every speed, gap and leader speed, the acceleration commanded by an IDM plan (classic and lane tracking) lies between the configured bounds; with sensible parameters and coolness below 1 it is always a number. Plain IDM follows the published law limited to the bounds (the lower bound when there is no gap), never exceeds the free-road command, and never brakes less when the gap shrinks; on the free road the command is non-positive exactly from the desired velocity on. The code deviates from expectations in three places: with coolness 1 and a closed gap the command is NaN, with coolness it can exceed the free-road command, and a leader driving away fast triggers the strongest braking because the desired gap is squared without being cut at zero.", "quantifier": "every parameter set with min<=max, every real state", "why_tests_cant": "A bound over a continuous state space.", "anchors": ["bark/models/behavior/idm/base_idm.cpp:BaseIDM::CalcRawIDMAcc", "bark/models/behavior/idm/base_idm.cpp:BaseIDM::CalcIDMAcc"]}
{"id": "C16", "title": "IDM trajectories cover the horizon uniformly with clamped velocities", "statement": "An IDM rollout has the configured number of points, starts with the current state, has the time stamps start + i*T/(N-1), the last one being start + T, and the velocity of every later point is within [min_velocity,max_velocity]; the constant-acceleration behavior likewise, commanding exactly the configured value. Lane tracking limits the velocity only from below and can exceed the maximum velocity. With a single point the plan is just the current state.", "quantifier": "every point count, horizon and start state", "why_tests_cant": "Induction over the number of trajectory points.", "anchors": ["bark/models/behavior/idm/base_idm.cpp:BaseIDM::GenerateTrajectory"]}
{"id": "C17", "title": "A vehicle planned by IDM never moves backwards along its corridor", "statement": "A vehicle planned by IDM never moves backwards along its corridor while velocities are non-negative. (The code violates this when braking to standstill within a step, by at most half the strongest braking times the squared step; it holds as long as the planned velocities stay above the minimum velocity.)", "quantifier": "every state and step size", "why_tests_cant": "Violation only occurs when the vehicle stops inside a step.", "anchors": ["bark/models/behavior/idm/base_idm.cpp:BaseIDM::GenerateTrajectory"]}
{"id": "C18", "title": "The longitudinal safe-distance check is sound when the ego is in front", "statement": "If SafeDistanceLabelFunction::CheckSafeDistanceLongitudinal accepts (gap, speeds, rear deceleration, front deceleration, reaction time) then, with the front vehicle braking at its rate and the rear one driving on for the reaction time and then braking at its own, the vehicles' positions never cross at any later time.", "quantifier": "every speed, gap, deceleration, reaction time and every time instant", "why_tests_cant": "A universally quantified statement over continuous time and continuous parameters.", "anchors": ["bark/world/evaluation/ltl/label_functions/safe_distance_label_function.cpp:CheckSafeDistanceLongitudinal"]}
{"id": "C19", "title": "The safe-distance check assigns braking capabilities to the right vehicles", "statement": "When the ego is the rear vehicle, the check should use the ego's deceleration for the rear and the other's for the front vehicle. The code passes them in the same order in both directions, so it accepts unsafe distances when the ego brakes worse than the other.", "quantifier": "every pair of decelerations", "why_tests_cant": "Default parameters have equal decelerations, so tests cannot see the swap.", "anchors": ["bark/world/evaluation/ltl/label_functions/safe_distance_label_function.cpp:EvaluateEgoCorridor"]}
{"id": "C20", "title": "Angle normalisation yields the unique representative in the range", "statement": "Norm0To2PI(a) is the unique angle in [0,2pi) differing from a by an integer multiple of 2pi; NormToPI(a) is, in exact arithmetic, the unique one in [-pi,pi); both are idempotent. With NormToPI's float return type the range and the direction hold up to the float rounding error (and not exactly: NormToPI(-B_PI) < -B_PI).", "quantifier": "every real angle", "why_tests_cant": "Range over all reals.", "anchors": ["bark/geometry/angle.hpp:Norm0To2PI", "bark/geometry/angle.hpp:NormToPI"]}
{"id": "C21", "title": "Signed angle difference is the shortest rotation", "statement": "SignedAngleDiff(a,b) lies in [-pi,pi], rotating by it takes b to a modulo 2pi, it is zero iff a and b are equal modulo 2pi, and it is antisymmetric away from pi.", "quantifier": "every pair of real angles", "why_tests_cant": "Range over all reals, wrap-around boundary.", "anchors": ["bark/geometry/angle.hpp:SignedAngleDiff"]}
{"id": "C22", "title": "Absolute angle difference is wrap-around safe", "statement": "AngleDiff(a,b) should be the absolute value of the smallest rotation between the two angles, in [0,pi]. The code may return up to 2pi because it does not take the complementary angle.", "quantifier": "every pair of real angles", "why_tests_cant": "Requires a pair across the wrap-around.", "anchors": ["bark/geometry/angle.hpp:AngleDiff"]}
{"id": "C23", "title": "Arc-length parametrisation of a line", "statement": "For a line built by adding points, s starts at 0, is non-decreasing, consecutive differences are the segment lengths and Length() is their sum; for lines with at least two points GetPointAtS(0) is the first point, GetPointAtS(Length()) the last, GetPointAtS(s_i) the i-th vertex, arguments outside the range are clamped, every result is the unique point at that distance along the line, and moving s by ds moves the point by at most |ds|. (A one-point line yields the origin.) Inside a segment the tangent is the segment's direction and the normal the unit vector to its left.", "quantifier": "every polyline and every s", "why_tests_cant": "Induction on the number of vertices; all real s.", "anchors": ["bark/geometry/line.hpp:Line_t::AddPoint", "bark/geometry/line.hpp:GetPointAtS", "bark/geometry/line.hpp:GetSegmentEndIdx"]}
{"id": "C24", "title": "Nearest point on a line", "statement": "GetNearestPointAndS returns a point on the line whose distance to the query is minimal over all points of the line, together with its arc length and segment index. (If the line starts with a repeated point, the result can be NaN.)", "quantifier": "every polyline with at least two points, the first two distinct; every query point", "why_tests_cant": "Optimality over a continuum.", "anchors": ["bark/geometry/line.hpp:GetNearestPointAndS"]}
{"id": "C25", "title": "Arc lengths stay consistent when a line is transformed", "statement": "After Reverse, Translate, Rotate and ConcatenateLinestring/AppendLinestring, the stored arc lengths are those of the new point sequence. Reverse reverses the points but keeps the old arc lengths, so lines with unequal segments become inconsistent; Translate leaves the arc lengths unset.", "quantifier": "every polyline and rigid motion", "why_tests_cant": "Only visible on lines whose segments have different lengths.", "anchors": ["bark/geometry/line.hpp:Reverse", "bark/geometry/line.hpp:Transform"]}
{"id": "C26", "title": "Frenet coordinates and differences are signed consistently", "statement": "Frenet lateral offset is positive left of the line and negative right of it and zero on it; the Frenet state difference between two vehicles with shapes subtracts the half-extents facing each other so that touching vehicles have zero distance and swapping the vehicles negates the difference.", "quantifier": "every pair of poses and shapes", "why_tests_cant": "All relative positions (front/behind/left/right) and both orders.", "anchors": ["bark/commons/transformation/frenet.cpp:FrenetPosition", "bark/commons/transformation/frenet_state.cpp:FrenetStateDifference"]}
{"id": "C27", "title": "Rigid transforms of shapes preserve the shape", "statement": "Shape::Transform(pose) moves every polygon point by the same rotation and translation, so distances between points are preserved, composition of transforms is a transform, and the identity pose changes nothing.", "quantifier": "every polygon and pose", "why_tests_cant": "All polygons, all angles.", "anchors": ["bark/geometry/commons.hpp:Shape::Transform", "bark/geometry/polygon.hpp"]}
{"id": "C28", "title": "Vehicle dynamics integrate time and respect input limits", "statement": "One integration step of the single-track model by Euler or RK4 advances the state's time component by exactly dt, a zero input and straight steering moves the vehicle along its heading by v*dt without changing speed or heading; the steering angle and lateral acceleration clamps return a value within the configured limits; the triple integrator solves its differential equation exactly.", "quantifier": "every state, input and dt", "why_tests_cant": "Continuous state space.", "anchors": ["bark/models/dynamic/single_track.hpp:SingleTrackModel::StateSpaceModel", "bark/models/dynamic/integration.hpp:euler_int", "bark/models/dynamic/triple_integrator.hpp"]}
{"id": "C29", "title": "A sequential goal is reached only by reaching all sub-goals in order", "statement": "For every nesting of (non-empty) sequential goals and every history of AtGoal calls, a call returns true exactly if the sub-goals have been accomplished one after the other during the calls so far (for plain sub-goals: at strictly increasing calls); a call advances by at most one sub-goal, progress is never lost and once true it stays true. Cloning shares nested sequential sub-goals, and an empty sequential goal is undefined behaviour.", "quantifier": "every list of sub-goals and every sequence of observations", "why_tests_cant": "Property of unbounded call histories.", "anchors": ["bark/world/goal_definition/goal_definition_sequential.cpp:GoalDefinitionSequential::AtGoal"]}
{"id": "C30", "title": "Pose and lane goals accept exactly the configured region", "statement": "The state-limits goal accepts iff the position lies in the goal polygon and the orientation in the closed configured interval; the Frenet lane goal accepts iff the position lies in the polygon, the velocity in the closed configured range and the orientation offset to the lane within the configured bounds. Orientations are compared without wrap-around, so an equivalent orientation modulo 2pi may be rejected.", "quantifier": "every agent state and goal parameter", "why_tests_cant": "All boundary combinations over reals.", "anchors": ["bark/world/goal_definition/goal_definition_state_limits.cpp:AtGoal", "bark/world/goal_definition/goal_definition_state_limits_frenet.cpp:AtGoal"]}
{"id": "C31", "title": "Scenario evaluators report what their name says", "statement": "EvaluatorCollisionAgents reports true iff two distinct valid agents' shapes collide; EvaluatorCollisionEgoAgent reports true iff the ego collides with another valid agent (refuted: it only looks at the four nearest indexed agents; it is sound, and complete up to four agents); EvaluatorStepCount reports n at its n-th call; EvaluatorNumberOfAgents reports the number of different ids seen so far while its agent was present, so it never decreases; EvaluatorGoalReached for all agents is the conjunction over agents (true for an empty world, false for a missing single agent); EvaluatorDrivableArea and EvaluatorBehaviorExpired report a violation for a missing agent and otherwise exactly when the agent is off its road corridor / expired; the velocity, gap and planning-time evaluators report the mean of all values measured so far, NaN if none.", "quantifier": "every world history and evaluator call sequence", "why_tests_cant": "Combinations of agents and unbounded call sequences.", "anchors": ["bark/world/evaluation/evaluator_collision_agents.hpp", "bark/world/evaluation/evaluator_collision_ego_agent.hpp", "bark/world/evaluation/evaluator_step_count.hpp", "bark/world/evaluation/evaluator_number_of_agents.hpp", "bark/world/evaluation/evaluator_goal_reached.hpp"]}
{"id": "C32", "title": "Temporal-rule evaluation keeps one monitor state per monitored agent and never forgets violations", "statement": "EvaluatorLTL's safety violation count never decreases; the monitor states it steps are exactly those of agents currently present; each agent combination gets one monitor state the first time it is seen; labels with the same key keep the first evaluated value. An agent that disappears and comes back is never monitored again.", "quantifier": "every sequence of observed worlds with agents appearing and disappearing", "why_tests_cant": "History property over arbitrary appearance patterns.", "anchors": ["bark/world/evaluation/ltl/evaluator_ltl.cpp:EvaluatorLTL::Evaluate"]}
{"id": "C33", "title": "Rule-based lane changes only target admissible corridors", "statement": "BehaviorLaneChangeRuleBased decides for the first corridor with the largest free distance among those passing every filter (remaining distance, gap ahead, gap to the vehicle reported behind depending on relative speed); it is a lane change exactly if that is not the current corridor, and with no admissible corridor the lane is kept. Plan then tracks that corridor. Nobody on the target is ahead within the front gap. NOT guaranteed (refuted): the gap to a follower nearer than the one reported (the farthest), nor that the target has more free space than the current lane.", "quantifier": "every set of corridors and neighbours", "why_tests_cant": "All combinations of neighbouring traffic.", "anchors": ["bark/models/behavior/rule_based/lane_change_behavior.cpp:ChooseLaneCorridor", "bark/models/behavior/rule_based/lane_change_behavior.cpp:CheckIfLaneChangeBeneficial"]}
{"id": "C34", "title": "MOBIL lane changes respect the safety criterion", "statement": "BehaviorMobilRuleBased decides for the corridor with the largest acceleration advantage among those that pass the gap filters, impose more than -safe_deceleration on the reported follower, and whose advantage exceeds politeness times the follower's loss plus the threshold; with no such corridor it stays, unless the corridor stored by the previous planning step is a different one, which it then pursues. NOT guaranteed (refuted): safety for followers nearer than the one reported, nor that the criteria hold again while a change decided earlier is being pursued.", "quantifier": "every traffic situation", "why_tests_cant": "All combinations of accelerations of six vehicles.", "anchors": ["bark/models/behavior/rule_based/mobil_behavior.cpp:ChooseLaneCorridor"]}
{"id": "C35", "title": "Intersection behavior yields to conflicting traffic", "statement": "The intersection behavior predicts the observed world on the time grid 0, inc, 2 inc, ... before its horizon and reports a crossing vehicle exactly if the prediction shows one; it then reports the earliest such grid time and, at that time, the vehicle with the smallest id. If nothing is reported, or the reported vehicle is not currently coming from the right (its heading is not to the right of the ego's), the ego uses the plain car-following values; otherwise it treats the crossing as a standing obstacle at min(other speed * time, plain leading distance), and with nobody ahead it brakes with full deceleration. The detection always terminates for a positive increment and never terminates (without a conflict) for a non-positive one. It is NOT true that the ego yields to every vehicle from the right: vehicles whose predicted heading is not turned relative to the ego's are never yielded to.", "quantifier": "every predicted world sequence", "why_tests_cant": "All prediction outcomes.", "anchors": ["bark/models/behavior/rule_based/intersection_behavior.cpp"]}
{"id": "C36", "title": "Stochastic IDM: intents, sampled parameters and reseeding", "statement": "BehaviorIDMStochastic plans every step with IDM parameters freshly sampled from its configured distributions, each inside the region it reports. With the intention mechanism the first plan takes the yielding intent; afterwards a plan switches to the other intent exactly if the duration sampled when the current intent was taken (from the distribution configured for that intent) has passed; the lateral tolerance for front vehicles is 8 m while yielding and 1 m otherwise. After ChangeSeed(s) the sampled parameters are the same for equally configured behaviors whatever happened before. NOT guaranteed (refuted): intents are reproducible after ChangeSeed (the duration distributions keep their state), and planning with a clone leaves the original's next samples alone (clones share the distributions).", "quantifier": "every sequence of plan calls and world times, every random outcome, arbitrary use of the shared distributions in between", "why_tests_cant": "All random outcomes.", "anchors": ["bark/models/behavior/idm/stochastic"]}
{"id": "C37", "title": "Left and right lane neighbours are consistent", "statement": "On a roadgraph built from an OpenDRIVE map with right-hand traffic (lanes right of the reference line run along it, lanes left of it against it), GetLeftLane/GetRightLane return the lane at the next position to the left/right of the direction of travel, or report none when there is none; left-of and right-of are mutually inverse; whatever the layout, an answer is a lane of the same lane section, and GetAllNeighbors returns every other lane of the same side once. On a one-way road with lanes on both sides of the reference line the left/right answers are wrong.", "quantifier": "every road with any number of lanes on either side", "why_tests_cant": "All lane layouts.", "anchors": ["bark/world/map/roadgraph.cpp:Roadgraph::GetLeftLane", "bark/world/map/roadgraph.cpp:Roadgraph::GenerateNeighbours"]}
{"id": "C38", "title": "Paths returned by the roadgraph are connected paths", "statement": "FindPath(start,goal) returns a cheapest sequence of lanes beginning with start and ending with goal in which consecutive lanes are connected by an edge of the searched graph, or an empty sequence exactly when no such path exists (or start/goal is not in the searched graph); FindDrivableLanePath visits only driving lanes; FindRoadPath returns a chain of linked roads with the fewest roads. The search is defined when num_vertices counts all vertices; if it counts only the filtered ones, FindDrivableLanePath writes out of bounds.", "quantifier": "every graph, every predecessor map a shortest-path search can produce", "why_tests_cant": "All graphs.", "anchors": ["bark/world/map/roadgraph.cpp:Roadgraph::FindPath"]}
{"id": "C39", "title": "The next lane along a route is a successor on the route", "statement": "GetNextLane(roads, lane) returns a lane reached by a successor edge from lane and lying on one of the given roads; it reports none exactly when there is no such lane.", "quantifier": "every roadgraph and every list of roads", "why_tests_cant": "All graphs.", "anchors": ["bark/world/map/roadgraph.cpp:Roadgraph::GetNextLane"]}
{"id": "C40", "title": "No road corridor is ever generated between two road ids", "statement": "MapInterface::GenerateRoadCorridor(start_road,end_road) never produces a corridor: the helper that determines the driving directions never reports success, so whatever the map and the two roads (even the same road or directly connected roads) the overload returns null and stores nothing, as soon as the road search returns.", "quantifier": "every map", "why_tests_cant": "One has to know that no map whatsoever makes it succeed.", "anchors": ["bark/world/map/map_interface.cpp:GenerateRoadCorridor", "bark/world/map/roadgraph.cpp:GetDrivingDirectionsForRoadId"]}
{"id": "C41", "title": "Lane corridors follow connected lanes along the listed roads", "statement": "When GenerateRoadCorridor(road ids, direction) returns: the lane objects are the lanes of the listed roads; the next lane of a lane is a connected lane of the road listed next, and is absent only if no such lane exists; every lane corridor is a chain of next lanes that starts with a drivable lane and cannot be continued; every drivable lane belongs to a lane corridor and the query by lane id returns it; on routes listed by increasing road id no corridor can be extended backwards either and corridors are disjoint unless lanes merge (in other orders a corridor may start in the middle of a chain, refuted by a witness); it does return, with a corridor, for every route that visits no road twice, and never returns for a route that goes back and forth between two connected roads, which is what the lane search yields for a lane change before a merge. Left and right lanes and boundaries are those of the map; the joined lines and polygon are in driving order; the current-corridor, nearest-corridor and left/right-corridor queries answer as documented for every point; repeated calls return the stored corridor of the same ids and direction if their hashes do not collide; and an agent's GenerateRoadCorridor takes the ids of the route or dereferences null if no route leads to the goal.", "quantifier": "every map, every list of road ids, every point, every history of calls", "why_tests_cant": "All maps.", "anchors": ["bark/world/map/map_interface.cpp:CalculateLaneCorridors", "bark/world/map/road_corridor.cpp"]}
{"id": "C42", "title": "Which primitive a macro action executes", "statement": "BehaviorMPMacroActions without validity check executes the primitive whose index is the action, reports its trajectory and last action, leaves the other primitives alone and keeps indices stable under AddMotionPrimitive; an index out of range throws. With the validity check the first Plan executes the i-th primitive whose precondition holds in the current world; the set of available primitives is then frozen for every later call (so unavailable primitives get executed, refuting 'currently valid'), GetNumMotionPrimitives counts all primitives so that some reported actions throw, the reported last action is that of the primitive at the action's index in the whole list, and GetValidPrimitives before the first Plan is empty. The status is VALID after every Plan even if the primitive expired. Change-left/right move the target corridor relative to the current target, so an action held for n plans moves it n corridors. Random macro actions draw a legal index only without the check; the behavior built from parameters lists accelerations, left, right, gap keeping in that order.", "quantifier": "every list of primitives, validity pattern, history of calls and sequence of worlds", "why_tests_cant": "All validity patterns.", "anchors": ["bark/models/behavior/motion_primitives/macro_actions.cpp"]}
{"id": "C43", "title": "Motion-primitive trajectories start at the current state and end at the horizon", "statement": "The trajectory of BehaviorMPContinuousActions has the current state as first row, strictly increasing times with steps of at most dt, the last time exactly the state's time plus the horizon, the speed exactly v + a*t in every row and straight motion without inputs; a zero horizon yields the current state; unknown indices, horizons in the past and models with another state size fail. Its last action is the index, which makes followers with a coolness factor abort. Constant acceleration primitives plan from the world time on an exact grid with speed v + a*t limited from below only, command exactly a (or less when braking for the lane end), and their preconditions mean that a is within the vehicle's limits, or that the neighbouring corridor is long enough; without a target corridor they expire and repeat the last trajectory.", "quantifier": "every horizon, step, input, world and primitive", "why_tests_cant": "All ratios of horizon to dt.", "anchors": ["bark/models/behavior/motion_primitives/continuous_actions.cpp"]}
{"id": "C44", "title": "Prediction settings assign behaviours by role", "statement": "SetupPrediction gives the ego a copy of the ego model, every agent listed for the specific model (if there is one) a copy of that, every other live agent (VALID and valid at the world time) a copy of the default model, and every agent that is not live, other than the ego and the specific ones, a behaviour that never starts; such an agent stays where it is through every later sequence of predictions. Listed agents keep their model if there is no specific model, all others if there is no default model. Nothing else about the agents or the world changes. It succeeds exactly if there is an ego model, the ego is in the world and, with a specific model, all listed agents are.", "quantifier": "every world and every settings object", "why_tests_cant": "All combinations of roles.", "anchors": ["bark/world/prediction/prediction_settings.cpp:ApplySettings"]}
{"id": "C45", "title": "The parametric observer perturbs exactly the current states", "statement": "The parametric observer returns a clone of the world, seen by the given agent, with the same time, agents and settings, in which only the current state of each agent (the ego included) is perturbed: the ego by one draw of the ego distribution, the other agents in id order by successive draws of the other one. For agents it is not enabled for the clone is exact. Time is not perturbed; heading and speed are shifted by the third and fourth component, the position by the first component along the heading and by the second orthogonally to it. (The last clause is false: the second component moves the vehicle by (d sin, d cos) of the heading, at 45 degrees exactly along it.)", "quantifier": "every world, every noise sample", "why_tests_cant": "All noise samples.", "anchors": ["bark/models/observer/observer_model_parametric.cpp"]}
{"id": "C46", "title": "A plan view knows its own length", "statement": "After adding a chain of lines, spirals and curved arcs to a PlanView, each starting where the previous one ended, the reference line ends at the end of the last geometry and GetLength is at most the sum of the lengths and at least that sum times the cosine of the largest turn within a sampling step, provided the last geometry is not an arc; for lines it is exactly the sum. AddArc never changes GetLength: trailing arcs are missing from it.", "quantifier": "every sequence of geometries", "why_tests_cant": "All sequences of geometry kinds.", "anchors": ["bark/world/opendrive/plan_view.cpp:PlanView::AddLine", "bark/world/opendrive/plan_view.cpp:PlanView::AddArc"]}
{"id": "C47", "title": "The lateral safe-distance check is sound", "statement": "For two vehicles moving laterally towards each other that keep their lateral speed for their reaction time and then reduce it to zero with their maximal lateral deceleration, the lateral safe-distance check reports safe exactly if the vehicles never touch laterally. For vehicles moving laterally in the same direction the check must not accept a gap in which they touch (the code does).", "quantifier": "all lateral speeds, gaps, decelerations, reaction times and all times", "why_tests_cant": "Soundness quantifies over all continuous-time motions.", "anchors": ["bark/world/evaluation/ltl/label_functions/safe_distance_label_function.cpp:SafeDistanceLabelFunction::CheckSafeDistanceLateral", "bark/world/evaluation/ltl/label_functions/safe_distance_label_function.cpp:SafeDistanceLabelFunction::CalcMinLatSafeDist"]}
{"id": "C48", "title": "Parts of lines and laterally shifted lines", "statement": "GetLineFromSInterval(begin,end) returns the part of the line between the two arc lengths: it starts and ends at these points, its length is end-begin, walking u along the part reaches the same point as walking begin+u along the line, and all vertices in between are kept; an empty interval at a vertex copies a reversed range (undefined). GetLineShiftedLaterally moves every vertex by exactly |shift|, to the left for a positive shift of a straight line.", "quantifier": "every polyline with at least two points, every interval, every shift", "why_tests_cant": "All polylines (including repeated points) and all real intervals.", "anchors": ["bark/geometry/line.hpp:GetLineFromSInterval", "bark/geometry/line.hpp:Line_t::GetPointsInSInterval", "bark/geometry/line.hpp:GetLineShiftedLaterally", "bark/geometry/line.hpp:GetNormalAtS"]}
{"id": "C49", "title": "The center line lies half way between the boundaries", "statement": "ComputeCenterLine returns one point per point of the boundary with more points; each lies half way between that point and the point of the other boundary nearest to it, hence at equal distance from both.", "quantifier": "every pair of boundary lines with at least two points (first two distinct)", "why_tests_cant": "All pairs of polylines.", "anchors": ["bark/geometry/line.hpp:ComputeCenterLine", "bark/geometry/line.hpp:GetNearestPoint"]}
{"id": "C50", "title": "Shape extents, inflation and scaling describe the shape", "statement": "For a polygon built from a center pose with heading 0 and points around it, the front, rear, left and right distances are the greatest extents of the points from the center in the four body directions; Inflate moves every point outwards by the given amounts along the body axes and Scale multiplies the body coordinates, for every heading; after both the distances again describe the extents; the bounding-box polygon is the smallest axis-parallel box around the points.", "quantifier": "every point list, center pose, inflation and scale factors", "why_tests_cant": "All polygons and headings; tests use one rectangle.", "anchors": ["bark/geometry/polygon.hpp:UpdateDistancesToCenter", "bark/geometry/polygon.hpp:Inflate", "bark/geometry/polygon.hpp:Scale", "bark/geometry/polygon.hpp:CalculateBoundingBoxPolygon", "bark/geometry/commons.hpp:Shape::Inflate", "bark/geometry/commons.hpp:Shape::Scale"]}
{"id": "C51", "title": "Lateral acceleration converts between street and vehicle coordinates", "statement": "LatAccStreetToVehicleCs returns the vehicle's own lateral acceleration (speed times yaw rate) that produces the given lateral acceleration across the street, for every motion; it is undefined when the vehicle stands across the street.", "quantifier": "all differentiable motions and streets", "why_tests_cant": "All motions; a statement about derivatives.", "anchors": ["bark/commons/transformation/frenet_state.cpp:LatAccStreetToVehicleCs"]}
{"id": "C52", "title": "The IDM rollout obeys the car-following law at every planned point", "statement": "In an IDM plan the velocity of each point should follow from the previous one by the acceleration the law gives at that previous velocity. The code evaluates the law at the vehicle's current velocity in every step, so on a free road all steps use the first step's acceleration and from the second step on the plan disagrees with the law. Behind a leader each step takes the (limited) law at the current velocity and an assumed gap; the assumed gap differs from the gap to a leader of constant speed by the time step times the sum of (planned speed - current speed) over the earlier points, so a plan that speeds up assumes too large a gap and one that slows down too small a gap.", "quantifier": "every parameter set, state, horizon and number of points", "why_tests_cant": "needs the relation between every two consecutive planned points for arbitrary parameters", "anchors": ["bark/models/behavior/idm/base_idm.cpp:GetTotalAcc", "bark/models/behavior/idm/idm_classic.cpp:GenerateTrajectory"]}
{"id": "C53", "title": "IDM reacts to the nearest obstacle", "statement": "The obstacle an IDM plan reacts to is the leader, or, when braking for the lane end is enabled and the lane end is within the configured range, the nearer of leader and lane end, the lane end counting as standing still; without either there is no interaction. Without a lane corridor the behavior expires and repeats its last trajectory.", "quantifier": "every leader, distance to the lane end and parameter set", "why_tests_cant": "combinations of flags and orderings of real distances", "anchors": ["bark/models/behavior/idm/base_idm.cpp:CalcRelativeValues", "bark/models/behavior/idm/base_idm.cpp:GetDistanceToLaneEnding", "bark/models/behavior/idm/base_idm.cpp:Plan"]}
{"id": "C54", "title": "Road geometry points lie on the described curve", "statement": "AddLine, AddArc and AddSpiral terminate for a positive increment and append exactly the points, at distances 0, inc, 2 inc, ... and the length, of the unit-speed curve that starts in the given point and has the heading given by the line, arc or clothoid. Exceptions in the code: a spiral whose two curvatures are equal is never sampled on its curve, an arc of zero curvature divides by zero, and a zero increment never ends.", "quantifier": "every start, heading, length, curvature and increment", "why_tests_cant": "The claim is about a continuous family of curves; tests compare a few points.", "anchors": ["bark/world/opendrive/plan_view.cpp:PlanView::CalcArcPosition", "bark/world/opendrive/plan_view.cpp:PlanView::AddArc", "bark/world/opendrive/plan_view.cpp:PlanView::AddSpiral", "bark/world/opendrive/odrSpiral.cpp:odrSpiral"]}
{"id": "C55", "title": "Offset transform of a plan view is a rigid motion", "statement": "ApplyOffsetTransform(x,y,hdg) turns every reference point clockwise by hdg about the origin and moves it by (x,y); lengths and GetLength are unchanged. The turn is opposite to the OpenDRIVE heading convention, and the stored arc lengths are lost, so that positions along the line cannot be queried afterwards.", "quantifier": "every plan view and transform", "why_tests_cant": "All reference lines and transforms.", "anchors": ["bark/world/opendrive/plan_view.cpp:PlanView::ApplyOffsetTransform", "bark/geometry/line.hpp:Rotate", "bark/geometry/line.hpp:Translate"]}
{"id": "C56", "title": "Lane borders keep the lane width from the inner border", "statement": "CreateLineWithOffsetFromLine builds the outer border of a lane with every vertex at the distance of the lane width (constant, or the width polynomial at the distance from the start of the width entry) from the inner border, to the left for positive lane ids and to the right otherwise, sampled from the start of the width entry to its end; XodrLane::append puts it behind the existing line.", "quantifier": "every inner border, lane id, width entry and increment; every polyline simplification", "why_tests_cant": "All borders and polynomials.", "anchors": ["bark/world/opendrive/commons.hpp:CreateLineWithOffsetFromLine", "bark/world/opendrive/lane.cpp:XodrLane::append"]}
{"id": "C57", "title": "Views of an observed world", "statement": "GetOtherAgents lists every agent except the ego, GetValidOtherAgents those of them that are live; ObserveForOtherAgent shows a clone of the same world to the other agent; Predict keeps the ego, advances time by the time span and treats every agent like a simulation step treats its clone; GetWorldAtTime returns a clone whose agents' execution is evaluated at the given time and whose histories each got one more entry, but whose world time is the old one.", "quantifier": "every observed world, agent id, time span and time; every behaviour, execution and observer model", "why_tests_cant": "All worlds and all models.", "anchors": ["bark/world/observed_world.hpp:GetOtherAgents", "bark/world/observed_world.cpp:GetValidOtherAgents", "bark/world/observed_world.cpp:ObserveForOtherAgent", "bark/world/observed_world.cpp:Predict", "bark/world/world.cpp:GetWorldAtTime"]}
{"id": "C58", "title": "Observed worlds of one Observe call share their agents", "statement": "World::Observe clones the world once: nothing done to a returned observed world reaches the agents of the observed world, but all returned observed worlds show the same agent objects, so replacing an agent's behaviour model through one of them (SetBehaviorModel, SetupPrediction) is visible in all others; Predict clones first and is not visible in them.", "quantifier": "every heap, world, list of ids and later operations", "why_tests_cant": "Aliasing over all histories of operations.", "anchors": ["bark/world/world.cpp:World::Observe", "bark/world/observed_world.hpp:ObservedWorld", "bark/models/observer/observer_model_none.hpp:Observe"]}
{"id": "C59", "title": "Random distributions: support and reseeding", "statement": "Every first sample component of a uniform, normal or fixed distribution lies in the reported support; a uniform distribution yields exactly the values of [lower, upper). After ChangeSeed(s) the further samples do not depend on the past and equal those of a distribution constructed with seed s, for every distribution except a multivariate normal of odd dimension (refuted there: one variate survives reseeding).", "quantifier": "every generator, seed, configuration and call history", "why_tests_cant": "All call histories and seeds.", "anchors": ["bark/commons/distribution/distributions_1d.hpp", "bark/commons/distribution/multivariate_normal.hpp", "bark/commons/params/params.cpp: GetDistributionFromType"]}
{"id": "C60", "title": "Noisy observer", "statement": "The parametric observer returns a clone of the world in which the current state of every agent is deviated by exactly one sample (ego: ego distribution; others: successive samples of the other distribution in order of their ids) and nothing else changes; agents missing from a non-empty observe-only list see the exact clone. The deviation's first component moves along the heading, the third and fourth change heading and speed. NOT guaranteed (refuted): the second component is orthogonal to the heading (only for headings along the axes), spatial queries use the deviated states (the index holds the true ones), a copied observer keeps its observe-only list; the default configuration (dimension 3) always fails.", "quantifier": "every world, agent, distribution and sample", "why_tests_cant": "All noise outcomes and worlds.", "anchors": ["bark/models/observer/observer_model_parametric.cpp: Observe, AddStateDeviationFrenet", "bark/models/observer/observer_model.hpp"]}
{"id": "C61", "title": "Roadgraph vertices and successors are those of the map", "statement": "Roadgraph::Generate succeeds on every map whose roads have sections and whose junctions name existing roads; its lanes are exactly the map's lanes with their road; GetSuccessorLanes(l) returns exactly the lanes the map links with l -- in either orientation, so predecessors are reported as successors as well -- where links of roads with a successor id above 1000 (also the default of a road without successor) are not read and all sections of a road are linked to the neighbouring road's section; GetPlanViewForLaneId finds the reference line of the lane's section.", "quantifier": "every OpenDRIVE map with any roads, sections, lanes, links and junctions", "why_tests_cant": "All maps.", "anchors": ["bark/world/map/roadgraph.cpp:Roadgraph::Generate", "bark/world/map/roadgraph.cpp:Roadgraph::GenerateFromSuccessors", "bark/world/map/roadgraph.cpp:Roadgraph::GetSuccessorLanes"]}
{"id": "C62", "title": "Lane polygons are closed rings between the lane's two borders", "statement": "After Generate, the polygon stored for a lane consists of the line of the lane next to it towards the reference line, followed by the lane's own line backwards, and ends with the point it starts with; a lane without inner neighbour has none.", "quantifier": "every map, lane and line", "why_tests_cant": "All maps.", "anchors": ["bark/world/map/roadgraph.cpp:Roadgraph::ComputeXodrLanePolygon", "bark/world/map/roadgraph.cpp:Roadgraph::GeneratePolygonsForVertices"]}
{"id": "C63", "title": "Paths in a lane subset", "statement": "FindAllPathsInSubgraph over lane successors should return the maximal lane sequences of the given lanes. On a generated roadgraph, whose successor edges run both ways, it returns exactly one single-lane path for each given lane that is linked to no given lane, and never a path with two lanes.", "quantifier": "every map and every set of lane ids", "why_tests_cant": "All maps; the defect only shows on generated graphs.", "anchors": ["bark/world/map/roadgraph.cpp:Roadgraph::FindAllPathsInSubgraph", "bark/world/map/map_interface.cpp:ComputeAllPathBoundaries"]}
{"id": "C64", "title": "RSS conformant behaviour: switching and safety corridor", "statement": "A planning step in a lane reports SAFETY exactly when the evaluator's verdict on that world is false (and then records the world time as last violation), and returns the plan of the nominal model when the verdict is true or safety manoeuvres are switched off, else the plan of the safety model in the safety corridor; the model not executed is not stepped. The safety corridor is the lane driven at the first step, or at the last step at which the safety corridor was shorter than the configured minimum. Without a verdict, with the first step off any lane, or after the lane was lost near the corridor's end, Plan is undefined. NOT guaranteed (refuted): a clone plans independently of the original.", "quantifier": "every evaluator, lane-tracking model, parameters and sequence of worlds", "why_tests_cant": "All histories of worlds and verdicts.", "anchors": ["bark/models/behavior/behavior_rss/behavior_rss.cpp:Plan", "bark/models/behavior/behavior_safety/behavior_safety.cpp:Plan"]}
{"id": "C65", "title": "RSS verdict", "statement": "The RSS evaluator reports true iff no individual response of the RSS check on the observed world is dangerous, nothing if the RSS world cannot be generated; the pairwise answers agree with the individual responses and the overall verdict is their conjunction as long as objects are distinct. NOT guaranteed (refuted): with two responses for one object the pairwise answer keeps the last only; a failed check reports 'safe'.", "quantifier": "every observed world, RSS library result and number of responses", "why_tests_cant": "All worlds and library results.", "anchors": ["bark/world/evaluation/rss/rss_interface.cpp:ExtractSafetyEvaluation, GetSafetyReponse, GetPairwiseSafetyReponse", "bark/world/evaluation/rss/evaluator_rss.hpp:Evaluate"]}
{"id": "C66", "title": "RSS response and acceleration limits", "statement": "The proper response returned by the evaluator after an evaluation is the one of the PREVIOUS evaluation. The limits derived from a response: longitudinal bounds are passed on, the lateral bounds are those of the side the vehicle moves to, or the intersection of both when moving straight, converted to the vehicle frame for the current state; the state history is not used; driving against the road's direction swaps the roles of bounds.", "quantifier": "every sequence of evaluations, response, state, lane and action", "why_tests_cant": "All evaluation histories and states.", "anchors": ["bark/world/evaluation/rss/evaluator_rss.hpp:Evaluate", "bark/models/behavior/behavior_rss/behavior_rss.cpp:ConvertRestrictions"]}
{"id": "C67", "title": "Safety polygon", "statement": "The safety polygon has one vertex per vertex of the ego shape; along the vehicle each vertex moves away from the reference point by the longitudinal safety distance (according to the mode), across it a vertex on the left moves right by the right safety distance and any other one moves left by the left safety distance; computing it twice appends a second ring. NOT guaranteed (refuted): the polygon contains the vehicle's outline.", "quantifier": "every ego pose, shape, distances and mode", "why_tests_cant": "All poses and shapes.", "anchors": ["bark/world/evaluation/rss/safety_polygon.hpp:ComputeSafetyPolygon"]}
{"id": "C68", "title": "RSS relevant agents", "statement": "The agents passed to the RSS check are exactly those other than the ego whose distance is below the scaled sum of the two stopping distances; the stopping distance is response-time travel with maximal acceleration followed by braking with the STRONGER of the two braking values, and grows with speed. NOT guaranteed (refuted): it bounds the distance needed when braking with the weaker value.", "quantifier": "every set of agents, speeds, dynamics parameters", "why_tests_cant": "All scenes.", "anchors": ["bark/world/evaluation/rss/rss_interface.cpp:CalculateMaxStoppingDistance, GetRelevantAgents"]}
{"id": "C69", "title": "Labels relating the ego to another agent mean what their names say", "statement": "For every observed world a pairwise rule label yields exactly one entry per other agent that is currently valid. 'in front of' / 'behind' for an agent that is in a lane hold iff the ego's extent along that agent's lane lies entirely ahead of / behind the agent's; they exclude each other, cover exactly the non-overlapping case, and are dual for agents of the same lane. 'left of'/'right of' hold iff the lane on that side of the agent is the ego's lane; 'relative speed', 'near' and 'preceding agent' compare speeds, footprint distance and the identity of the ego's front vehicle. For agents of opposite lanes 'in front of' is not antisymmetric (each is in front of the other).", "quantifier": "all worlds, agents, lanes, positions, shapes and thresholds", "why_tests_cant": "Tests place two or three agents by hand on one straight map; the meaning for every position, lane geometry and set of agents is a universal statement", "anchors": ["bark/world/evaluation/ltl/label_functions/multi_agent_label_function.cpp", "bark/world/evaluation/ltl/label_functions/front_of_label_function.cpp: FrontOfLabelFunction", "bark/world/evaluation/ltl/label_functions/behind_of_label_function.cpp: BehindOfLabelFunction", "bark/world/evaluation/ltl/label_functions/left_of_label_function.cpp", "bark/world/evaluation/ltl/label_functions/rel_speed_label_function.cpp", "bark/world/evaluation/ltl/label_functions/agent_near_label_function.cpp", "bark/world/evaluation/ltl/label_functions/succeeding_agent_label_function.cpp"]}
{"id": "C70", "title": "Labels about one agent and its lane mean what their names say", "statement": "Outermost-lane labels hold iff there is no lane on that side or it ends within the threshold ahead of the vehicle; the lane-end label holds iff the front is within the threshold of the lane end on either side (so it is lost again when the front overhang carries the vehicle past the end); 'accelerate' needs a history of at least three states and then compares the last mean acceleration; 'dense traffic' counts all other agents of the world within the radius, including those not yet active; 'beyond point' is strict progress along the lane, never true for a point projecting onto the lane end; 'lane change' holds iff the ego's last move meets a boundary of the lane it is now in; evaluator-based labels do not depend on earlier evaluations.", "quantifier": "all worlds, histories, lanes, positions and thresholds", "why_tests_cant": "A test fixes one map, one history and one threshold; boundary cases (lane end, equality, absent agents, crossing moves) range over a continuum", "anchors": ["bark/world/evaluation/ltl/label_functions/ego_accelerate_label_function.cpp", "bark/world/evaluation/ltl/label_functions/dense_traffic_label_function.cpp", "bark/world/evaluation/ltl/label_functions/lane_change_label_function.cpp", "bark/world/evaluation/ltl/label_functions/agent_at_lane_end_label_function.cpp", "bark/world/evaluation/ltl/label_functions/agent_beyond_point_label_function.cpp", "bark/world/evaluation/ltl/label_functions/rightmost_lane_label_function.cpp", "bark/world/evaluation/ltl/label_functions/generic_ego_label_function.hpp"]}
{"id": "C71", "title": "Static safety distance evaluators count real violations", "statement": "A static safety distance evaluator reports a violation for a world only if another live agent's footprint enters the ego's footprint enlarged by the two distances or vice versa, and (with at most four agents in the world) whenever it does; with five or more agents violations can be missed because only the four nearest index entries, the ego among them, are examined. For rectangular vehicles of equal heading a violation means that the longitudinal and the lateral gap are both at most the configured distances; no violation implies no collision at any headings. The returned value is the number of violating evaluations so far and never decreases.", "quantifier": "all worlds, agents, poses, shapes, distances and evaluation sequences", "why_tests_cant": "Continuous poses and arbitrary agent sets; the missed violations need a particular constellation of five or more agents", "anchors": ["bark/world/evaluation/safe_distances/evaluator_safe_dist_base.hpp: EvaluatorSafeDistBase", "bark/world/evaluation/safe_distances/evaluator_static_safe_dist.cpp: EvaluatorStaticSafeDist::CheckSafeDistance", "bark/world/evaluation/safe_distances/evaluator_safe_dist_drivable_area.cpp: EvaluatorSafeDistDrivableArea", "bark/geometry/commons.hpp: Shape::Inflate"]}
{"id": "C72", "title": "Benchmark configurations are complete and uniquely numbered", "statement": "For a benchmark over behaviors and a scenario database the runner creates, for each behavior and each scenario set, exactly one configuration per requested scenario (all scenarios when no number or zero is given), numbers them 0,1,2,... without gaps or repetition, the same scenarios for every behavior, and merges the set's and the scenario's descriptions with the scenario's entries winning; the variant over a single scenario generation gives the same as a database of one undescribed set.", "quantifier": "all behavior lists, databases, scenario counts and descriptions", "why_tests_cant": "Nested loops over arbitrary lists with an early break; tests use one small database", "anchors": ["bark/benchmark/benchmark_runner.py: _create_configurations_from_database", "bark/benchmark/benchmark_runner.py: _create_configurations_from_scenario_generation"]}
{"id": "C73", "title": "A configuration stops at the first step a terminal criterion holds", "statement": "Running one benchmark configuration simulates until the first step at which a terminal criterion holds; the row reports exactly that step number, what the evaluators returned at that step and exactly the criteria that hold, in order; a kept history has one world per executed step plus the initial one; with criteria per scenario set exactly one name must occur in the set's name. There is no step bound: without a criterion ever holding it never ends. An evaluator named like a column shadows it, except for Terminal.", "quantifier": "all scenarios, worlds, stateful evaluators, criteria, step counts", "why_tests_cant": "Unbounded simulation loop with opaque stateful evaluators", "anchors": ["bark/benchmark/benchmark_runner.py: _run_benchmark_config, _is_terminal, _is_terminal_for_scen_set, _get_evalution_dict", "bark/benchmark/benchmark_result.py: BenchmarkConfig.as_dict"]}
{"id": "C74", "title": "A benchmark run returns and stores one row per configuration", "statement": "A run into a directory without an earlier checkpoint of that name returns one row per configuration in order followed by the rows of the existing result; the checkpoint file holds the same rows and exactly the configurations and (if kept) histories; other files are untouched and the temporary file is removed; the rows do not depend on how often checkpoints are written. Without merging first, a second run in the same directory replaces the stored rows of the first; and after extending a loaded result get_result_dict returns only the new rows while get_data_frame returns all.", "quantifier": "all configuration lists, results, checkpoint intervals, member sizes and directory contents", "why_tests_cant": "File system effects over arbitrary many checkpoints and split sizes", "anchors": ["bark/benchmark/benchmark_runner.py: run", "bark/benchmark/benchmark_result.py: extend, dump, get_data_frame, get_result_dict"]}
{"id": "C75", "title": "Resuming an interrupted benchmark never loses or repeats a configuration", "statement": "If a run in an empty directory is killed at any file system step, resuming with merge_existing either raises or ends with exactly one row per configuration, in the returned result and on disk: the interrupted run's rows for a prefix and new rows for the rest. A completed run can be resumed with more configurations and only the new ones are run. A crash during the merge itself loses no row. But a run killed while simulating after its first checkpoint cannot be resumed (the merge raises because the temporary file repeats rows of the checkpoint), and a directory that already holds a merged result with rows can never be merged again.", "quantifier": "all configuration lists, checkpoint intervals, crash points, directory listing orders", "why_tests_cant": "Every crash point of every run length, with every order glob may return", "anchors": ["bark/benchmark/benchmark_runner.py: merge_checkpoint_benchmark_results, get_configs_to_run, run", "bark/benchmark/benchmark_result.py: extend, load_results, remove_result_file_from_dumped, move_files"]}
{"id": "C76", "title": "Which failures of one configuration stay confined to its row", "statement": "An exception of an evaluator, of planning or of executing the world ends only that configuration: its row carries its own index and Terminal = exception_raised. An exception while building the world, setting the behavior, creating the evaluators or evaluating the terminal criteria (also a criterion without an evaluator and a scenario set matching none or several criteria sets) ends the whole run with an exception; what remains is the last checkpoint, the rows of a prefix of the configurations run. Without any terminal criterion the run ends with an exception at its first configuration whose evaluators succeed.", "quantifier": "all configurations, failing components and failure steps", "why_tests_cant": "Failures at any step of any configuration of a long run", "anchors": ["bark/benchmark/benchmark_runner.py: _run_benchmark_config, run, _is_terminal"]}
{"id": "C77", "title": "The parallel runner runs every configuration exactly once", "statement": "With n actors, actor i gets configurations i, i+n, i+2n, ...: a partition. The combined result has the same rows as the sequential run up to order, also on disk. With fewer CPUs than one actor needs there are no actors and silently nothing is run. After a parallel run in an empty directory the checkpoints cannot be merged, because the actors' files remain beside the combined one.", "quantifier": "all actor counts, configuration lists, existing results", "why_tests_cant": "All list lengths and actor counts", "anchors": ["bark/benchmark/benchmark_runner_mp.py: BenchmarkRunnerMP.__init__, run", "bark/benchmark/benchmark_runner.py: merge_checkpoint_benchmark_results"]}
{"id": "C78", "title": "Dumped benchmark archives load back what was dumped", "statement": "Dumping a result with configurations and histories, split into any number of members not above the number of entries, and loading gives the same rows, configurations and histories back. Loading selected indices finds every stored requested entry and reads only members containing a requested index. Asking for configurations that are all loaded already appends the whole archive again. If an entry exceeds the size limit so that more members than entries are needed, dump raises ValueError. Dumping under a new name moves the old file. Merging archives that share a member name raises instead of dropping one.", "quantifier": "all results, index sets, size splits and file names", "why_tests_cant": "All splits of all lists; duplicates need particular load sequences", "anchors": ["bark/benchmark/benchmark_result.py: _save_and_split, _load_and_merge, _find_files_to_load, load_benchmark_configs, load_histories, dump"]}
{"id": "C79", "title": "Evaluators are selected by scenario set name", "statement": "With two or more specific evaluator configurations a scenario set gets the one whose name occurs in the set's name, the default if none does, and an error if several do. With a single specific configuration the default is always used, even if the name matches. Adding under a name replaces the earlier configuration of that name; an empty name sets the default.", "quantifier": "all evaluator configurations and set names", "why_tests_cant": "All sets of names, including names contained in each other", "anchors": ["bark/benchmark/benchmark_runner.py: EvaluationConfig.AddEvaluatorConfig, _GetScenarioEvaluators"]}
{"id": "C80", "title": "Scenarios handed out by a generator are independent", "statement": "get_scenario(i) returns a scenario with the agents, evaluated ids, map and parameters of stored scenario i, made of new objects, whatever was done before to scenarios handed out, to worlds built from them, and whatever loops and get_next_scenario calls came before, as long as nobody touches the stored objects; the exception is a nested parameter dictionary, which all copies share. get_next_scenario cycles through the list from its cursor; a for loop visits every scenario once in order, but a loop nested inside another one over the same generator ends the outer loop. A pickled and reloaded scenario has no map and reads it again from its file.", "quantifier": "every generator, every interleaving of get_scenario, get_next_scenario, loops and arbitrary operations on the scenarios and worlds handed out", "why_tests_cant": "aliasing must be absent after every history of calls and mutations; a test compares a few objects", "anchors": ["bark/runtime/scenario/scenario.py: Scenario.copy,_build_world_state,__getstate__,__setstate__", "bark/runtime/scenario/scenario_generation/scenario_generation.py: ScenarioGeneration"]}
{"id": "C81", "title": "Benchmark analyzer finds, pairs and shows configurations", "statement": "find_configs returns exactly the configurations meeting all given restrictions (criteria, configurations, scenarios), in data frame order or in the order of the given scenarios; it raises on a missing column, and scenarios of unknown configurations restrict nothing. make_scenarios_congruent returns lists that hold, place by place, configurations with the same scenario index, taken from the respective input list, covering exactly the scenarios common to all; it raises exactly if a list has not exactly one configuration per common scenario or nothing is common (scenario sets are not compared). visualize shows every stored history entry by entry, all viewers in step, the shorter ones staying at their last entry, and ends; a configuration without history makes it raise and an unknown configuration ends it silently.", "quantifier": "all data frames with unique configuration indices, all restrictions, lists, histories, any tie breaking of the sort", "why_tests_cant": "all data frames, list orders with repetitions and unknown entries, unstable sorting", "anchors": ["bark/benchmark/benchmark_analyzer.py: BenchmarkAnalyzer.find_configs,get_scenario_ids,make_scenarios_congruent,visualize,_render_histories"]}
{"id": "C82", "title": "Runtime: reset, step, world history, time series", "statement": "step raises and changes nothing before the first reset. With history kept, after a reset the history holds the world as it was before the first step and after every completed step, whatever is done to the world between and afterwards, and its length is one more than the completed steps (0 if no step was tried); ExtractTimeSeries gives one row of state and last action of the evaluated agent per entry. Without it the history stays empty. reset clears history and restarts at time 0 with the next scenario of the generator, and a failed reset leaves world, history and readiness. run(n) raises for n>0 (it calls a method that does not exist), and resetting twice with the same scenario object does not restart its agents.", "quantifier": "all runtimes, scenarios, interleavings of resets, successful and failing steps and operations on the world", "why_tests_cant": "the history must survive every later mutation of the live world, at any length", "anchors": ["bark/runtime/runtime.py: Runtime", "bark/world/world.cpp: World::Clone", "bark/python_wrapper/runtime.hpp"]}
{"id": "C83", "title": "Configurable scenario generation", "statement": "Every generated scenario holds the agents of all sink/source configurations in their order, the k-th agent of a source built from the k-th item of each list its readers returned, numbered 0,1,2,... through; its evaluated agents are exactly those flagged as controlled. num_scenarios scenarios are generated, the i-th with index i. Generation succeeds if no reader raises and all lists have one item per state; lists of different length are refused. A source without states adds nothing and its other readers are not asked. A fresh generator's get_next_scenario gives the LAST scenario first.", "quantifier": "all lists of sources, all readers (state-changing functions that may raise), all scenario indices", "why_tests_cant": "readers are arbitrary user code with their own state; the numbering must hold for any split of agents on sources", "anchors": ["bark/runtime/scenario/scenario_generation/configurable_scenario_generation.py: ConfigurableScenarioGeneration.create_scenarios, create_single_scenario, create_source_config_agents, update_agent_ids", "bark/runtime/scenario/scenario_generation/scenario_generation.py: get_next_scenario"]}
{"id": "C84", "title": "Copying an agent", "statement": "copy.deepcopy (or pickling) of an agent succeeds exactly if it has a pickleable behavior model, the interpolating execution model, a single track dynamic model, a goal and a state. The copy has the same id, shape, history, state, first valid time, route, planned trajectory and model parameters; it loses its own parameters, 3d model, built corridor, executed trajectory and history bound (30 afterwards), its sequential goals start over, and the models inside BehaviorSafety/BehaviorRSSConformant become lane tracking IDMs. Put into a world it gets the corridor of its route. Copying a copy changes nothing more.", "quantifier": "every agent (any behavior type, nested goal, history, parameters), every further sequence of steps", "why_tests_cant": "the combinations of model types, goal nestings and histories are unbounded and a round trip test compares a few of them", "anchors": ["bark/python_wrapper/world/agent.cpp", "bark/python_wrapper/polymorphic_conversion.cpp", "bark/python_wrapper/models/behavior.cpp", "bark/python_wrapper/world/goal_definition.cpp", "bark/world/objects/agent.cpp:Agent::GenerateRoadCorridor,Agent::UpdateStateAction"]}
{"id": "C85", "title": "Conflict resolution between sources", "statement": "find_overlaps_in_sources_sinks reports exactly the pairs of agents of different sources that collide and raises exactly if the boxes of two agents of one source overlap. After resolve_overlaps no two remaining agents collide, only agents that collided are gone and the others keep order, states and geometries; probabilities belong to the sources named in the key in either order, and with probabilities adding up to one exactly one agent of a pair goes. Missing schemes and integer or mixed probabilities raise; a scheme is demanded even for boxes that overlap without collision. create_scenarios never calls the resolution: agents of two sources may be placed on top of each other.", "quantifier": "all sources, agents, geometries (box query and collision test as oracles with their contract), schemes and random samples", "why_tests_cant": "any number of mutually overlapping agents in any arrangement", "anchors": ["bark/runtime/scenario/scenario_generation/config_readers/config_readers_interfaces.py", "bark/runtime/scenario/scenario_generation/configurable_scenario_generation.py: find_overlaps_in_sources_sinks, resolve_overlaps_in_sources_sinks"]}
{"id": "C86", "title": "Uniform vehicle distribution along lanes", "statement": "Cars are placed from the begin of SRange of a lane until its end is passed, bumper gaps lie in VehicleDistanceRange, speeds in VelocityRange, every car lies in SRange, and no further car would fit; placing ends with at most range/step cars if the smallest step is positive, and never ends if the largest is not. With LanePositions given the position recorded for a car names its lane; without, it names the lane to its right, so its end-of-lane goal lies there and a car on the rightmost lane makes generation raise.", "quantifier": "all ranges, shapes, lane lengths, sequences of random draws", "why_tests_cant": "unbounded sequences of draws; termination", "anchors": ["bark/runtime/scenario/scenario_generation/config_readers/agent_state_geometry_config_readers.py: UniformVehicleDistribution", "bark/runtime/scenario/scenario_generation/config_readers/goal_definition_config_readers.py: FixedGoalTypes"]}
{"id": "C87", "title": "Controlled agents and goal readers", "statement": "NoneControlled controls nobody, RandomSingleAgent exactly the drawn agent, AgentIds exactly the agents with a wanted id, each with one flag per agent. PositioningSingleAgent controls the agent at index WhereOnLane(number of agents on the lane) among ALL agents - the right one if all agents are on that lane, possibly one of another lane otherwise. FixedGoalTypes gives every agent the goal of its own lane (end of lane, or neighbour lane) by the type for controlled or other agents; a missing neighbour raises or falls back to the own lane if not enforced; only controlled agents get sequential goals; an agent on no lane makes it raise.", "quantifier": "all numbers of agents, draws, id lists, lane positions, corridors, goal types", "why_tests_cant": "all sizes and arrangements", "anchors": ["bark/runtime/scenario/scenario_generation/config_readers/controlled_agents_config_readers.py", "bark/runtime/scenario/scenario_generation/config_readers/goal_definition_config_readers.py"]}
{"id": "C88", "title": "Scenarios from a window moved over recorded tracks", "statement": "If the moving window reader succeeds it returns the first window (file by file, in steps of SkipTimeSearch from one step after where the previous scenario's window, or MinTime, was) that ends before MaxTime and satisfies MinimumNumbersPerLane, with exactly the vehicles recorded during the whole window that stand on one of those lanes inside the corridor at its start, no vehicle twice. Otherwise it raises; it never loops with a positive step. Successive scenarios move on by at least SkipTimeScenarios + SkipTimeSearch or to a later file. With gapless 10 Hz recordings and times in multiples of 100 ms no state is missing. The window at MinTime itself is never searched, minimum numbers of zero end a file at its first window with vehicles, and window starts between samples raise.", "quantifier": "all recordings, lane layouts, window parameters, sequences of scenario indices", "why_tests_cant": "unbounded recordings and histories of earlier calls (class variables)", "anchors": ["bark/runtime/scenario/scenario_generation/config_readers/agent_state_geometry_config_readers.py: InteractionDataWindowStatesGeometries", "bark/runtime/scenario/interaction_dataset_processing/interaction_dataset_reader.py: InitStateFromTrack"]}
{"id": "C89", "title": "Decomposing a recording into scenarios", "statement": "Decomposing gives one scenario per car not longer than the maximum that is ever on the road (from the first time it is, plus the offset, to the end of its track), with exactly the other such cars present at the same time for more than an instant; it never fails. The full generator gives, per file, the scenarios of the first num_scenarios cars up to the first excluded one, each with one agent per car with distinct ids, only the ego evaluated, every car starting at its recorded state at the later of its own and the scenario's start and replaying exactly the recorded states within the scenario's time; with gapless recordings whose tracks do not end before start + offset it succeeds, otherwise one such car makes the whole generation raise. The replay generator duplicates the ego if it is among TrackIds, and raises without EndTs.", "quantifier": "all recordings, offsets, road geometries, exclusions, numbers of scenarios", "why_tests_cant": "unbounded recordings; presence intervals at their boundaries", "anchors": ["bark/runtime/scenario/interaction_dataset_processing/dataset_decomposer.py: DatasetDecomposer", "bark/runtime/scenario/interaction_dataset_processing/scenario_track_info.py", "bark/runtime/scenario/interaction_dataset_processing/agent_track_info.py", "bark/runtime/scenario/scenario_generation/interaction_dataset_scenario_generation_full.py", "bark/runtime/scenario/scenario_generation/interaction_dataset_scenario_generation.py"]}
{"id": "C90", "title": "ConfigWithEase: agents placed on lane corridors", "statement": "Each configuration fills its lane corridor from a random start below ds_max with agents at gaps between ds_min and ds_max and speeds between min and max velocity, up to s_max and no further; s_min is ignored and agents beyond the lane's end are stacked on its last point; placing ends if ds_min > 0, never does if no gap moves on; ids within a scenario are increasing and distinct, with one number left out per configuration; exactly one agent per configuration that gives controlled_ids (whatever it contains) is controlled, a ValueError is raised if there is none; a given controlled behavior model leaves that agent with no behavior at all.", "quantifier": "all configurations, all draws of the random generator, all lanes", "why_tests_cant": "depends on every sequence of random draws", "anchors": ["bark/runtime/scenario/scenario_generation/config_with_ease.py:LaneCorridorConfig", "bark/runtime/scenario/scenario_generation/config_with_ease.py:ConfigWithEase.create_single_scenario"]}
{"id": "C91", "title": "UniformVehicleDistribution generator: agents, ego, map", "statement": "For every route whose sink lies ahead of its source the agents stand on the lane's center line between the two, gaps and speeds in their ranges, numbered one after the other with the route's goal, and the map is kept. For a sink behind its source the lane's center line in the scenario's map itself is turned round and stays so, and the positions measured on the old line are used on the turned one, so the agents can stand all outside the route. With an ego route the ego agent is new and last, all ids differ; without, the agent at a quarter of the list is ego and is in the list twice (IndexError if there is none). Routes across lanes raise. Placing ends if the smallest step is positive.", "quantifier": "all routes, maps, random draws, ranges", "why_tests_cant": "depends on the geometry of every lane, every random draw and the order of the routes", "anchors": ["bark/runtime/scenario/scenario_generation/uniform_vehicle_distribution.py:UniformVehicleDistribution", "bark/python_wrapper/world/map.cpp:LaneCorridor.center_line"]}
{"id": "C92", "title": "Python parameters: reads and writes by name", "statement": "p[\"A::B::c\"] = v stores v under that name, creates only the missing groups on the way and changes nothing else in any server; a typed read (GetReal, GetInt, ...) of \"A::B::c\" returns the stored value whatever default is passed; if the parameter does not exist the default is stored and returned, so that the first default wins for all later reads; a typed read never changes an existing parameter and raises exactly when the name is that of a group. A write below a list of groups goes into each of them; AddChild with delete replaces only the last component. Traps: a parameter standing where a group is expected is returned for every name below it; p[\"A::b\"] does not read A::b but creates an empty group of that name; p[key, description] = v stores nothing; writes below an empty list vanish.", "quantifier": "all heaps of parameter servers (any nesting and sharing), all clean hierarchical names, all values and defaults", "why_tests_cant": "tests try a few names on small servers; the frame (nothing else changes, in any server) and the behaviour for every depth, sharing and default cannot be enumerated", "anchors": ["bark/runtime/commons/parameters.py:ParameterServer.__getitem__", "bark/runtime/commons/parameters.py:ParameterServer.__setitem__", "bark/runtime/commons/parameters.py:ParameterServer.get_val_iter", "bark/runtime/commons/parameters.py:ParameterServer.AddChild", "bark/runtime/commons/parameters.py:ParameterServer._set_item_from_hierarchy_string"]}
{"id": "C93", "title": "Python parameters: dictionaries, copies and transfer to C++", "statement": "ParameterServer(json=d) holds d in new servers and leaves existing ones alone; ConvertToDict returns what the server holds except that empty groups become the string \"MISSING\"; without empty groups load and ConvertToDict are inverse; clone() is an independent deep copy up to empty groups, which turn into the string \"MISSING\" (and then refuse parameters below them); GetCondensedParamList lists exactly the parameters of a type C++ takes (bool, int, float, string, lists and lists of lists of floats), once each under the full name, so None, integer lists and everything in lists of groups silently do not reach C++.", "quantifier": "all dictionaries with clean keys of any depth, including lists of groups; all heaps", "why_tests_cant": "round trips and independence must hold for every nested dictionary; tests check a few fixed files", "anchors": ["bark/runtime/commons/parameters.py:ParameterServer.ConvertToParam", "bark/runtime/commons/parameters.py:ParameterServer.ConvertToDict", "bark/runtime/commons/parameters.py:ParameterServer.clone", "bark/runtime/commons/parameters.py:ParameterServer.GetCondensedParamList"]}
{"id": "C94", "title": "Python parameters: merging, searching, comparing", "statement": "p.AppendParamServer(q, overwrite) makes p hold the merger (groups recursively; clashes keep p's value, or take q's if overwriting), leaves q and all other servers as they are, but shares q's groups with p instead of copying them; FindKey returns the full name of a parameter of that name, or None exactly if there is none; p.HasEqualParamsAs(q) is True exactly if they differ in something q has (so it is one-sided and its name is reversed), two servers with the same content compare equal unless there are lists of groups.", "quantifier": "all pairs of separate servers holding any clean dictionaries", "why_tests_cant": "needs all nestings and all overlaps of the two servers", "anchors": ["bark/runtime/commons/parameters.py:ParameterServer.AppendParamServer", "bark/runtime/commons/parameters.py:ParameterServer.FindKey", "bark/runtime/commons/parameters.py:ParameterServer.HasEqualParamsAs"]}
{"id": "C95", "title": "OpenDRIVE files: the map holds what the file says", "statement": "If the parser returns a map for a file, then the map's roads are the last road element of each number with its links, sections and lanes (position, type, driving direction, links, junction), its junctions and connections those of the file (last of each number); all lane ids are new and distinct; a lane with |position| >= 2 always has its inner neighbour, so sections with lane 0 have no gaps; with distinct lane numbers the map meets everything the road graph needs and the graph finds the plan view of every lane. Files without header, or with a road without id, name, junction, lanes, planView, with a geometry other than line, spiral, arc, or a section without s, give no map.", "quantifier": "all XML trees, all number parsers, all previous values of the lane counter", "why_tests_cant": "the space of files is infinite; duplicates, missing attributes and orders of lanes interact", "anchors": ["bark/runtime/commons/xodr_parser.py:XodrParser", "bark/world/opendrive/lane_section.cpp:GetLaneByPosition", "bark/world/opendrive/lane.cpp:XodrLane"]}
{"id": "C96", "title": "OpenDRIVE files: where the lane borders are", "statement": "The border of lane 0 and of lanes +1/-1 is drawn from the plan view's reference line up to the road length, that of every other lane from its inner neighbour's border up to that one's length, one piece per width record, each ending where the next record starts; a lane without width record has an empty line. The lane offset of a road is added to the widths of lanes +1 and -1 only: with a constant offset o both lanes are |w+o| wide and lane 0 stays, so OpenDRIVE's lateral shift (border of lane -1 at o-w) does not happen for any o other than 0.", "quantifier": "all files, all lanes, all widths and offsets, real arithmetic", "why_tests_cant": "geometry for every file; example maps hardly use lane offsets", "anchors": ["bark/runtime/commons/xodr_parser.py:create_cpp_lane", "bark/runtime/commons/xodr_parser.py:create_cpp_lane_section", "bark/world/opendrive/commons.hpp:CreateLineWithOffsetFromLine"]}
{"id": "C97", "title": "OpenDRIVE files: which attributes matter", "statement": "Two files with the same elements that agree on a fixed list of attributes give the same map. Not in the list: contact points of junction connections and road links, the start s of geometries, and the value of the start s of lane sections (it must only be a number): so all lanes of all sections of a road start at the start of the road.", "quantifier": "all pairs of files", "why_tests_cant": "a statement about pairs of arbitrary trees", "anchors": ["bark/runtime/commons/xodr_parser.py:XodrParser"]}
{"id": "C98", "title": "Lane queries by position", "statement": "On an interface with an OpenDRIVE map, FindNearestXodrLanes(p, n) returns n different non-reference lanes (all of them if there are fewer; only driving lanes if asked), none farther from p than a lane left out, where a lane's distance is that of the straight line between the ends of its outer border; it fails exactly when no lane qualifies. FindXodrLane returns a lane whose ring contains p, the first such among the 20 nearest; on maps with at most 20 lanes it returns null exactly when no lane contains p (on larger maps it can miss the containing lane). FindCurrentLane/FindCurrentRoad give that lane's id and road and are undefined without one. The bounding box is the smallest box around all lane lines. GenerateRoadCorridor(start, goal) routes from a nearest driving lane of the start to a nearest driving lane of the goal's centre, in the start lane's direction; the nearest lane need not be the one containing the point: it may be the oncoming lane.", "quantifier": "all maps with consistent ids, all points, all numbers of lanes, all R-trees meeting the k-nearest contract, all point-in-polygon tests, all routers", "why_tests_cant": "the answer depends on the geometry of every lane of every map and on the R-tree's unspecified tie-breaking", "anchors": ["bark/world/map/map_interface.cpp:interface_from_opendrive", "bark/world/map/map_interface.cpp:FindNearestXodrLanes", "bark/world/map/map_interface.cpp:FindXodrLane", "bark/world/map/map_interface.cpp:GenerateRoadCorridor", "bark/world/map/map_interface.hpp:FindCurrentLane", "bark/world/opendrive/opendrive.hpp:BoundingBox"]}
{"id": "C99", "title": "Maps from CSV tables", "statement": "SetCsvMap of a missing file returns false and changes nothing. Otherwise the first line is ignored and columns 2-7 of each further line are the centre, right and left point (minus the offset); a line lacking one of the six numbers, or a table without data lines, is undefined. Afterwards there is exactly one lane (id 0, driving, forward, with the centre line): every lane query returns it, FindXodrLane returns it exactly for points in the polygon of the left points followed by the reversed right points, the bounding box is that polygon's box, and both the corridor between any two points and the corridor of any agent (whatever its route and goal) is road 0 forward, its lane corridor along the centre line with that polygon.", "quantifier": "all tables, offsets, earlier states of the interface, points, agents", "why_tests_cant": "tables and earlier interface states are unbounded", "anchors": ["bark/world/map/map_interface.cpp:interface_from_csvtable", "bark/world/map/map_interface.hpp:SetCsvMap", "bark/world/objects/agent.cpp:GenerateRoadCorridor"]}
{"id": "C100", "title": "Giving an interface another map", "statement": "Lane queries, road graph and bounding box are those of the map set last, whatever was loaded before. Road corridors are not: a corridor requested under an earlier map is returned for the same road ids and direction under every later map, with the lanes of the earlier map; and once a CSV table was loaded, agents get the table's corridor under every OpenDRIVE map set later.", "quantifier": "all sequences of maps and requests, all hash functions", "why_tests_cant": "the stale state depends on the history of the interface", "anchors": ["bark/world/map/map_interface.hpp:SetOpenDriveMap", "bark/world/map/map_interface.cpp:GenerateRoadCorridor", "bark/world/objects/agent.cpp:GenerateRoadCorridor"]}
{"id": "C101", "title": "Scenarios from a fixed list of agents", "statement": "DeterministicScenarioGeneration gives every requested scenario one agent per entry of Agents, in that order, with that id, shape and models (built from the parameters alone, or else from no dynamic model and the parameters). Its state is the given list, or, for rows of bounds, every entry lies between its bounds. Its goal is reached exactly from the num_reached-th (default 5) call at which the agent was in the region: the given points moved by the first two entries of center_pose, with orientation limits 1.49-1.65 exactly for type GoalDefinitionStateLimits. The seed is ignored; without bounds all scenarios are equal. Generation succeeds exactly if the map loads and every entry is valid. The ids under evaluation are controlled_ids (default [0]), which need not be ids of agents; the world keeps the last agent of every id.", "quantifier": "all parameter trees, numbers of scenarios, random streams, model constructors", "why_tests_cant": "agent lists, bounds and random streams are unbounded", "anchors": ["bark/runtime/scenario/scenario_generation/deterministic.py:create_single_scenario", "bark/runtime/commons/model_json_conversion.py:convert_model"]}
{"id": "C102", "title": "Exporting benchmark results", "statement": "ScenarioDumper.export leaves, for a config, its folder, trajectories.csv with one line (agent, time, x, y, theta, v) per agent of the last stored world (by id) and state in its history (in order), its scenario parameters and a copy of its map, and changes no other file; it succeeds exactly if the map is found and the last world has a state and all states have five entries (or no history is known: then no table is written). OpenScenarioDumper writes instead one polyline per agent with time, x, y, z=0 and heading. Several configs: each has its files, at a shared path (maps of equal file name) the last one wins; the first config that fails ends the export, earlier ones are complete, later ones not begun. Exported are the configs of the filter that are in the list; the matching ones if no list is given; the whole list if the filter matches nothing; neither is refused. A history holds only the last max(m,1) states of a run, so longer runs are exported without their beginning.", "quantifier": "all results, histories, worlds, filters, lists, earlier file systems", "why_tests_cant": "result sets, file systems and run lengths are unbounded", "anchors": ["bark/benchmark/scenario_dumper.py:ScenarioDumper", "bark/benchmark/scenario_dumper.py:OpenScenarioDumper", "bark/benchmark/benchmark_result.py:get_history", "bark/world/objects/agent.cpp:UpdateStateAction"]}
{"id": "C103", "title": "What part of the world the viewer shows", "statement": "BaseViewer centres the view on the agent given by follow_agent_id if it is in the world; with a Boolean, on the only evaluated agent, otherwise on the agent whose id equals the Boolean as an int (False follows as well). If nobody is followed, use_world_bounds shows exactly the smallest square around the centre of the map's bounding box that contains it, otherwise the view is centred on the given centre. Around a centre the enforced length is shown along its axis and the other axis keeps the aspect ratio; enforce_y wins; with neither the old view stays. Keyword arguments override parameters; a missing length defaults to the integer part of |y0|+|y1| of the y range (for x as well); a benchmark re-initialises the viewer from the parameters alone, so keywords are lost.", "quantifier": "all worlds, agents, cameras, aspect ratios, option combinations", "why_tests_cant": "positions, maps and option combinations are unbounded", "anchors": ["bark/runtime/viewer/viewer.py:_update_world_view_range", "bark/runtime/viewer/viewer.py:initialize_params", "bark/benchmark/benchmark_runner.py:_run_benchmark_config"]}
{"id": "C104", "title": "What a picture shows and in which colours", "statement": "Each drawWorld draws exactly the valid agents (all of them, the invalid ones hatched, if asked to), their history if asked to, and the goals of the evaluated agents that have one; evaluated agents in the evaluation colours, others grey or, with the colour map, in a colour that one viewer never changes over all pictures and that differs between agents as long as at most 18 agents were seen; the 19th and 20th share the colour of the 18th. If the first evaluated agent is not in the world, nobody counts as evaluated; if it senses a world of its own, that one is drawn over white outlines of all agents. The drawings that need an evaluated agent (RSS, responsibility areas, reference line) raise if there is none.", "quantifier": "all sequences of worlds, evaluated agents and options", "why_tests_cant": "the pictures a viewer draws and the number of agents are unbounded; colours depend on the history", "anchors": ["bark/runtime/viewer/viewer.py:drawWorld", "bark/runtime/viewer/viewer.py:drawWorldImplementation", "bark/runtime/viewer/viewer.py:GetAgentColor", "bark/runtime/viewer/viewer.py:drawTrueWorld", "bark/runtime/viewer/matplotlib_viewer.py:getColorFromMap"]}
{"id": "C105", "title": "Recorded videos show the worlds drawn", "statement": "Without intermediate steps, a VideoRenderer stores picture n of its n-th drawWorld (counting from 0) and export_video writes a video of exactly these pictures in order, each lasting world_step_time; with clear_figures=False pictures of an older video beyond the new ones stay and follow. With k intermediate steps all pictures of one drawWorld are saved to one file (the last one, the world carried through the k intermediate times, stays) and the file numbers are 0, k, 2k, ..., so for k>=2 the video is that one picture of the first world. k=0, step time 0 and a file name without directory are refused; after an export that removes the pictures drawing fails.", "quantifier": "all sequences of worlds, earlier directories, step times, numbers of intermediate steps", "why_tests_cant": "videos are unbounded; tests draw a few frames and never look at the file", "anchors": ["bark/runtime/viewer/video_renderer.py:VideoRenderer"]}
{"id": "C106", "title": "The drawing thread under every interleaving", "statement": "If a world of time <= 0 was handed to drawWorld before a ThreadedViewer is started and reset is never called, then no interleaving of the simulating and the drawing thread makes the drawing thread fail, it never gets stuck, its k-th picture is drawn at render time 0.03 k, and it shows the latest world (of those queued when the search began) whose time is not after the render time, or, if worlds arrive during the search, one that many positions later (so a later world than the render time may be shown and the next picture may go back). Starting it earlier, a first world of a positive time, or a reset make it fail.", "quantifier": "all schedules, worlds, times", "why_tests_cant": "the schedules of two threads are unbounded and not reproducible in tests", "anchors": ["bark/runtime/viewer/threaded_viewer.py:ThreadedViewer"]}
{"id": "C107", "title": "Primitives a world's renderer collects", "statement": "BufferedViewer.drawWorld adds to the primitives of the world's renderer exactly one line per lane (dashed style for broken or missing marks), one polygon per agent (ego and others under their names, with their styles and ids, in the order of the map) and the state of the evaluated agent, and changes no other renderer; without an evaluated agent in the world it fails after adding the lanes. Nothing is ever removed, so n drawings hold n times the primitives. Clones of a world share its renderer, the world returned by an observer with deviations has a fresh one, registered under the agent's id. BufferedMPViewer shows, after any number of drawings that succeed, exactly its world, centred on the evaluated agent, and leaves the renderer empty; after a failed drawing the lanes stay; added points make every drawing fail.", "quantifier": "all programs creating, cloning, observing and drawing worlds", "why_tests_cant": "sharing of renderers depends on the whole history of clones and drawings", "anchors": ["bark/world/renderer/renderer.hpp:Renderer", "bark/world/renderer/primitive.hpp:RenderPrimitive", "bark/runtime/viewer/buffered_viewer.py:BufferedViewer", "bark/runtime/viewer/buffered_mp_viewer.py:BufferedMPViewer", "bark/models/observer/observer_model_parametric.cpp:Observe", "bark/world/world.cpp:World"]}
{"id": "C108", "title": "Models the configuration readers make", "statement": "For a source of the configurable scenario generation: FixedBehaviorType and FixedDynamicType make one model per agent, all of the configured type and all sharing the group ModelParams of the configuration, each parameter having the configured value or the default of the class; SampleBehaviorType makes for each agent the type drawn for it with the group ModelParams::type (agents of one type share it), fills in the defaults of every listed type and takes one random number per agent; InteractionDataBehaviors gives agent i track i and a server of its own. Readers never overwrite a configured value or touch other groups, and what is handed out for persisting holds every value the models read; the next scenario gets the same values. They stop on unknown types, ModelParams that is no group, parameters that are groups. Not as one could expect: the parameters of execution models cannot be configured (each gets a new empty server), and a configuration with an empty ModelParams group, saved and loaded again, makes no models.", "quantifier": "all configurations (trees of parameter servers), model classes, numbers of agents, tracks and random streams", "why_tests_cant": "the configuration is an unbounded, mutable, shared tree and the readers' effects depend on everything stored in it and on earlier scenarios", "anchors": ["bark/runtime/scenario/scenario_generation/config_readers/behavior_model_config_readers.py: FixedBehaviorType, SampleBehaviorType, InteractionDataBehaviors", "bark/runtime/scenario/scenario_generation/config_readers/execution_model_config_readers.py: FixedExecutionType", "bark/runtime/scenario/scenario_generation/config_readers/dynamic_model_config_readers.py: FixedDynamicType"]}
{"id": "C109", "title": "Where the pygame viewer draws the map and the agents", "statement": "PygameViewer: when scrolling, the screen shows exactly the current view (x to the right, y upwards), and the map lies under the agents within half a pixel per axis plus truncation whenever the map's scale, fixed by the first picture, is that of the screen - as with the default ranges on a square screen; otherwise the map keeps a scale of its own and is off by the distance times the difference of scales. With world bounds, map and agents are at most half a metre and one pixel apart on screens not higher than wide, and off by the difference of height and width on higher ones; a followed agent then stays put while the map does not scroll. The map's box is the smallest one containing every lane point; the first picture of a map without lanes fails.", "quantifier": "all lane point sets, screen sizes, ranges, views and points (exact rationals)", "why_tests_cant": "alignment must hold for every point of every map in every view and screen size", "anchors": ["bark/runtime/viewer/pygame_viewer.py:drawMap", "bark/runtime/viewer/pygame_viewer.py:pointsToCameraCoordinate", "bark/runtime/viewer/pygame_viewer.py:mapToSurfaceCoordinates"]}
{"id": "C110", "title": "Layers, colours and dashes of the pygame viewer", "statement": "PygameViewer: the map and trajectories lie below all shapes, and shapes are stacked by the order in which their alpha was first used in any picture, within one alpha in the order of drawing; that order never changes afterwards. Pictures of shapes persist until clear(); clear() empties every layer, but fails without a video device and then leaves the screen as it was. Components of colours from 0 to 1 always give a colour, monotonically, anything clearly outside fails; a name outside the six known is black. Dashes of a segment of length l are the pieces of length 5 starting at 0, 10, 20, ... below l (the last may go 5 beyond). Not as one could expect: lines that are not dashed are never drawn, magenta is a light green, green is black.", "quantifier": "all sequences of pictures and drawing calls, all colours, all segment lengths", "why_tests_cant": "the stacking depends on the whole history of pictures", "anchors": ["bark/runtime/viewer/pygame_viewer.py:drawWorld", "bark/runtime/viewer/pygame_viewer.py:clear", "bark/runtime/viewer/pygame_viewer.py:getColor", "bark/runtime/viewer/pygame_viewer.py:drawDashedLines"]}
{"id": "C111", "title": "Geometry objects survive pickling", "statement": "Pickling and unpickling a Point2d gives the same point. A Line2d keeps its points and gets the arc lengths of its points and the center (0,0,0): it is unchanged exactly if its arc lengths were right and its center the origin. A Polygon2d keeps its center and, as a curve, its outer ring (closed and made clockwise as the constructor does), loses its holes and gets newly computed extents; polygons as constructed come back identical, moved ones keep points and center, shifted ones are identical, and a second trip never changes anything. Not as one could expect: Transform of an unpickled line turns about the origin, a line reversed in place gives other points at the same arc length afterwards, turned polygons change their extents, the default polygon gets huge ones, and the center of a line made from an array is not initialised.", "quantifier": "all points, lines (any history), rings, centers, poses (real numbers)", "why_tests_cant": "it must hold for every shape and every history of operations before pickling", "anchors": ["bark/python_wrapper/geometry/geometry.cpp:python_geometry", "bark/geometry/polygon.hpp:UpdateDistancesToCenter", "bark/geometry/line.hpp:RecomputeS", "bark/geometry/commons.hpp:Shape"]}
{"id": "C112", "title": "What the distance-to-goal evaluator measures", "statement": "EvaluatorDistanceToGoal reports the distance from the agent's position to the shape of its goal. For a sequential goal this is, after any history of goal checks, the shape of the sub-goal passed last (of the first one before any is passed); it is zero at the moment a sub-goal is passed when being there means being inside its shape. Nested sequential goals always have a shape, one of their sub-goals'. Not as one could expect: it is not the distance to what is left to reach, so it grows while the agent drives to the next sub-goal, and with the whole goal reached it need not be zero.", "quantifier": "all sequences and nestings of goals with shapes, all histories of goal checks, all positions and distance functions", "why_tests_cant": "the shape depends on the whole history of goal checks", "anchors": ["bark/world/evaluation/evaluator_distance_to_goal.hpp:EvaluatorDistanceToGoal", "bark/world/goal_definition/goal_definition_sequential.cpp:GetCurrentGoal", "bark/world/goal_definition/goal_definition_sequential.hpp:GetShape"]}
{"id": "C113", "title": "The RSS world of an observed world", "statement": "When RSS evaluates an agent, the RSS library is called once for every other agent whose distance is below the scaled sum of both stopping distances, in id order, with that agent's current state, dimensions and yaw rate and the dynamics of others, and with the ego's own data, dynamics and route; agents farther away have no influence. The ego's route is the planned route of the first most probable matched position from which the goal can be reached; only if every such position has probability zero (or there is none) a guessed route is used, which the caller cannot tell. The RSS time is the whole second of the ego's time plus one.", "quantifier": "all sets of agents with distinct ids, all states, shapes, goals and map matching results, all behaviours of the route planner, map and RSS libraries", "why_tests_cant": "the space of agent constellations, match positions and probabilities is unbounded; tests run a handful of maps", "anchors": ["bark/world/evaluation/rss/rss_interface.cpp:RssInterface::GenerateRSSWorld", "bark/world/evaluation/rss/rss_interface.cpp:RssInterface::GenerateRoute", "bark/world/evaluation/rss/rss_interface.cpp:RssInterface::CreateWorldModel"]}
{"id": "C114", "title": "Drivable area of a road corridor", "statement": "The polygon of a road corridor, against which drivable-area checks are made, contains every point of every lane of its lane corridors, provided each lane can be grown, the merge of the grown lanes never falls apart in the order the lanes come, and the result can be shrunk back; it never has holes. With full junction areas it also contains every driving lane, of either direction, of each junction its lanes pass; without, the rest of the map does not matter. A lane that cannot be grown is skipped, a merge that falls apart keeps its first part only (so lanes connected only by a later lane are lost), and an area that cannot be grown is lost when a junction is added.", "quantifier": "all lane corridors, lane polygons, junctions and road graphs, all geometry operations obeying the stated laws", "why_tests_cant": "arbitrarily many lanes in any order and shape; tests build a handful of maps", "anchors": ["bark/world/map/road_corridor.hpp:RoadCorridor::ComputeRoadPolygon", "bark/world/map/road_corridor.hpp:RoadCorridor::AddPolygonToRoadCorridor", "bark/world/map/roadgraph.cpp:Roadgraph::ComputeJunctionArea", "bark/geometry/polygon.hpp:BufferPolygon", "bark/geometry/polygon.hpp:ConcatenatePolygons"]}
{"id": "C115", "title": "What an OpenDRIVE map holds, and its bounding box", "statement": "After any sequence of creating sections and roads, adding lanes to sections, sections to roads and roads to the map: GetRoad gives the road added last under the id; GetLane gives the lane of the first added road that had this lane id at the moment it was added, whatever is done to the road or section later. For roads with distinct ids completed before they are added, exactly these roads are found, exactly their lanes if lane ids are not shared, and the order of adding does not matter to roads and bounding box. The bounding box is the least box around all lanes of the roads as they are now (all numbers for an empty map); MergeBoundingBoxes gives the least box around both.", "quantifier": "all sequences of operations on sections, roads and a map, all lanes and lines", "why_tests_cant": "histories of any length with shared sections; tests build one or two roads", "anchors": ["bark/world/opendrive/opendrive.hpp:OpenDriveMap::AddRoad", "bark/world/opendrive/opendrive.hpp:OpenDriveMap::BoundingBox", "bark/world/opendrive/road.hpp:XodrRoad::GetLanes", "bark/world/opendrive/lane_section.cpp:XodrLaneSection::AddLane", "bark/geometry/line.hpp:MergeBoundingBoxes"]}
{"id": "C116", "title": "Curvature, signed distance and smoothing of lines", "statement": "GetCurvature gives a number for every point of a line with three or more points (and for no other line): the signed curvature for derivatives estimated by central differences, 0 where the curve stands still. It does not change when the line is moved or turned, is divided by m when it is enlarged by m, negated when it is mirrored, reversed and negated when the points are travelled backwards; it is 0 on straight lines however spaced; on equally spaced points of a circle it is exactly 1/radius, positive counterclockwise, at the inner points, but exactly half of that at the first two and last two points, and 0 for every line with three points. SignedDistance is the distance to the line, positive if its nearest point is to the right of the orientation, negative if to the left or exactly behind, but 0 if it is exactly ahead, however far. SmoothLine starts and ends where the line does, has the points of the interpolating splines at the multiples of the spacing, passes through each vertex at such a multiple, and returns shorter lines unchanged; it is not defined for spacing 0, a negative spacing not larger than the line and lines with a repeated point.", "quantifier": "all lines, points, orientations, spacings (real numbers); every interpolating spline", "why_tests_cant": "it must hold for every line", "anchors": ["bark/geometry/line.hpp:GetCurvature", "bark/geometry/line.hpp:Gradient", "bark/geometry/line.hpp:SignedDistance", "bark/geometry/line.hpp:SmoothLine"]}
{"id": "C117", "title": "Debug drawings of a picture", "statement": "A history is drawn with every past state of a polygon, the k-th newest with opacity 1 - 4k/17 and from the fifth newest on invisible, whatever opacity is asked for. Of a goal exactly the shape of the first goal is drawn (through nested sequences). Evaluation results get one text each, at distinct places. An agent's polygon is always drawn, its id (in the middle of the vehicle, across it) and arrow as the viewer is set up; the argument draw_agent_id has no effect and drawAgents never draws anything. The RSS texts list each agent's longitudinal and lateral answer and the verdict 'each agent is safe in one of them', the RSS shapes are coloured by the answers; both raise without an RSS evaluator. Braking distances are drawn for each agent with the parameters of the ego or of the others; but for an agent whose polygon cannot be computed the polygon of an earlier agent is drawn, and it raises if that is the first. The RSS state shows the safety polygons in the colours of their agents and a label for each kind of violation beside each other.", "quantifier": "all histories, goals, worlds, evaluator answers, failures of polygon computations", "why_tests_cant": "it must hold for every world and every combination of failures", "anchors": ["bark/runtime/viewer/viewer.py:drawHistory", "bark/runtime/viewer/viewer.py:drawGoalDefinition", "bark/runtime/viewer/viewer.py:drawAgent", "bark/runtime/viewer/viewer.py:drawRssDebugInfomation", "bark/runtime/viewer/viewer.py:DrawRSSBrakingDistances", "bark/runtime/viewer/viewer.py:DrawRSSEvaluatorState"]}
{"id": "C118", "title": "Polygons from lines, rounding of polygons", "statement": "Building a polygon from a center and a line is building it from the line's points. Building it from two borders succeeds exactly when the first border has a point; the ring then runs along the first border and back along the second (or the other way round), is closed, never counter-clockwise, visits exactly the points of both borders, and its area is the enclosed area: for borders over the same positions the integral of the width, for a border and its moved copy a function of the ends only; exchanging the borders changes neither area nor points. Borders given in opposite directions can give area zero. Rounding a polygon moves every coordinate to the nearest multiple of 10^-precision (halves away from zero), at most half a unit away, is idempotent, monotone and symmetric and keeps closed rings closed; center, holes and stored extents are not updated, and a clockwise ring can become counter-clockwise.", "quantifier": "all centers, lines, points, precisions", "why_tests_cant": "The number of points of the borders, their coordinates and the precision are unbounded.", "anchors": ["bark/geometry/polygon.hpp: Polygon_t(center, line), Polygon_t(line1, line2), SetPrecision, CalculateArea"]}
{"id": "C119", "title": "Car following with a fixed lane", "statement": "A car-following model told to keep a fixed lane corridor (as the safety and RSS behaviors do) looks for its leader and for the end of the lane in the fixed corridor if a corner of the vehicle is inside it or the heading deviates from its direction by at least 0.2 rad, otherwise in the nearest corridor; it needs the vehicle's Frenet state on the fixed corridor in any case. Lane tracking steers along the fixed corridor, the classic model stays on the nearest one. Commands stay within the limits either way. Once a corner is inside the fixed corridor the traffic of the vehicle's own lane has no influence, before that the traffic of the fixed corridor has none. Without any lane corridor the model expires and repeats its last trajectory. Acceleration warnings are issued exactly for values beyond a limit by 0.1 or more.", "quantifier": "all model parameters, vehicle states and shapes, corridors, leaders", "why_tests_cant": "Vehicle poses, corridor geometries and traffic are unbounded; the property compares plans under any two traffic situations.", "anchors": ["bark/world/map/commons.hpp: ChooseLaneCorridorBasedOnVehicleState", "bark/models/behavior/idm/base_idm.cpp: Plan, CalcRelativeValues", "bark/models/behavior/idm/idm_lane_tracking.cpp: GenerateTrajectory, CheckAccelerationLimits", "bark/models/behavior/idm/idm_classic.cpp: GenerateTrajectory"]}
{"id": "C120", "title": "The region of a lane goal", "statement": "A lane goal built from a center line and a pair of lateral allowances has the region between the center line shifted by the first allowance to the right and by the second to the left (each border point at exactly that distance from its center-line point), from the first to the last point of the center line, with the goal's center at the end of the line; for a straight center line the region is exactly that rectangle, its area is length times total width, and an agent is at the goal exactly when its speed is in the range, it is strictly inside the rectangle, and a turn of at most the right or left orientation allowance aligns it with the lane.", "quantifier": "all center lines of two points or more with any allowances; straight lines of any position, direction, number and spacing of points; all agent poses, speeds and tolerances", "why_tests_cant": "a test tries a few poses on one lane; the region must be right for every line, every allowance and every pose", "anchors": ["bark/world/goal_definition/goal_definition_state_limits_frenet.cpp:GoalDefinitionStateLimitsFrenet::GoalDefinitionStateLimitsFrenet", "bark/world/goal_definition/goal_definition_state_limits_frenet.cpp:GoalDefinitionStateLimitsFrenet::AtGoal"]}
{"id": "C121", "title": "Reading the map's graph", "statement": "The map's graph queries answer about the graph that was built: the vertices are the lanes of the map, one each; the next vertices of a vertex are exactly the ends of its edges; listing edges gives one entry per edge with the right ends, and every edge exactly when no two edges join the same lanes in the same direction (of parallel edges, which generated graphs have, the first is listed each time and the others never); neighbour queries return the lane next to the given one on the inner or outer side, or null; boundary queries return for every lane of a route its inner lane and itself; all-path boundaries leave out lanes linked to each other; the next road of a route is the one after the first visit, or none when the route ends with the given road.", "quantifier": "all maps with unique lane ids, all lane ids, vertices, edges, routes, lane subsets", "why_tests_cant": "a test looks at one map file; the listing is only wrong for some shapes of map, and the queries range over all lanes and routes", "anchors": ["bark/world/map/roadgraph.cpp:Roadgraph::GetVertices", "bark/world/map/roadgraph.cpp:Roadgraph::GetNextVertices", "bark/world/map/roadgraph.cpp:Roadgraph::GetOutEdges", "bark/world/map/roadgraph.cpp:Roadgraph::GetEdges", "bark/world/map/roadgraph.cpp:Roadgraph::GetEdgeDescr", "bark/world/map/roadgraph.cpp:Roadgraph::ComputeRouteBoundaries", "bark/world/map/map_interface.cpp:MapInterface::ComputeAllPathBoundaries", "bark/world/map/map_interface.cpp:MapInterface::GetInnerNeighbor", "bark/world/map/map_interface.cpp:MapInterface::GetNextRoad"]}
{"id": "C122", "title": "Fresnel integrals and spirals are accurate", "statement": "The table-based Fresnel integrals used for spiral roads differ from the true integrals of cos(pi/2 t^2) and sin(pi/2 t^2) by at most 1e-8 for arguments up to 36974 in absolute value and by at most 1e-5 for all arguments; they are odd functions, never divide by zero and never read outside their tables. The standard spiral (curvature 0 at the start, constant change of curvature) is the unit-speed curve from the origin with the heading it returns, up to 1.5e-8 times its size sqrt(pi/|cDot|); a change of curvature of 0 is a division by zero. Sampled positions of a spiral road with a start curvature are at most 3e-8 times sqrt(pi/|cDot|) away from the curve with the heading returned. Beyond 36974 the result is exactly 1/2 with the sign of the argument, which is off by more than 8e-6 for some arguments.", "quantifier": "all real arguments, all changes of curvature, start curvatures, headings, start positions and arc lengths", "why_tests_cant": "Accuracy over an interval of reals and for all spiral parameters cannot be sampled exhaustively; the three formulas meet at irrational points and the reference values need the true integrals.", "anchors": ["bark/world/opendrive/odrSpiral.cpp:fresnel", "bark/world/opendrive/odrSpiral.cpp:polevl", "bark/world/opendrive/odrSpiral.cpp:p1evl", "bark/world/opendrive/odrSpiral.cpp:odrSpiral"]}
{"id": "C123", "title": "The predefined vehicle shapes are the advertised ones", "statement": "Every predefined car contour (CarLimousine, CarRectangle, GenerateCarLimousine, GenerateCarRectangle) and the goal rectangle is a closed, clockwise, convex polygon whose corners do not repeat, for all positive dimensions. GenerateCarLimousine(wheelbase, radius) is mirror symmetric, exactly wheelbase + 2 radius long and 2 radius wide, with the pose at the same fraction of the length (1/1.2906 ahead of it); it has the same length and width as GenerateCarRectangle for the same arguments but lies inside it only if 0.2906 wheelbase = 0.7094 radius, otherwise it sticks out at the rear (longer wheelbase) or front. CarLimousine is GenerateCarLimousine(3.05681, 0.956) to within half a millimetre. GenerateGoalRectangle(length, width) has its pose at the centre of the [0, width] x [0, length] rectangle (length along y); CarRectangle's pose is not its centre.", "quantifier": "every wheelbase and radius with positive radius and positive total length; every goal length and width", "why_tests_cant": "The polygon class relies on closed clockwise rings for every dimension; tests only build a few", "anchors": ["bark/geometry/standard_shapes.cpp: CarLimousine, CarRectangle, GenerateCarLimousine, GenerateCarRectangle, GenerateGoalRectangle", "bark/geometry/polygon.hpp: UpdateDistancesToCenter"]}
{"id": "C124", "title": "Equality of macro action behaviors", "statement": "Two macro action behaviors compare equal (==, IsEqualTo) exactly when both check validity or both do not, they have the same number of primitives and the primitives are pairwise of the same class, with the same target acceleration and equal lane tracking and IDM parameters; a behavior of another kind is never equal. Equality is an equivalence relation if equality of parameter sets is, and planning or choosing actions never changes it. Equal behaviors need not act alike: the minimum length of the target lane of a lane change and the braking restriction at a lane end are not compared.", "quantifier": "every pair of macro action behaviors with any library primitives and parameters; every history of planning and choosing actions before the comparison, in any worlds", "why_tests_cant": "Tests compare a few freshly built behaviors; the claims are about all pairs, about chains of three, and about any planning history before the comparison.", "anchors": ["bark/models/behavior/motion_primitives/macro_actions.cpp: operator==", "bark/models/behavior/motion_primitives/macro_actions.hpp: IsEqualTo", "bark/models/behavior/motion_primitives/primitives/primitive.hpp: operator==", "bark/models/behavior/motion_primitives/primitives/primitive_const_acc_stay_lane.hpp: isEqual", "bark/models/behavior/motion_primitives/primitives/primitive_gap_keeping.hpp: isEqual", "bark/models/behavior/idm/idm_lane_tracking.hpp: operator=="]}
