# Formal model of bark-simulator/bark in Rocq (Coq 8.16.1)

## Layout

`rocq/theories/` is flat. For an area X:

* `Model_X.v`  executable/total definitions, each with a comment citing `/repo` file and lines.
* `Spec_X.v`   (where useful) small independent specification vocabulary.
* `Proof_X.v`  lemmas.
* `Props_X.v`  the property theorems only: statement, `exact`, `Print Assumptions`, and an
  `Example` showing that a concrete non-trivial case satisfies the hypotheses.

Naming: `Cnn_...` theorem for property Cnn; `_partial` when only a part is proved;
`_refuted` when the code violates the expected statement (with witness).

## Modelling conventions

* C++ `double` is modelled by exact rationals `Q` where the code only adds, multiplies, compares
  (world time, interpolation, selection logic), and by `R` where sqrt/trigonometry appear.
  Rounding, overflow, NaN are not modelled unless a definition says so.
* `shared_ptr` sharing is modelled only where the property is about aliasing (C03, C58);
  elsewhere objects are values.
* Null dereference, out-of-range access, uninitialised reads and division by zero are explicit
  outcomes (`option`/`result`), never defaults.
* External code (boost R-tree and polygon algorithms, Dijkstra's predecessor map, LTL monitor,
  ceres, RSS library, concrete behaviours in the world step) is a universally quantified
  parameter; any contract used is a visible hypothesis of the theorem and is shown satisfiable.
* `std::map` is modelled as an association list sorted by key (iteration order = key order).

## Plan per property

| id | modelled | method |
|----|----------|--------|
| C01 | World time, agents with histories, Step = PlanAgents;Execute, statuses as oracle outputs | frame + induction on steps |
| C02 | PlanAgents as a fold over agents against a fixed clone; compare with any permutation | fold commutation |
| C03 | Heap of agent cells and model cells with addresses; Clone allocates fresh ones | separation (disjoint address) invariant over op sequences |
| C04 | RemoveInvalidAgents with R-tree snapshot | exact characterisation; refutation of the naive expectation |
| C05 | index = list of (box,id) snapshot, queries over it | exact characterisation; UB outcome reached by stale index |
| C06 | map operations; Object id counter | laws, invariant over op lists |
| C07 | history list | suffix invariant, max 0 error |
| C08 | IsValidAtTime | monotonicity along runs |
| C09/C10 | selection fold | argmin characterisation / refutation |
| C11 | interpolation over rows | correctness + refutation of general bracketing |
| C12 | static trajectory | index lemmas |
| C13/C14 | parameter tree | get/set laws, flatten/load round trip |
| C15-C17, C52, C53 | IDM (classic, lane tracking, constant acceleration) over reals extended with inf/NaN | clamps, monotonicity, induction on points; refutations |
| C18/C19 | safe-distance formulas over R + continuous-time kinematic spec | real analysis; refutation of swapped roles |
| C20-C22 | fmod-based angle functions over R | Int_part arithmetic; refutation |
| C23-C25 | polyline with stored s | induction, convexity; refutation |
| C26 | Frenet sign and difference | case analysis; refutation of antisymmetry |
| C27 | pose transform over R | isometry, composition |
| C28 | single-track, Euler, RK4, triple integrator over R | algebra / derivatives |
| C29 | sequential goal automaton | induction over call sequences |
| C30 | goal predicates | iff + refutation modulo 2pi |
| C31 | evaluators as state machines | induction |
| C32 | EvaluatorLTL bookkeeping, rule monitor as oracle | invariant; refutation for re-appearing agents |
| C33 | lane change decision, filters, Plan; front/rear query as in C09 | decision characterised by a separate notion of admissible/best corridor; refutations on a two-lane toy road |
| C34 | MOBIL decision on top of C33 and the extended-real IDM formulas | loop invariant: argmax over eligible corridors; refutations |
| C35/C36 | intersection detection, stochastic IDM intention | characterisation by earliest predicted conflict; trace induction |
| C59 | random distributions as state machines over an arbitrary generator | induction over call histories; refutation for odd multivariate |
| C60 | parametric observer: noise applied to the cloned world | induction over the agents; trigonometric identities for the deviation; refutations |
| C61 | roadgraph generation: vertices, neighbour, successor and road edges from an OpenDRIVE map | invariant on edge sets through all generation passes; totality; `linked` is stated on the map only |
| C62 | lane polygons from border lines (points abstract) | from the neighbour invariant |
| C63 | FindAllPathsInSubgraph | symmetric edges leave only isolated lanes; shortest-path contract |
| C64 | BehaviorRSSConformant::Plan, BehaviorSafety::Plan over a store of shared models (Model_RSS) | per-step case analysis; induction over runs for the safety corridor |
| C65 | RssInterface/EvaluatorRSS verdict extraction, library as oracle | fold lemmas; counterexamples for duplicated objects and failed checks |
| C66 | EvaluatorRSS kept response; ConvertRestrictions on Frenet states | induction over evaluations; case analysis on the lateral velocity |
| C67 | ComputeSafetyPolygon over R with atan2 | sign lemmas for atan2/SignedAngleDiff, trigonometric identities |
| C68 | CalculateMaxStoppingDistance, GetRelevantAgents | real arithmetic |
| C69/C70 | Model_Labels: the label functions of the LTL rules, over real geometry (Model_Line, Model_Frenet), corridor queries and polygon predicates as oracles | case analysis, interval arithmetic, C24 for straight lanes; two cars on a toy road for refutations |
| C71 | Model_StaticDist: static and drivable-area safety distance evaluators; rings from Model_Shape | reduction to the ego collision evaluator (C31), induction over evaluations, trigonometry for rectangles |
| C72 | Model_BenchRun: creation of configurations (benchmark_runner.py 228-270) | induction over the nested loops; explicit description of the result |
| C73 | Model_BenchRun: one configuration run, world/evaluators/criteria as oracles (323-427) | induction over the steps: first non-quiet step |
| C74 | Model_Benchmark: result archives and the run loop over a file system with recorded steps (benchmark_result.py, benchmark_runner.py 272-312) | invariant on checkpoint file, temporary file and in-memory result; two counterexample theorems |
| C75 | Model_Benchmark: merge_checkpoint_benchmark_results and resuming; every recorded state is a crash point | invariant [snap] of all crash states, soundness of merging for any listing order; counterexample theorems for the unrecoverable states |
| C76 | Model_BenchRun + Model_Benchmark | case analysis on the failing component; run_loop_app |
| C77 | Model_Benchmark: parallel split, actors one after the other on files of their own | permutation of the split; reduction to C74 |
| C78 | Model_Benchmark/Model_BenchRun: split, dump, load | split is a partition; dict folds over distinct keys |
| C79 | Model_BenchRun: evaluator selection by substring | case analysis on the matching names |
| C80 | Model_Runtime: scenarios, generators on the object heap of Model_Heap, deep copies with a memo table | invariant over call traces: stored objects unreachable from outside (frame lemmas in Proof_Frame) |
| C81 | Model_Analyzer: find_configs, get_scenario_ids, make_scenarios_congruent, visualize; pandas sorting is an oracle (any order of ties) | uniqueness of sorted permutations; induction over lists and frames |
| C82 | Model_Runtime: Runtime reset/step/run/ExtractTimeSeries | induction over events, old clones stay untouched by later steps |
| C83 | Model_ScenGen: create_scenarios over sources whose readers are state-passing functions with exceptions | induction over sources; offsets of numbering |
| C85 | Model_ScenGen: find_overlaps, parse_resolution, mark, delete; rtree and polygon collision as oracles | invariant over recorded pairs; deletion from the back keeps positions |
| C86 | Model_Readers: place, all lanes, lane selection | induction over draws with fuel; explicit bound for termination |
| C87 | Model_Readers: controlled agent readers, goals per lane | case analysis, induction over agents |
| C88 | Model_Dataset: window search with fuel, files, class variables | induction over fuel and files; total with explicit fuel bound |
| C89 | Model_Dataset: decomposer, scenario and agent track infos, full and replay generators | list induction; first-on-road split; rounding arithmetic |
| C90 | Model_Ease: LaneCorridorConfig, create_single_scenario, create_scenarios | induction over the placing loop with a fuel bound; id sequence by list induction |
| C91 | Model_UniformGen: place_agents_along_linestring, create_single_scenario, create_scenarios; the center lines of the map are state | reuse of C86; list induction; archimedean bound for termination |
| C92 | Model_PyParams: heap of servers, names, getters, assignment, AddChild | induction over the path, frame by entry-wise equality |
| C93 | Model_PyParams: ConvertToParam/Dict, clone, condensed list | mutual induction over "server holds dictionary" with footprints |
| C94 | Model_PyParams: AppendParamServer, FindKey, HasEqualParamsAs | mutual induction with footprint separation |
| C95 | Model_Xodr: XodrParser as a function from XML trees to Model_Roadgraph maps; exceptions are None | invariants of the loops over lanes, sections, roads; Spec_Xodr says what the file says |
| C96 | same, geometry operations abstract, then Model_PlanView | chain of borders; C56 for the real instance |
| C97 | same | two trees that agree on the used attributes are read alike, element by element |
| C98 | Model_MapQuery (lane tree of chords, nearest query as oracle with contract `nearest_ok`, covered_by as oracle), Spec_MapQuery (chord distance, rings, boxes). Segment distance proved minimal over the chord; rings from C62's graph polygons; corridor theorem on top of C41_corridor_to_goal. Toy_MapQuery has an executable k-nearest meeting the contract and the two counterexample maps. |
| C99 | Same model: `set_csv`; rows as lists of optional rationals; all queries evaluated on the loaded interface. |
| C100 | Same model: `set_map` after anything; survival of stored corridors and of the table flag. |
| C101 | Model of the generator loop with opaque constructors and an explicit random stream; relation `scenario_matches` per entry, C29 for the goals, induction over the entries. |
| C102 | Model_Dumper over a file system function; relation of expected files per config, `leaves` (these files, nothing else), induction over the configs; history window by induction over the steps. |
| C103 | Model_Viewer (camera part) over Q; centre/width/height/contains read off the view; case analysis. |
| C104 | Model_Viewer (pictures) as lists of marks; colours by rank of first request; the colour map only grows (induction over agents, pictures). |
| C105 | Model_Video: directory of numbered frames, worlds carried by an oracle GetWorldAtTime; induction over the worlds drawn. |
| C106 | Model_Threaded: two-thread transition system, a schedule is a list of threads; inductive invariant over all schedules, progress by induction on the search position. |
| C107 | Model_Renderer: heap of renderers, worlds hold addresses, programs of clone/observe/draw/clear; `grown` frame relation; invariant over all programs. |
| C108 | Model_ModelReaders.v on the heap of Model_PyParams: a model class is the list of typed reads of its constructor; the readers as functions of heap, configuration, agents, random stream. Spec: `says` = value of a path or default; trees. | Frame argument: everything a reader does happens below one server (`below`: keeps entries, tree, what is reachable), so parameters on incomparable paths keep their meaning (`get_says`), by induction on the path; then induction over reads, agents and listed types. |
| C109 | Model_Pygame.v over Q: box of the lanes, camera view size, ratio, the two coordinate transforms, the blit's rounded part and truncated place. | Field identities plus bounds on floor and round-half-even; box by induction over points. |
| C110 | Model_Pygame.v: layers as an insertion-ordered dictionary of alpha surfaces, programs of pictures and clears; colour channels and dashes with floor/ceiling. | Induction over calls and pictures (layers keyed without repetition); arithmetic of floor/ceiling. |
| C111 | Model_GeomPickle.v on Model_Line/Model_Shape over R: line objects with center, polygons with holes, boost's correct (close, orient by area), extents; pickle/unpickle functions. Spec: shoelace area, closed, same_curve. | Area of a reversed ring is the negative; rigid motions change each area term by a telescoping difference, so corrected rings stay corrected; idempotence of correct. |
| C112 | Model_GoalShape.v: a tree of shapes parallel to the goal object of Model_Goal; GetCurrentGoal/GetShape/evaluator. Spec: `passed` counts the regions visited in order. | Induction on the history (progress = passed - 1); invariant `fits` between task tree and goal object for nested goals. |
| C113 | Model_RssWorld: GenerateMatchObject, GenerateRoute, ConvertAgentState, CreateWorldModel, GenerateRSSWorld with the RSS and map libraries as arguments. | The loop over matched positions is characterised in closed form (guessed routes of the positions before the first that reaches the goal, then planned routes); std::max_element gives the first greatest; the relevant agents are a filter of the agent map; noninterference follows. |
| C114 | Model_RoadPoly: ConcatenatePolygons, BufferPolygon, ComputeRoadPolygon, AddPolygonToRoadCorridor, GetJunctionIds, ComputeJunctionArea, their use in GenerateRoadCorridor. | Nested folds flattened to one merge chain; region laws of the geometry operations as hypotheses; satisfied by an interval geometry, in which the counterexample is computed. |
| C115 | Model_XodrMap: sections and roads as heap references, AddLane, AddLaneSection, AddRoad, GetRoad, GetLane, BoundingBox, MergeBoundingBoxes. | Induction over the operation history (both directions of the characterisation); envelope lemmas of C50 for the box. |
| C116 | Gradient, GetCurvature, SignedDistance, SmoothLine over R (`Model_Curvature`); spec `Spec_Curvature`: curvature from slopes by index, similarity maps, circle points | lists by index; linearity of the slopes; trigonometric identities on the circle; nearest point of C24 and the sign of the sine of the signed angle difference; tk::spline is any interpolating function |
| C117 | drawHistory, drawGoalDefinition, drawEvalResults, drawAgent, drawTrueWorld, drawAgents, the RSS drawings as lists of commands with a flag for a raised exception (`Model_DebugDraw`) | induction on histories, goals (nested), agents and polygons; membership and position of each command |
| C118 | Polygon constructors from a line and from two lines, SetPrecision (Model_PolyLines on top of Model_GeomPickle) | ring = there and back, by list induction; area by splitting the shoelace sum into quadrilaterals between pairs of points; rounding via Int_part; counterexamples for opposite directions and for the orientation after rounding |
| C119 | IDM planning with SetConstantLaneCorridor, choice of corridor, warnings (Model_FixedLane on Model_IDM, Model_Frenet) | plans are reduced to the plans of C15-C17 on the chosen corridor; non-interference theorems for the traffic of the corridor not chosen; case analysis for the warnings |
| C120 | the constructor of the lane goal over Model_Line's lateral shift and Model_PolyLines' polygon (Model_LaneGoal) | the borders of a straight line computed exactly in its frame, ring orientation from the shoelace sum, inside-ness step by step; AtGoal through C30. |
| C121 | graph queries by vertex and edge descriptors, boundaries, neighbours, next road (Model_MapGraph on Model_Roadgraph, Model_RoadSearch) | edge descriptors are positions in insertion order, the re-lookup is characterised as the first edge between two vertices; lane answers from the invariants of generated graphs (C37, C61-C63); concrete generated map with parallel edges |
| C122 | `fresnel`, `polevl`, `p1evl` with their tables, `odrSpiral` from curvature 0, the direction returned with a start curvature (Model_Fresnel); the position with a start curvature (Model_PlanView) | The true integrals are characterised by their derivatives and the value 0 at 0. Small arguments: alternating Taylor bounds by induction, then a coefficient-wise bound on P - Q T computed with fixed-point balls (Proof_Fix: integer centers and radii in units of 2^-80, cheap enough for coqchk, which has no bytecode machine). Large ones: the derivative of the asymptotic formula is cos(pi/2 x^2) plus a bounded rational error, integrated by the mean value theorem from the point where the formulas meet; there, the same balls (pi by Machin's formula). Corollaries for the unit-speed curves of C54 |
| C123 | Model_StdShapes: the literal contours of standard_shapes.cpp as make_polygon (Model_Shape); Spec_StdShapes: convex_contour (closed, no repeated corner, all corners right of every edge), mirror_symmetric, range | the unit contour is checked edge by edge with lra; scaling by (sl, sw) multiplies each cross product by sl*sw; extents from envelope_bounds |
| C124 | Model_MacroEq: BehaviorMPMacroActions::operator==, IsEqualTo, Primitive::operator== and !=, isEqual, BehaviorIDMLaneTracking::operator== on the macro behaviors and primitives of Model_Primitives; the result of Params::operator== is a parameter; same_prim and wf (with the theorems) say when two primitives are the same to a user | by induction over the primitives; histories by induction over steps, using that Plan keeps the kind of every primitive; that equal behaviors may act differently: two equal behaviors with different minimum lengths |
| C84 | Model_Pickle: pickle/unpickle of agents, behaviors, goals, corridor rebuild | case analysis; induction over nested goals, over later steps |
| C37-C39 | roadgraph | graph induction |
| C40/C41 | Model_Corridor: road list, GenerateRoad/LinkRoads, CalculateLaneCorridors (fuel, `outcome`), queries, corridor cache keyed by a quantified hash, Agent::GenerateRoadCorridor; line operations are an oracle record | induction over the road list and over the fuel; non-termination shown for every fuel; C40 by case analysis |
| C42/C43 | Model_Primitives: continuous actions, the four macro primitives on top of Model_IDM's lane tracking, BehaviorMPMacroActions with its memory, random macro actions | inversion of Plan, induction over histories and over the rows of the time grid; refutations by concrete primitives on a straight road |
| C44, C45, C57 | prediction settings, parametric observer (distributions as generators), Predict / ObserveForOtherAgent / GetWorldAtTime | pointwise characterisation of the agent table; induction over prediction sequences; refutation |
| C58 | World::Observe on the pointer heap | heap growth invariant, aliasing shown by computation of the pointer |
| C46, C54-C56 | plan view, clothoid formula, lane borders over R; Fresnel functions and polyline simplification as oracles | unit-speed curves characterised by derivatives; mean value theorem; induction over the sampling loop and over geometry lists; refutations |
| C48/C49 | sub-lines, shifted lines, center lines over R | induction over the vertex chain |
| C50 | envelope extents, Inflate, Scale over R | body-frame algebra; refutation for left/right and rotated shapes |
| C51 | LatAccStreetToVehicleCs over R | derivatives (stdlib Ranalysis) |
| C47 | lateral safe-distance formula over R + continuous-time lateral motion | real analysis; refutation for same direction |

## Trusted base

* Coq 8.16.1 kernel (`coqchk` is run at the end).
* For theorems over `R`: the axioms of `Coq.Reals` as printed by `Print Assumptions`
  (`sig_forall_dec`, `sig_not_dec`, `functional_extensionality_dep`, and `classic` where Coquelicot-free
  analysis lemmas use it; two nonvacuity Examples, C70_nonvacuous and C71_rectangles_nonvacuous, also use
  `constructive_definite_description` through ClassicalDescription). Theorems over `Q`, `Z`, `nat`, lists: closed under the global context.
* The reading of the C++ source that the comments cite.

## What is modelled and what is not

Paths are relative to `/repo/bark`. "Oracle" means: universally quantified, contract visible as a hypothesis.

| area of the code | modelled in | not modelled / simplified |
|---|---|---|
| world/world.{hpp,cpp}, world/observed_world.*, world/objects/* | Model_World, Model_Heap (pointers), Model_Map (agent removal, nearest agents), Model_FrontRear, Model_Prediction | R-tree and polygon intersection are oracles; renderer, world id counters |
| models/behavior/behavior_model.*, execution/execution_model.hpp, observer/* | Model_World, Model_ObserverParam, Model_Heap | behaviors in the world step are oracles there; their own models are the rows below |
| behavior/idm/* | Model_IDM, Model_Stochastic, Base_Ext (NaN/inf) | rounding |
| behavior/rule_based/* | Model_Intersection, Model_LaneChange, Model_Mobil | rounding; lane geometry is an oracle |
| behavior/motion_primitives/*, constant_acceleration | Model_Primitives, Model_IDM | |
| behavior/dynamic_model, models/dynamic/* | Model_Dynamic | rounding |
| behavior/static_trajectory, execution/interpolation | Model_Traj | |
| behavior/behavior_rss, behavior_safety, world/evaluation/rss/* | Model_RSS | the ad-rss library is an oracle; the two polygon helpers only where a property mentions them |
| execution/mpc/* | not modelled | numeric optimisation by ceres; its BUILD target is commented out, so it is never compiled |
| behavior/not_started | not modelled | a single assignment |
| commons/transformation/* | Model_Frenet | boost distance is an oracle with a nearest-point contract |
| commons/params/*, commons/distribution/* | Model_Params, Model_Distribution | std random engines are oracles |
| geometry/angle, line, polygon, commons, standard_shapes | Model_Angle, Model_Line, Model_Shape | boost::geometry algorithms (simplify, covered_by, distance between polygons) are oracles; model_3d |
| world/map/roadgraph* | Model_Roadgraph, Model_RoadSearch | boost Dijkstra is an oracle with its contract |
| world/map/map_interface.*, road_corridor.*, lane_corridor.* | Model_Corridor, Model_MapQuery | boost's R-tree query and covered_by are oracles with contracts; CSV cells are optional rationals; XodrLane speeds; hash collisions are a hypothesis |
| world/opendrive/* | Model_PlanView, Model_Roadgraph, Model_Fresnel, Example_Fresnel | road marks, renderer |
| world/evaluation/* | Model_Eval, Model_SafeDist, Model_StaticDist, Model_Labels, Model_Ltl | LTL automaton (oracle); evaluator_distance_to_goal |
| world/goal_definition/* | Model_Goal, Model_Heap | |
| world/prediction | Model_Prediction | |
| benchmark/benchmark_result.py, benchmark_runner.py, benchmark_runner_mp.py | Model_Benchmark, Model_BenchRun | drawing, logging, wall clock, ray itself (actors run one after the other), pickle sizes (oracle) |
| runtime/commons/parameters.py | Model_PyParams | descriptions, logging, file reading, pickling, lists mixing servers and values |
| python_wrapper/{world/agent,polymorphic_conversion,models/behavior,world/goal_definition}.cpp pickling | Model_Pickle | PyBehaviorModel, closed source planners, RSS build; parameter values see C14 |
| runtime/runtime.py, runtime/scenario/scenario.py, scenario_generation/scenario_generation.py | Model_Runtime | rendering, map file reading (oracle), pickling of agents is an oracle here (Model_Pickle models it) |
| benchmark/benchmark_analyzer.py | Model_Analyzer | drawing itself, info strings |
| scenario_generation/configurable_scenario_generation.py, config_readers/{config_readers_interfaces,agent_state_geometry,controlled_agents,goal_definition} | Model_ScenGen, Model_Readers | behavior/execution/dynamic/observer readers are oracles; parameter reading; building of lane polygons |
| interaction_dataset_processing/*, interaction_dataset_scenario_generation*.py, moving window reader | Model_Dataset | csv reading, shapes, goals from tracks, model conversion |
| runtime/scenario/scenario_generation/config_with_ease.py | Model_Ease | map queries, goals and models opaque; random generator an arbitrary stream |
| runtime/scenario/scenario_generation/uniform_vehicle_distribution.py | Model_UniformGen | map queries, lines, shapes, models opaque; random generator an arbitrary stream |
| xodr_parser.py | Model_Xodr: whole constructor; names, speeds, road mark values, python_map are not kept | C95-C97 |
| runtime/scenario/scenario_generation/deterministic.py, runtime/commons/model_json_conversion.py | Model_Determ | parameter tree given as records, constructors opaque, no rounding |
| benchmark/scenario_dumper.py | Model_Dumper | video export, text of csv/xml files, building the world (oracle) |
| runtime/viewer/viewer.py (BaseViewer), palette of matplotlib_viewer.py | Model_Viewer | shapes, lanes, texts, RSS/LTL drawings (only their need of an evaluated agent) |
| runtime/viewer/video_renderer.py, threaded_viewer.py | Model_Video, Model_Threaded | ffmpeg, the pictures themselves, rounding of the clock |
| world/renderer/*, runtime/viewer/buffered_viewer.py, buffered_mp_viewer.py | Model_Renderer | geometry; matplotlib; axes limits dx, dy |
| runtime/scenario/scenario_generation/config_readers/{behavior,execution,dynamic}_model_config_readers.py | Model_ModelReaders.v | constructors as lists of typed reads; type errors of pybind casts not modelled |
| runtime/viewer/pygame_viewer.py | Model_Pygame | pixels, anti-aliasing, events, text; coordinates exact instead of double |
| python_wrapper/geometry/geometry.cpp (pickling) | Model_GeomPickle | pybind casts, tuple size checks, rounding in boost's point comparison |
| models/execution/mpc/ | not modelled | its build target is commented out (models/execution/mpc/BUILD) and its constructor does not match its declaration |
| world/evaluation/evaluator_distance_to_goal.hpp, goal shapes | Model_GoalShape | polygon-point distance (parameter) |
| world/evaluation/rss/rss_interface.cpp: GenerateMatchObject, GenerateRoute, ConvertAgentState, CreateWorldModel, GenerateRSSWorld | Model_RssWorld.v | libraries as arguments; time index = whole part (uint64 conversion, for non-negative times) |
| world/map/road_corridor.hpp polygons, roadgraph.cpp ComputeJunctionArea, polygon.hpp BufferPolygon, ConcatenatePolygons | Model_RoadPoly.v | boost::geometry algorithms as arguments |
| world/opendrive/opendrive.hpp, road.hpp, lane_section.{hpp,cpp} as containers; line.hpp MergeBoundingBoxes | Model_XodrMap.v | lanes are values; junction map only stored |
| geometry/line.hpp:258-289, 492-503, 599-627 | Model_Curvature | tk::spline an interpolating oracle; its assertions are None |
| runtime/viewer/viewer.py:240-280, 313-320, 477-500, 531-657 | Model_DebugDraw | commands in order; texts of LTL labels not modelled (type Label is in an external module) |
| geometry/polygon.hpp 61-70, 110-142 (line constructors, SetPrecision) | Model_PolyLines |
| world/map/commons.hpp, fixed corridor part of models/behavior/idm | Model_FixedLane |
| world/goal_definition/goal_definition_state_limits_frenet.cpp:27-48 | Model_LaneGoal | `boost::geometry::within` is an oracle, assumed right for convex polygons |
| world/map/roadgraph.cpp:238-241, 331-378, 653-664; map_interface.cpp:270-306, 618-624 | Model_MapGraph | descriptors that are of no vertex or edge are undefined |
| geometry/standard_shapes.cpp (all) | Model_Shape, Model_StdShapes |
| behavior/motion_primitives: operator==, operator!=, isEqual, IsEqualTo; idm_lane_tracking.hpp:56-61 | Model_MacroEq | parameter equality abstract, no Python primitives |
| rest of runtime/, python_wrapper/, viewers | not modelled | |
