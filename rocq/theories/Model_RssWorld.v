(** Model of the part of bark/world/evaluation/rss/rss_interface.cpp that turns an observed world into the world model of the
    RSS library: map matching input, route selection, agent state, scenes. The RSS and map libraries (ad-rss-lib, ad_map_access)
    are external: they enter as arguments. Reals are exact. [None]: undefined behaviour or a null dereference. *)
From Coq Require Import Reals List Bool Arith NArith ZArith.
From Verif Require Import Base_Real Base_Geom Model_Map Model_Angle Model_Line Model_RSS.
Import ListNotations.
Local Open Scope R_scope.

(** std::max_element on a non-empty list, with the element of the parallel list (rss_interface.cpp:203-206): the first of the
    greatest; [best]: the current one. *)
Fixpoint max_element {A : Type} (best : A * R) (l : list (A * R)) : A * R :=
  match l with
  | [] => best
  | x :: r => max_element (if Rltb (snd best) (snd x) then x else best) r
  end.

Section RssWorld.
  (** ParaPoint, RoutingParaPoint, GeoPoint, FullRoute, MapMatchedObjectBoundingBox, WorldModel, ENUReferencePoint. *)
  Variables Para Start Geo Route MBox WM Ref : Type.

  (** ENUObjectPosition, as filled by GenerateMatchObject. *)
  Record enu_position : Type := mkEnu { en_center : R * R * R; en_heading : R; en_length : R; en_width : R; en_height : R; en_ref : Ref }.
  (** match::Object *)
  Record match_object : Type := mkMatch { mo_pos : enu_position; mo_box : MBox }.
  (** The state entries used: time, x, y, theta, velocity. *)
  Record astate : Type := mkA { a_time : R; a_x : R; a_y : R; a_theta : R; a_vel : R }.
  (** The polygon distances used: front, rear, left, right. *)
  Record ashape : Type := mkSh { sh_front : R; sh_rear : R; sh_left : R; sh_right : R }.
  (** An agent: state, shape, (time, theta) of its state-input history, the center of its goal definition's shape ([None]: no goal). *)
  Record ragent : Type := mkAg { ag_state : astate; ag_shape : ashape; ag_hist : list (R * R); ag_goal : option pt }.
  (** MapMatchedPosition of the center reference point: probability and para point. *)
  Record mposition : Type := mkPos { mp_prob : R; mp_para : Para }.

  (** createENUHeading *)
  Variable mk_heading : R -> R.
  (** access::getENUReferencePoint() *)
  Variable ref : Ref.
  (** AdMapMatching::getMapMatchedBoundingBox; referencePointPositions[Center] of the result. *)
  Variable matching : enu_position -> MBox.
  Variable centers : MBox -> list mposition.
  (** lane::isHeadingInLaneDirection, projectPositionToLaneInHeadingDirection (the output; [None]: false, output left). *)
  Variable in_direction : Para -> R -> bool.
  Variable project : Para -> R -> option Para.
  (** planning::createRoutingPoint, CoordinateTransform::ENU2Geo, planRoute, predictRoutesOnDistance, roadSegments.size() > 0 *)
  Variable routing_point : Para -> R -> Start.
  Variable to_geo : pt -> Geo.
  Variable plan : Start -> Geo -> Route.
  Variable predict : Start -> R -> list Route.
  Variable has_segments : Route -> bool.
  (** FullRoute() *)
  Variable no_route : Route.

  (** rss_interface.cpp:45-80, GenerateMatchObject. *)
  Definition generate_match_object (s : astate) (sh : ashape) : match_object :=
    let p := mkEnu (a_x s, a_y s, 0) (mk_heading (a_theta s)) (sh_front sh + sh_rear sh) (sh_left sh + sh_right sh) 2 ref in
    mkMatch p (matching p).

  (** rss_interface.cpp:150-162, the point the search starts from. *)
  Definition route_start (heading : R) (p : mposition) : Start :=
    let q := if in_direction (mp_para p) heading then mp_para p
             else match project (mp_para p) heading with Some q => q | None => mp_para p end in
    routing_point q heading.
  (** rss_interface.cpp:142-194, the loop: the flag, and the routes with their probabilities. *)
  Definition route_step (goal : pt) (heading range : R) (acc : bool * list (Route * R)) (p : mposition) : bool * list (Route * R) :=
    let '(found, routes) := acc in
    let start := route_start heading p in
    let r := plan start (to_geo goal) in
    let '(found, routes) := if has_segments r then (true, routes ++ [(r, mp_prob p)]) else (found, routes) in
    if found then (found, routes) else (found, routes ++ map (fun g => (g, 0)) (predict start range)).
  (** rss_interface.cpp:132-211, GenerateRoute: the flag and the output argument, given its previous value. *)
  Definition generate_route (goal : pt) (m : match_object) (range : R) (old : Route) : bool * Route :=
    let '(found, routes) := fold_left (route_step goal (en_heading (mo_pos m)) range) (centers (mo_box m)) (false, []) in
    (found, match routes with [] => old | x :: r => fst (max_element x r) end).

  Variable moved : R -> R -> R -> option (R * R).
  Variable stopped : R -> R -> option R.
  Variable avel : list (R * R) -> option R.

  (** rss_interface.hpp:51-57, AgentState. *)
  Record rstate : Type := mkR { r_time : R; r_speed : R; r_stop : R; r_center : R * R * R; r_heading : R }.
  (** rss_interface.cpp:213-230, ConvertAgentState. *)
  Definition convert_state (s : astate) (d : rss_dyn) : rstate :=
    mkR (a_time s) (a_vel s) (max_stopping moved stopped (a_vel s) d) (a_x s, a_y s, 0) (mk_heading (a_theta s)).

  (** RssObjectData: id, ego vehicle?, match object, speed, yaw rate, yaw (of the ego: through ENUHeading), dynamics. *)
  Record object_data : Type := mkOD { od_id : N; od_ego : bool; od_match : match_object; od_speed : R; od_av : R; od_yaw : R; od_dyn : rss_dyn }.
  (** The arguments of one appendScenes call. *)
  Record scene_call : Type := mkCall { sc_ego : object_data; sc_route : Route; sc_other : object_data }.
  (** RssSceneCreation(time index, ego dynamics), the appendScenes calls, getWorldModel(); withinValidInputRange. The time index
      is an unsigned 64 bit integer: the double is truncated. *)
  Variable build : Z -> rss_dyn -> list scene_call -> WM.
  Variable valid : WM -> bool.
  Definition time_index (t : R) : Z := Int_part (t + 1).

  Section Config.
    (** rss_dynamics_ego_, rss_dynamics_others_, scaling_relevant_range_, route_predict_range_ *)
    Variables (dyn_ego dyn_others : rss_dyn) (scaling range : R).

    (** The agents as GetRelevantAgents reads them. *)
    Definition brief (agents : list (N * ragent)) : list (N * (pt * R)) :=
      map (fun ka => (fst ka, ((a_x (ag_state (snd ka)), a_y (ag_state (snd ka))), a_vel (ag_state (snd ka))))) agents.
    (** rss_interface.cpp:316-343, the loop body: the call made for one relevant agent. *)
    Definition call_for (ego : object_data) (route : Route) (ka : N * ragent) : option scene_call :=
      let s := ag_state (snd ka) in
      match avel (ag_hist (snd ka)) with
      | None => None
      | Some av => Some (mkCall ego route
          (mkOD (fst ka) false (generate_match_object s (ag_shape (snd ka))) (a_vel s) av (a_theta s) dyn_others))
      end.
    Fixpoint collect (l : list (option scene_call)) : option (list scene_call) :=
      match l with
      | [] => Some []
      | Some c :: r => match collect r with Some cs => Some (c :: cs) | None => None end
      | None :: _ => None
      end.
    (** rss_interface.cpp:290-349, CreateWorldModel: [agents] in key order, each under its own id. *)
    Definition create_world (agents : list (N * ragent)) (ego : N) (st : rstate) (m : match_object) (route : Route) : option (bool * WM) :=
      match m_find ego agents with
      | None => None
      | Some e =>
        match avel (ag_hist e) with
        | None => None
        | Some av =>
          let od := mkOD ego true m (r_speed st) av (r_heading st) dyn_ego in
          let rel := relevant_agents moved stopped (brief agents) (fst (r_center st)) ego (r_stop st) dyn_others scaling in
          match collect (map (call_for od route) (filter (fun ka => existsb (N.eqb (fst ka)) rel) agents)) with
          | None => None
          | Some calls => let w := build (time_index (r_time st)) dyn_ego calls in Some (valid w, w)
          end
        end
      end.
    (** rss_interface.cpp:406-440, GenerateRSSWorld: the check that the goal lies in the road corridor only logs (a missing
        corridor is dereferenced: [corridor] says whether there is one). *)
    Definition generate_world (agents : list (N * ragent)) (ego : N) (corridor : bool) : option (bool * WM) :=
      match m_find ego agents with
      | None => None
      | Some e =>
        match ag_goal e with
        | None => None
        | Some goal =>
          if negb corridor then None else
          let m := generate_match_object (ag_state e) (ag_shape e) in
          let '(_, route) := generate_route goal m range no_route in
          create_world agents ego (convert_state (ag_state e) dyn_ego) m route
        end
      end.
  End Config.
End RssWorld.
