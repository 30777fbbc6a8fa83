(** bark/world/evaluation/ltl/label_functions/safe_distance_label_function.{cpp,hpp} and
    bark/world/evaluation/safe_distances/evaluator_dynamic_safe_dist.cpp.
    Floats are exact reals (the code passes speeds and gaps through [float]); a division by zero of the
    code is not meaningful here (x / 0 is unspecified), theorems assume non-zero decelerations. *)
From Coq Require Import List NArith Bool Reals.
From Verif Require Import Base_Real.
Import ListNotations.
Local Open Scope R_scope.

(** safe_distance_label_function.cpp:149-161 CalcVelFrontStar *)
Definition vel_front_star (v_f a_f delta : R) : R :=
  if Rleb delta (- v_f / a_f) then v_f + a_f * delta else 0.
(** safe_distance_label_function.cpp:163-167 *)
Definition safe_distance0 (v_r a_r delta : R) : R := v_r * delta - v_r ^ 2 / (2 * a_r).
(** safe_distance_label_function.cpp:169-175 *)
Definition safe_distance1 (v_r v_f a_r a_f delta : R) : R :=
  v_r * delta - v_r ^ 2 / (2 * a_r) + v_f ^ 2 / (2 * a_f).
(** safe_distance_label_function.cpp:177-185 *)
Definition safe_distance2 (v_r v_f a_r a_f delta : R) : R :=
  (v_f + a_f * delta - v_r) ^ 2 / (2 * (a_f - a_r)) - v_f * delta - / 2 * a_f * delta ^ 2 + v_r * delta.
(** safe_distance_label_function.cpp:187-194 *)
Definition safe_distance3 (v_r v_f a_r a_f delta : R) : R :=
  v_r * delta - v_r ^ 2 / (2 * a_r) - v_f * delta - a_f * delta ^ 2 / 2.
(** safe_distance_label_function.cpp:126-128 ZeroToPositive *)
Definition zero_to_positive (x : R) : R := if Rltb x 0 then 0 else x.

(** safe_distance_label_function.cpp:111-147 CheckSafeDistanceLongitudinal(v_f, v_r, dist, a_r, a_f, delta) *)
Definition check_lon (v_f v_r dist a_r a_f delta : R) : bool :=
  if Rltb dist 0 then true
  else
    let v_f_star := vel_front_star v_f a_f delta in
    let t_stop_f_star := - v_f_star / a_r in
    let t_stop_r := - v_r / a_r in
    let t_stop_f := - v_f / a_f in
    let sd0 := zero_to_positive (safe_distance0 v_r a_r delta) in
    let sd1 := zero_to_positive (safe_distance1 v_r v_f a_r a_f delta) in
    let sd2 := zero_to_positive (safe_distance2 v_r v_f a_r a_f delta) in
    let sd3 := zero_to_positive (safe_distance3 v_r v_f a_r a_f delta) in
    if Rltb sd0 dist || (Rleb delta t_stop_f && Rltb sd3 dist) then true
    else if Rleb delta t_stop_f && Rltb a_r a_f && Rltb v_f_star v_r && Rltb t_stop_r t_stop_f_star
    then Rltb sd2 dist
    else Rltb sd1 dist.

(** What the check reads of a FrenetStateDifference (commons/transformation/frenet_state.hpp): [from] is
    the agent whose neighbours were looked up, [to] the neighbour. *)
Record fdiff := mkFdiff {
  from_vlon : R; to_vlon : R; f_lon : R; lon_zeroed : bool;
  from_vlat : R; to_vlat : R; f_lat : R; lat_zeroed : bool;
  from_angle : R; to_angle : R }.
(** FrontRearAgents (world/world.hpp:57-60) *)
Record front_rear := mkFR { fr_front : option (N * fdiff); fr_rear : option (N * fdiff) }.
Definition is_agent (o : option (N * fdiff)) (id : N) : option fdiff :=
  match o with Some (i, d) => if N.eqb i id then Some d else None | None => None end.

(** safe_distance_label_function.hpp:78-89, the configuration *)
Record sd_params := mkSD {
  p_delta_ego : R; p_delta_others : R; p_a_e : R; p_a_o : R;
  p_crossing : bool; p_check_lateral : bool;
  p_lat_threshold : R; p_angle_threshold : R }.

(** safe_distance_label_function.cpp:83-109: roles, then the check. [fr] are the front and rear neighbours
    of some other agent. Note the order (a_o, a_e) of the decelerations in both cases. *)
Definition check_lon_agents (p : sd_params) (fr : front_rear) (ego : N) : bool :=
  match is_agent (fr_front fr) ego with
  | Some d => check_lon (to_vlon d) (from_vlon d) (if lon_zeroed d then 0 else f_lon d)
                        (p_a_o p) (p_a_e p) (p_delta_others p)
  | None =>
      match is_agent (fr_rear fr) ego with
      | Some d => check_lon (from_vlon d) (to_vlon d) (if lon_zeroed d then 0 else Rabs (f_lon d))
                            (p_a_o p) (p_a_e p) (p_delta_ego p)
      | None => true
      end
  end.

(** safe_distance_label_function.cpp:289-299 *)
Definition min_lat_safe_dist (v1 v2 a1 a2 delta1 delta2 : R) : R :=
  v1 * delta1 + (if Reqb v1 0 then 0 else v1 * v1 / (2 * a1))
  - (v2 * delta2 - (if Reqb v2 0 then 0 else v2 * v2 / (2 * a2))).
Definition check_lat (v1 v2 dist a1 a2 delta1 delta2 : R) : bool :=
  Rltb (min_lat_safe_dist v1 v2 a1 a2 delta1 delta2) dist.

(** safe_distance_label_function.cpp:198-264. [max_acc_lat id road_angle max_total left] is
    GetMaxAccLat: the largest lateral acceleration of agent [id] (its current state and dynamic model). In
    both branches the "other" agent's value is asked of fr_agents.front.first / rear.first, which is the
    ego agent. *)
Definition check_lat_agents (max_acc_lat : N -> R -> R -> bool -> R) (p : sd_params) (fr : front_rear)
           (ego : N) : bool :=
  let go d :=
    let dist := f_lat d in
    let dist0 := if lat_zeroed d then 0 else dist in
    let a1 := max_acc_lat ego (from_angle d) (p_a_o p) (Rleb 0 dist) in
    let a2 := max_acc_lat ego (to_angle d) (p_a_e p) (Rleb 0 dist) in
    let v1 := from_vlat d in let v2 := to_vlat d in
    if Reqb dist0 0 then false
    else if Rleb 0 v1 && Rleb v2 0 && Rltb dist0 0 then true
    else if Rleb v1 0 && Rleb 0 v2 && Rltb 0 dist0 then true
    else if Rltb v1 v2 then check_lat v2 v1 (Rabs dist0) a2 a1 (p_delta_ego p) (p_delta_others p)
    else check_lat v1 v2 (Rabs dist0) a1 a2 (p_delta_others p) (p_delta_ego p) in
  match is_agent (fr_front fr) ego with
  | Some d => go d
  | None => match is_agent (fr_rear fr) ego with Some d => go d | None => true end
  end.

(** safe_distance_label_function.cpp:52-81 EvaluateCrossingCorridors: loop over the nearest agents, each
    with the front and rear neighbours found in its own corridor *)
Fixpoint crossing_loop max_acc_lat (p : sd_params) (ego : N) (l : list (N * front_rear)) : bool :=
  match l with
  | [] => true
  | (id, fr) :: r =>
      if N.eqb id ego then crossing_loop max_acc_lat p ego r
      else
        let safe := check_lon_agents p fr ego in
        let safe := if negb safe && p_check_lateral p then check_lat_agents max_acc_lat p fr ego else safe in
        if negb safe then false else crossing_loop max_acc_lat p ego r
  end.
(** safe_distance_label_function.cpp:44-50 Evaluate *)
Definition sd_evaluate max_acc_lat (p : sd_params) (ego : N) (near : list (N * front_rear)) : bool :=
  if p_crossing p then crossing_loop max_acc_lat p ego near else true.

(** safe_distance_label_function.hpp:55-56 *)
Definition get_lateral_difference_threshold (p : sd_params) : R := p_lat_threshold p.
Definition get_angle_difference_threshold (p : sd_params) : R := p_lat_threshold p.

(** evaluator_dynamic_safe_dist.cpp:15-31: the default parameters; decelerations are given as positive
    numbers *)
Definition dynamic_safe_dist_defaults (b_pi : R) : sd_params :=
  mkSD (2/10) (8/10) 5 5 false false 1 b_pi.
