(** Model of the label functions of the LTL evaluator, bark/world/evaluation/ltl/label_functions/*.cpp (except
    safe_distance_label_function.cpp, see Model_SafeDist), over the real numbers.
    Geometry of lines is that of Model_Line / Model_Frenet; polygons and the road corridor queries enter as oracles (the queries are
    modelled in Model_Corridor). [None]: undefined behaviour (null pointer, empty line or history, division by zero). *)
From Coq Require Import Reals List Bool NArith ZArith QArith.
From Verif Require Import Base_Real Base_Geom Model_Map Model_World Model_Angle Model_Line Model_Shape Model_Frenet.
Import ListNotations.
Local Open Scope R_scope.

(** lane_corridor.hpp:34-101: centre line, boundaries and [lk_lanes], the lanes compared by operator==. *)
Record lanek : Type := mkLK { lk_lanes : list N; lk_center : line; lk_left : line; lk_right : line }.
(** operator== of LaneCorridor (lane_corridor.hpp:75-82): the same lanes at the same arc lengths. *)
Definition lk_eqb (a b : lanek) : bool :=
  Nat.eqb (length (lk_lanes a)) (length (lk_lanes b)) && forallb (fun p => N.eqb (fst p) (snd p)) (combine (lk_lanes a) (lk_lanes b)).
(** lane_corridor.hpp:54-56, LengthUntilEnd. *)
Definition length_until_end (l : lanek) (p : pt) : option R :=
  match get_nearest_s (lk_center l) p with None => None | Some s => Some (line_length (lk_center l) - s) end.

Section Labels.
  Context {T : Types} (O : Ops T).
  (** Position, speed and time of a state; extents of a shape (front_dist_, rear_dist_). *)
  Variables (pos : tState T -> pt) (vel tm : tState T -> R) (front_d rear_d : tShape T -> R).
  (** A road corridor (agent.hpp, GetRoadCorridor) and its queries GetCurrentLaneCorridor, GetNearestLaneCorridor,
      GetLeftRightLaneCorridor (road_corridor.cpp); [None] for an agent without road corridor. *)
  Variable RC : Type.
  Variable road : agent T -> option RC.
  Variables (rc_current rc_nearest : RC -> pt -> option lanek).
  Variable rc_left_right : RC -> pt -> option lanek * option lanek.
  (** Distance of two footprints, Collide of a lane's merged polygon and a point, Collide of two lines. *)
  Variable poly_distance : tShape T -> tState T -> tShape T -> tState T -> R.
  Variable in_merged : lanek -> pt -> bool.
  Variable lines_meet : line -> line -> bool.
  Notation agent := (agent T). Notation observed := (observed T).

  Definition ego_of (ow : observed) : option agent := get_agent (ow_world ow) (ow_ego ow).
  (** agent.hpp:124-128, GetCurrentPosition. *)
  Definition pos_of (a : agent) : option pt := option_map pos (current_state a).
  Definition bind2 {A B C : Type} (x : option A) (y : option B) (f : A -> B -> option C) : option C :=
    match x, y with Some a, Some b => f a b | _, _ => None end.
  Definition bindo {A B : Type} (x : option A) (f : A -> option B) : option B := match x with Some a => f a | None => None end.

  (** observed_world.cpp:76-90, GetLaneCorridor: the lane corridor nearest to the ego, null without road corridor; [None]: no ego. *)
  Definition ego_lane (ow : observed) : option (option lanek) :=
    bindo (ego_of ow) (fun e => bindo (pos_of e) (fun p => Some (match road e with Some r => rc_nearest r p | None => None end))).

  (** multi_agent_label_function.cpp:12-21: one label for every valid other agent. *)
  Fixpoint label_all (f : agent -> option bool) (l : kmap agent) : option (list (AgentId * bool)) :=
    match l with
    | [] => Some []
    | (id, a) :: r => bind2 (f a) (label_all f r) (fun b m => Some ((id, b) :: m))
    end.
  Definition multi_agent (f : observed -> agent -> option bool) (ow : observed) : option (list (AgentId * bool)) :=
    label_all (f ow) (get_valid_other_agents O ow).

  (** front_of_label_function.cpp:12-32 *)
  Definition front_of (ow : observed) (other : agent) : option bool :=
    bindo (ego_of ow) (fun ego =>
    bind2 (road other) (pos_of other) (fun r po =>
    match rc_current r po with
    | None => Some false
    | Some lane =>
        bindo (pos_of ego) (fun pe =>
        bind2 (frenet_position pe (lk_center lane)) (frenet_position po (lk_center lane)) (fun fe fo =>
        Some (Rleb (p_lon fo + front_d (ag_shape other)) (p_lon fe - rear_d (ag_shape ego)))))
    end)).
  (** behind_of_label_function.cpp:12-33 *)
  Definition behind_of (ow : observed) (other : agent) : option bool :=
    bindo (ego_of ow) (fun ego =>
    bindo (ego_lane ow) (fun el =>
    bind2 (road other) (pos_of other) (fun r po =>
    match el, rc_current r po with
    | Some _, Some lane =>
        bindo (pos_of ego) (fun pe =>
        bind2 (frenet_position pe (lk_center lane)) (frenet_position po (lk_center lane)) (fun fe fo =>
        Some (Rleb (p_lon fe + front_d (ag_shape ego)) (p_lon fo - rear_d (ag_shape other)))))
    | _, _ => Some false
    end))).
  (** left_of_label_function.cpp:12-24, right_of_label_function.cpp:12-24 *)
  Definition side_of (side : option lanek * option lanek -> option lanek) (ow : observed) (other : agent) : option bool :=
    bindo (ego_lane ow) (fun el =>
    bind2 (road other) (pos_of other) (fun r po =>
    Some (match side (rc_left_right r po), el with Some l, Some e => lk_eqb l e | _, _ => false end))).
  Definition left_of := side_of fst.
  Definition right_of := side_of snd.
  (** rel_speed_label_function.cpp:18-29 *)
  Definition rel_speed (thr : R) (ow : observed) (other : agent) : option bool :=
    bindo (ego_of ow) (fun ego => bind2 (current_state ego) (current_state other) (fun se so => Some (Rleb thr (vel se - vel so)))).
  (** agent_near_label_function.cpp:26-39 *)
  Definition agent_near (thr : R) (ow : observed) (other : agent) : option bool :=
    bindo (ego_of ow) (fun ego => bind2 (current_state ego) (current_state other) (fun se so =>
    Some (Rltb (Rabs (poly_distance (ag_shape ego) se (ag_shape other) so)) thr))).
  (** agent_at_lane_end_label_function.cpp:26-38 *)
  Definition at_lane_end (thr : R) (ow : observed) (other : agent) : option bool :=
    bind2 (road other) (pos_of other) (fun r po =>
    bindo (rc_nearest r po) (fun lane =>
    bindo (length_until_end lane po) (fun d => Some (Rltb (Rabs (d - front_d (ag_shape other))) thr)))).
  (** below_speed_limit_label_function.cpp:25-31 *)
  Definition below_speed_limit (thr : R) (ow : observed) (other : agent) : option bool :=
    bindo (current_state other) (fun s => Some (Rltb (vel s) thr)).
  (** on_road_label_function.cpp:22-36 *)
  Definition on_road (ow : observed) (other : agent) : option bool :=
    bind2 (road other) (pos_of other) (fun r p =>
    Some (match rc_nearest r p with Some lane => in_merged lane p | None => false end)).
  (** rightmost_lane_label_function.cpp:21-42, and ego_leftmost / ego_rightmost_lane_label_function.cpp:21-44 *)
  Definition outermost (side : option lanek * option lanek -> option lanek) (thr : R) (a : agent) : option bool :=
    bind2 (road a) (pos_of a) (fun r p =>
    match side (rc_left_right r p) with
    | None => Some true
    | Some lane => bindo (length_until_end lane p) (fun d => Some (negb (Rltb thr (d - front_d (ag_shape a)))))
    end).
  Definition rightmost_lane (thr : R) (ow : observed) (other : agent) : option bool := outermost snd thr other.
  Definition ego_leftmost (thr : R) (ow : observed) : option bool := bindo (ego_of ow) (outermost fst thr).
  Definition ego_rightmost (thr : R) (ow : observed) : option bool := bindo (ego_of ow) (outermost snd thr).
  (** agent_beyond_point_label_function.cpp:16-28 (the agent's current lane), ego_beyond_point_label_function.cpp:19-29 (the
      ego's nearest lane) *)
  Definition ahead_of_point (lane : option lanek) (q p : pt) : option bool :=
    match lane with
    | None => Some false
    | Some lane => bind2 (frenet_position p (lk_center lane)) (frenet_position q (lk_center lane)) (fun fa fq =>
                   Some (Rltb 0 (p_lon fa - p_lon fq)))
    end.
  Definition agent_beyond (q : pt) (ow : observed) (other : agent) : option bool :=
    bind2 (road other) (pos_of other) (fun r p => ahead_of_point (rc_current r p) q p).
  Definition ego_beyond (q : pt) (ow : observed) : option bool :=
    bindo (ego_of ow) (fun e => bind2 (ego_lane ow) (pos_of e) (fun l p => ahead_of_point l q p)).
  (** ego_below_speed_limit_label_function.cpp:25-31 *)
  Definition ego_below_speed (thr : R) (ow : observed) : option bool :=
    bindo (ego_of ow) (fun e => bindo (current_state e) (fun s => Some (Rltb (vel s) thr))).
  (** dense_traffic_label_function.cpp:18-37; the radius is stored as its absolute value. *)
  Fixpoint count_within (pe : pt) (radius : R) (l : kmap agent) : option Z :=
    match l with
    | [] => Some 0%Z
    | (_, a) :: r => bind2 (pos_of a) (count_within pe radius r) (fun p n =>
                     Some (if Rltb (Rabs (dist pe p)) (Rabs radius) then n + 1 else n)%Z)
    end.
  Definition dense_traffic (radius : R) (num : Z) (ow : observed) : option bool :=
    bindo (ego_of ow) (fun e => bindo (pos_of e) (fun pe =>
    bindo (count_within pe radius (get_other_agents ow)) (fun n => Some (Z.leb num n)))).
  (** ego_accelerate_label_function.cpp:24-38; dt = 0 gives an infinity or a NaN: [None]. *)
  Definition ego_accelerate (thr : R) (ow : observed) : option bool :=
    bindo (ego_of ow) (fun e =>
    if Nat.ltb 2 (length (ag_hist e)) then
      match rev (ag_hist e) with
      | (s1, _) :: (s0, _) :: _ =>
          if Reqb (tm s1 - tm s0) 0 then None else Some (Rleb thr ((vel s1 - vel s0) / (tm s1 - tm s0)))
      | _ => None
      end
    else Some false).
  (** lane_change_label_function.cpp:21-39 *)
  Definition lane_change (ow : observed) : option bool :=
    bindo (ego_of ow) (fun e => bindo (ego_lane ow) (fun el =>
    match el with
    | None => Some false
    | Some lane =>
        if Nat.leb 2 (length (ag_hist e)) then
          match rev (ag_hist e) with
          | (s1, _) :: (s0, _) :: _ =>
              let move := add_point (add_point empty_line (pos s0)) (pos s1) in
              Some (lines_meet move (lk_left lane) || lines_meet move (lk_right lane))
          | _ => None
          end
        else Some false
    end)).
  (** succeeding_agent_label_function.cpp:23-44 (the file preceding_agent_label_function.hpp declares the same class): [front ow lane]
      is the front agent of GetAgentFrontRearForId for the ego (Model_FrontRear), [None]: undefined. *)
  Definition succeeding (front : observed -> lanek -> option (option agent)) (ow : observed) (other : agent) : option bool :=
    bindo (ego_lane ow) (fun el =>
    match el with
    | None => Some false
    | Some lane => bindo (front ow lane) (fun f => Some (match f with Some a => N.eqb (ag_id a) (ag_id other) | None => false end))
    end).
End Labels.

(** generic_ego_label_function.hpp:33-41: the stored evaluator is copied before every evaluation. *)
Definition generic_ego {E W : Type} (eval : E -> W -> E * bool) (has_ego : W -> bool) (e : E) (w : W) : E * bool :=
  (e, if has_ego w then snd (eval e w) else false).
