(** The scenario evaluators: bark/world/evaluation/*.{hpp,cpp} and bark/commons/math/vector.hpp.

    Geometry enters through oracles: [pos] (planar position of a state), [hit] (Collide of two footprints,
    GetPolygonFromState of shape and state), [inside] (bg::within of an agent's footprint at a state in
    its road corridor polygon; None = the agent has no road corridor, a null dereference).
    [goal_step] is goal_definition_->AtGoal(agent) (it may change the goal's progress, see Model_Goal.v).
    [None] results are undefined behaviour of the program. Evaluators' int counters are unbounded here.*)
From Coq Require Import List NArith ZArith QArith Bool.
From Verif Require Import Model_Map Model_World.
Import ListNotations.

(** std::numeric_limits<AgentId>::max() for AgentId = unsigned int *)
Definition max_agent_id : AgentId := 4294967295%N.

Section Eval.
  Context {T : Types} (O : Ops T).
  Variable pos : tState T -> tPoint T.
  Variable hit : tShape T -> tState T -> tShape T -> tState T -> bool.
  Variable inside : agent T -> tState T -> option bool.
  Variable goal_step : tGD T -> agent T -> bool * tGD T.
  Notation agent := (agent T). Notation world := (world T). Notation observed := (observed T).

  (** evaluator_collision_agents.cpp:24-34, the inner loop; [c] is the variable [colliding]. *)
  Fixpoint inner_loop (id1 : AgentId) (sh1 : tShape T) (s1 : tState T) (l : kmap agent) (c : bool)
    : option bool :=
    match l with
    | [] => Some c
    | (id2, a2) :: r =>
        match current_state a2 with
        | None => None
        | Some s2 =>
            if negb (N.eqb id2 id1) && hit sh1 s1 (ag_shape a2) s2 then Some true
            else if c then Some c
            else inner_loop id1 sh1 s1 r c
        end
    end.
  (** evaluator_collision_agents.cpp:21-36, the outer loop (it has no break) *)
  Fixpoint outer_loop (all l : kmap agent) (c : bool) : option bool :=
    match l with
    | [] => Some c
    | (id1, a1) :: r =>
        match current_state a1 with
        | None => None
        | Some s1 =>
            match inner_loop id1 (ag_shape a1) s1 all c with
            | None => None
            | Some c' => outer_loop all r c'
            end
        end
    end.
  (** evaluator_collision_agents.cpp:16-37 *)
  Definition eval_collision_agents (w : world) : option bool :=
    outer_loop (get_valid_agents O w) (get_valid_agents O w) false.

  (** evaluator_collision_ego_agent.cpp:34-43 and 58-67, the loop over the nearby agents. The code
      compares with agent.second->GetAgentId(). *)
  Fixpoint ego_loop (ego : AgentId) (sh : tShape T) (s : tState T) (l : kmap agent) : option bool :=
    match l with
    | [] => Some false
    | (_, a) :: r =>
        if N.eqb ego (ag_id a) then ego_loop ego sh s r
        else match current_state a with
             | None => None
             | Some s2 => if hit sh s (ag_shape a) s2 then Some true else ego_loop ego sh s r
             end
    end.
  (** evaluator_collision_ego_agent.cpp:21-45 (Evaluate(World)); 47-70 (Evaluate(ObservedWorld)) is the
      same with the ego agent of the observed world, see [eval_collision_ego_obs]. *)
  Definition eval_collision_ego (w : world) (ego : AgentId) : option bool :=
    match get_agent w ego with
    | None => Some false
    | Some a =>
        match current_state a with
        | None => None
        | Some s =>
            match get_nearest_agents O w (pos s) 4 with
            | None => None
            | Some near => ego_loop ego (ag_shape a) s near
            end
        end
    end.
  (** evaluator_collision_ego_agent.cpp:47-70; a missing ego agent is a null dereference *)
  Definition eval_collision_ego_obs (ow : observed) : option bool :=
    match get_agent (ow_world ow) (ow_ego ow) with
    | None => None
    | Some _ => eval_collision_ego (ow_world ow) (ow_ego ow)
    end.

  (** agent.cpp:156-159 AtGoal; the goal object's progress changes in place. None: no goal definition
      (BARK_EXPECT_TRUE only logs, then a null dereference). *)
  Definition agent_at_goal (a : agent) : option (bool * agent) :=
    match ag_goal a with
    | None => None
    | Some g =>
        let bg := goal_step g a in
        Some (fst bg, mkAgent (ag_id a) (ag_shape a) (ag_bm a) (ag_dm a) (ag_em a) (Some (snd bg))
                              (ag_hist a) (ag_max a) (ag_first a) (ag_sensed a))
    end.
  (** evaluator_goal_reached.hpp:34-39: the counting loop over GetAgents() (all agents, valid or not) *)
  Fixpoint count_goals (l : kmap agent) : option (nat * kmap agent) :=
    match l with
    | [] => Some (0%nat, [])
    | (k, a) :: r =>
        match agent_at_goal a with
        | None => None
        | Some (b, a') =>
            match count_goals r with
            | None => None
            | Some (n, r') => Some (if b then S n else n, (k, a') :: r')
            end
        end
    end.
  (** evaluator_goal_reached.hpp:32-50; returns the answer and the world with updated goal progress *)
  Definition eval_goal_reached (w : world) (id : AgentId) : option (bool * world) :=
    if N.eqb id max_agent_id then
      match count_goals (w_agents w) with
      | None => None
      | Some (n, m) => Some (Nat.eqb n (length (w_agents w)), set_agents w m)
      end
    else
      match get_agent w id with
      | None => Some (false, w)
      | Some a =>
          match agent_at_goal a with
          | None => None
          | Some (b, a') => Some (b, set_agents w (m_insert id a' (w_agents w)))
          end
      end.

  (** evaluator_drivable_area.hpp:40-45 *)
  Definition off_road (a : agent) : option bool :=
    match current_state a with
    | None => None
    | Some s => option_map negb (inside a s)
    end.
  (** evaluator_drivable_area.hpp:48-56 *)
  Fixpoint off_road_loop (l : kmap agent) : option bool :=
    match l with
    | [] => Some false
    | (_, a) :: r =>
        match off_road a with
        | None => None
        | Some true => Some true
        | Some false => off_road_loop r
        end
    end.
  (** evaluator_drivable_area.hpp:31-57 *)
  Definition eval_drivable_area (w : world) (id : AgentId) : option bool :=
    if negb (N.eqb id max_agent_id) then
      match get_agent w id with
      | None => Some true
      | Some a => off_road a
      end
    else off_road_loop (get_valid_agents O w).

  (** evaluator_behavior_expired.hpp:35-46 *)
  Definition eval_behavior_expired (w : world) (id : AgentId) : bool :=
    match get_agent w id with
    | None => true
    | Some a => is_expired (b_status O (ag_bm a))
    end.

  (** evaluator_step_count.hpp:29-37: state is steps_; both overloads *)
  Definition eval_step_count (steps : Z) : Z * Z := (steps + 1, steps + 1)%Z.
  Fixpoint step_counts (steps : Z) (n : nat) : list Z :=
    match n with
    | 0%nat => []
    | S n' => snd (eval_step_count steps) :: step_counts (fst (eval_step_count steps)) n'
    end.

  (** evaluator_number_of_agents.cpp:19-21 (and evaluator_ltl.cpp:42-44, evaluator_planning_time.cpp:20-22,
      evaluator_gap_distance_front.cpp:34-36): the observed world an evaluator looks at; None: the
      evaluated agent is not in the world. A change of the observer's random state is dropped. *)
  Definition eval_view (w : world) (id : AgentId) : option observed :=
    match get_agent w id with
    | None => None
    | Some _ => hd_error (snd (observe_world O (clone_world O w) [id]))
    end.

  (** evaluator_number_of_agents.cpp:27-35: agent_ids_ is a std::set, here a keyed map of units *)
  Definition number_observe (ids : kmap unit) (ow : observed) : kmap unit :=
    fold_left (fun s p => m_insert (fst p) tt s) (w_agents (ow_world ow)) ids.
  (** evaluator_number_of_agents.cpp:18-25: new state and reported number *)
  Definition number_eval (id : AgentId) (ids : kmap unit) (w : world) : kmap unit * nat :=
    match eval_view w id with
    | Some ow => let s := number_observe ids ow in (s, length s)
    | None => (ids, length ids)
    end.
  Fixpoint number_evals (id : AgentId) (ids : kmap unit) (ws : list world) : list nat :=
    match ws with
    | [] => []
    | w :: r => snd (number_eval id ids w) :: number_evals id (fst (number_eval id ids w)) r
    end.
End Eval.

(** bark/commons/math/vector.hpp:18-26 CalculateMean (exact arithmetic) *)
Definition calculate_mean (v : list Q) : Q :=
  match v with
  | [] => 0
  | _ => fold_left Qplus v 0 / inject_Z (Z.of_nat (length v))
  end.
(** evaluator_velocity.cpp:33-46, evaluator_gap_distance_front.cpp:21-58 and
    evaluator_planning_time.cpp:19-43 share one scheme: if there is something to measure (the agent is in
    the world; for the gap: and it has a leader) push the measured value; report the mean of all values,
    NaN (None) if there is none. *)
Definition mean_eval (vec : list Q) (measured : option Q) : list Q * option Q :=
  let vec' := match measured with Some x => vec ++ [x] | None => vec end in
  (vec', match vec' with [] => None | _ => Some (calculate_mean vec') end).
Fixpoint mean_evals (vec : list Q) (ms : list (option Q)) : list (option Q) :=
  match ms with
  | [] => []
  | m :: r => snd (mean_eval vec m) :: mean_evals (fst (mean_eval vec m)) r
  end.
Section Measure.
  Context {T : Types} (O : Ops T).
  (** evaluator_velocity.cpp:20-24, 35-38: the measured value is the current velocity of the agent *)
  Definition measured_velocity (vel : tState T -> Q) (w : world T) (id : AgentId) : option (option Q) :=
    match get_agent w id with
    | None => Some None
    | Some a => match current_state a with None => None | Some s => Some (Some (vel s)) end
    end.
  (** evaluator_planning_time.cpp:35-40: GetLastSolutionTime of the (observed, cloned) ego behaviour *)
  Definition measured_time (sol_time : tBM T -> Q) (w : world T) (id : AgentId) : option Q :=
    match eval_view O w id with
    | None => None
    | Some ow => option_map (fun a => sol_time (ag_bm a)) (get_agent (ow_world ow) (ow_ego ow))
    end.
End Measure.
