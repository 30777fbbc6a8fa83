(* bark/world/prediction/prediction_settings.cpp, the Predict family of bark/world/observed_world.cpp
   and bark/models/observer/observer_model_parametric.cpp, on top of Model_World.v. [None] stands for a
   null pointer that is dereferenced, an out_of_range exception or the read of an empty history. *)
From Coq Require Import List NArith QArith Bool Reals.
From Verif Require Import Model_Map Model_World.
Import ListNotations.

Section Prediction.
  Context {T : Types} (O : Ops T).

  (* agent.hpp:154-156 and observed_world.hpp:96-99 SetBehaviorModel: GetAgent of an unknown id is null *)
  Definition set_behavior (w : world T) (id : AgentId) (b : tBM T) : option (world T) :=
    match get_agent w id with
    | None => None
    | Some a => Some (set_agents w (m_insert id (set_bm a b) (w_agents w)))
    end.

  (* prediction_settings.hpp:60-63. The set of agent ids is a list; std::set iterates it in order,
     without repetitions, but the order is irrelevant below. *)
  Record settings := mkSettings {
    ps_ego : option (tBM T);
    ps_default : option (tBM T);
    ps_specific : option (tBM T);
    ps_agents : list AgentId }.

  Definition mem (id : AgentId) (l : list AgentId) : bool := existsb (N.eqb id) l.

  (* prediction_settings.cpp:44-60, the loop over GetOtherAgents. [ns] is what
     std::make_shared<BehaviorNotStarted>(nullptr) constructs. The map [others] was copied before the
     loop, but its pointers lead to the live agents; each agent is read before its own model is set. *)
  Fixpoint default_loop (ns d : tBM T) (spec : list AgentId) (t : Q) (others : kmap (agent T)) (w : world T) : option (world T) :=
    match others with
    | [] => Some w
    | (id, a) :: r =>
        let w' :=
          if is_valid (b_status O (ag_bm a)) && valid_at a t then
            if mem id spec then Some w else set_behavior w id (b_clone O d)
          else set_behavior w id ns in
        match w' with None => None | Some w' => default_loop ns d spec t r w' end
    end.
  (* prediction_settings.cpp:61-66, the loop over the specific agents *)
  Fixpoint specific_loop (s : tBM T) (ids : list AgentId) (w : world T) : option (world T) :=
    match ids with
    | [] => Some w
    | id :: r => match set_behavior w id (b_clone O s) with None => None | Some w' => specific_loop s r w' end
    end.

  (* prediction_settings.cpp:38-67 ApplySettings; observed_world.cpp:91-93 SetupPrediction *)
  Definition apply_settings (ns : tBM T) (s : settings) (ow : observed T) : option (observed T) :=
    match ps_ego s with
    | None => None
    | Some e =>
      match set_behavior (ow_world ow) (ow_ego ow) (b_clone O e) with
      | None => None
      | Some w1 =>
        let w2 := match ps_default s with
                  | None => Some w1
                  | Some d => default_loop ns d (ps_agents s) (w_time w1)
                                (get_other_agents (mkObserved w1 (ow_ego ow))) w1
                  end in
        match w2 with
        | None => None
        | Some w2 =>
          let w3 := match ps_specific s with None => Some w2 | Some m => specific_loop m (ps_agents s) w2 end in
          match w3 with None => None | Some w3 => Some (mkObserved w3 (ow_ego ow)) end
        end
      end
    end.

  (* observed_world.cpp:145-169 Predict with given behaviour models: the ego's model and those of the
     listed agents are replaced (unknown agents are skipped), then the world is stepped. *)
  Definition set_behavior_if (w : world T) (id : AgentId) (b : tBM T) : world T :=
    match set_behavior w id b with Some w' => w' | None => w end.
  Definition predict_with (ow : observed T) (dt : Q) (ego : tBM T) (others : list (AgentId * tBM T)) : option (observed T) :=
    let c := clone_observed O ow in
    let w1 := set_behavior_if (ow_world c) (ow_ego c) ego in
    let w2 := fold_left (fun w p => set_behavior_if w (fst p) (snd p)) others w1 in
    option_map (fun w => mkObserved w (ow_ego ow)) (step O w2 dt).

  (* observed_world.cpp:102-117 and 119-143 Predict with discrete actions: ActionToBehavior is called on
     the models that are motion primitives ([act b i = None] for other models, which only logs). *)
  Variable act : tBM T -> N -> option (tBM T).
  Definition act_on (w : world T) (id : AgentId) (i : N) : world T :=
    match get_agent w id with
    | None => w
    | Some a => match act (ag_bm a) i with Some b => set_behavior_if w id b | None => w end
    end.
  Definition predict_action (ow : observed T) (dt : Q) (i : N) : option (observed T) :=
    let c := clone_observed O ow in
    match get_agent (ow_world c) (ow_ego c) with
    | None => None
    | Some _ => option_map (fun w => mkObserved w (ow_ego ow)) (step O (act_on (ow_world c) (ow_ego c) i) dt)
    end.
  Definition predict_actions (ow : observed T) (dt : Q) (l : list (AgentId * N)) : option (observed T) :=
    let c := clone_observed O ow in
    option_map (fun w => mkObserved w (ow_ego ow))
      (step O (fold_left (fun w p => act_on w (fst p) (snd p)) l (ow_world c)) dt).

  (* * The parametric observer. [perturb s d] is the state after AddStateDeviationFrenet with the sampled
     deviation [d] (below for the concrete state vector); [None] if the deviation is too short. The
     distributions are generators with a state. *)
  Context {DS Dev : Type} (sample_ego sample_others : DS -> DS * Dev) (perturb : tState T -> Dev -> option (tState T)).

  (* agent.hpp:174-176 SetCurrentState *)
  Fixpoint set_last {A} (l : list A) (f : A -> A) : list A :=
    match l with [] => [] | [x] => [f x] | x :: r => x :: set_last r f end.
  Definition set_current_state (a : agent T) (s : tState T) : agent T :=
    set_hist a (set_last (ag_hist a) (fun p => (s, snd p))).

  (* observer_model_parametric.cpp:72-88 AddStateDeviationFrenet *)
  Definition add_deviation (a : agent T) (d : Dev) : option (agent T) :=
    match current_state a with
    | None => None
    | Some s => match perturb s d with None => None | Some s' => Some (set_current_state a s') end
    end.
  (* observer_model_parametric.cpp:64-67, the loop over the other agents *)
  Fixpoint deviate_others (g : DS) (others : kmap (agent T)) (w : world T) : option (DS * world T) :=
    match others with
    | [] => Some (g, w)
    | (id, a) :: r =>
        let sd := sample_others g in
        match add_deviation a (snd sd) with
        | None => None
        | Some a' => deviate_others (fst sd) r (set_agents w (m_insert id a' (w_agents w)))
        end
    end.
  (* observer_model_parametric.cpp:45-70 Observe; the renderer part is left out (a renderer is assumed to
     be present). [only] is GetObserveOnlyForAgents. *)
  Definition observe_parametric (only : list AgentId) (ge go : DS) (w : world T) (id : AgentId)
    : option (DS * DS * observed T) :=
    let c := clone_world O w in
    let active := match only with [] => true | _ => mem id only end in
    if active then
      match get_agent w id, get_agent c id with
      | Some _, Some e =>
          let sd := sample_ego ge in
          match add_deviation e (snd sd) with
          | None => None
          | Some e' =>
              let c1 := set_agents c (m_insert id e' (w_agents c)) in
              match deviate_others go (get_other_agents (mkObserved c1 id)) c1 with
              | None => None
              | Some (go', c2) => Some (fst sd, go', mkObserved c2 id)
              end
          end
      | _, _ => None
      end
    else Some (ge, go, mkObserved c id).
End Prediction.

(* observer_model_parametric.cpp:76-87 on the state vector (time, x, y, theta, v) and a sampled deviation. *)
Record rstate := mkRS { rs_time : R; rs_x : R; rs_y : R; rs_theta : R; rs_v : R }.
Definition deviate (s : rstate) (d : list R) : option rstate :=
  match d with
  | d0 :: d1 :: d2 :: d3 :: _ =>
      Some (mkRS (rs_time s)
              (rs_x s + (d0 * cos (rs_theta s) + d1 * sin (rs_theta s)))%R
              (rs_y s + (d0 * sin (rs_theta s) + d1 * cos (rs_theta s)))%R
              (rs_theta s + d2)%R (rs_v s + d3)%R)
  | _ => None
  end.
