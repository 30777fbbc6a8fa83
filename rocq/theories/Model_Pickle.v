(** Copying agents by pickling (copy.deepcopy of an agent list goes through
    the pickle functions of the Python bindings):
    python_wrapper/world/agent.cpp 65-107, python_wrapper/polymorphic_conversion.cpp,
    python_wrapper/models/behavior.cpp, models/execution.cpp, models/dynamic.cpp,
    world/goal_definition.cpp.

    Simplifications.  Parameter objects, shapes, states, actions, trajectories
    and corridors are opaque values; a pickled parameter object is its condensed
    list and the copy is built from it ([reload]; that this keeps every value is
    C14).  Polygons, lines, points, states, actions and trajectories come back
    equal.  The build without the RSS library is modelled.  Behaviors written in
    Python (PyBehaviorModel) and the closed source planners are not modelled. *)
From Coq Require Import List ZArith NArith Bool.
From Verif Require Import Model_Goal.
Import ListNotations.

(** What a pickling call does: a value, a Python exception, or the end of the
    process (a null pointer is used, LOG(FATAL), or throw; outside a handler). *)
Inductive pres (A : Type) := POk (a : A) | PRaise | PCrash.
Arguments POk {A}. Arguments PRaise {A}. Arguments PCrash {A}.

Definition pbind {A B} (x : pres A) (k : A -> pres B) : pres B :=
  match x with POk a => k a | PRaise => PRaise | PCrash => PCrash end.

(** The behavior models of bark/models/behavior. *)
Inductive btype :=
  | ConstantAcceleration | IDMLaneTracking | IDMClassic | IntersectionRuleBased
  | LaneChangeRuleBased | MobilRuleBased | StaticTrajectory | NotStarted
  | DynamicModelBehavior | IDMStochastic | MPMacroActions | Safety | RSSConformant
  | RandomMacroActions | MPContinuousActions.

Inductive dtype := SingleTrack | SingleTrackSteeringRate | TripleIntegrator.
Inductive etype := Interpolate | Mpc.

Section Pickle.

(** Params, trajectories, actions, constructor arguments other than the
    parameters (primitives, the static trajectory), other internal state. *)
Context {P Traj Action Own Extra : Type}.
Context {Shape State Obs Cor Model3D Time : Type}.
Variable reload : P -> P.                       (* PythonToParams (ParamsToPython p) *)
Variable child : P -> P.                        (* AddChild("BehaviorSafety") etc. *)
Variable no_traj : Traj.                        (* Trajectory() *)
Variable start_action : btype -> P -> Own -> Action.   (* last action after construction *)
Variable start_extra : btype -> P -> Own -> Extra.     (* other members after construction *)
Variable no_own : Own.
Variable no_model3d : Model3D.

(** A behavior model: type, parameters, other constructor arguments, the models
    inside (BehaviorSafety: one; BehaviorRSSConformant: nominal, safety), last
    trajectory (behavior_model.hpp), last action, other members. *)
Inductive beh := Beh (t : btype) (p : P) (own : Own) (inner : list beh)
                     (traj : Traj) (action : Action) (extra : Extra).

Definition b_type (b : beh) := let 'Beh t _ _ _ _ _ _ := b in t.
Definition b_params (b : beh) := let 'Beh _ p _ _ _ _ _ := b in p.
Definition b_own (b : beh) := let 'Beh _ _ o _ _ _ _ := b in o.
Definition b_inner (b : beh) := let 'Beh _ _ _ i _ _ _ := b in i.
Definition b_traj (b : beh) := let 'Beh _ _ _ _ t _ _ := b in t.
Definition b_action (b : beh) := let 'Beh _ _ _ _ _ a _ := b in a.
Definition b_extra (b : beh) := let 'Beh _ _ _ _ _ _ e := b in e.

(** behavior_model.hpp 98-101 SetLastTrajectory *)
Definition set_traj (b : beh) (t : Traj) : beh :=
  let 'Beh ty p o i _ a e := b in Beh ty p o i t a e.

(** A model built by its constructor. *)
Definition construct (t : btype) (p : P) (own : Own) (inner : list beh) : beh :=
  Beh t p own inner no_traj (start_action t p own) (start_extra t p own).

(** behavior_safety.hpp 33-42: the inner model is a lane tracking IDM *)
Definition construct_safety (p : P) : beh :=
  construct Safety p no_own [construct IDMLaneTracking (child p) no_own []].

(** The pickled tuple: the type name, the parameters, for the models with a
    second entry the primitives or the trajectory, for Safety and RSS the
    parameters of the inner models. *)
Record pbeh := { pb_type : btype; pb_params : P; pb_own : Own; pb_inner : list P }.

(** polymorphic_conversion.cpp 144-217 (BehaviorModelToPython, its LOG(FATAL)
    for a type not listed) and the first functions of the pickles in
    models/behavior.cpp; the caller has checked the pointer. *)
Definition pickle_beh (b : beh) : pres pbeh :=
  match b_type b with
  | MPContinuousActions => PCrash
  | t => POk {| pb_type := t; pb_params := b_params b; pb_own := b_own b;
                pb_inner := map b_params (b_inner b) |}
  end.

(** polymorphic_conversion.cpp 219-301 (PythonToBehaviorModel) and the second
    functions of the pickles in models/behavior.cpp: 418-433 for Safety,
    467-487 for RSS. *)
Definition unpickle_beh (x : pbeh) : beh :=
  let p := reload (pb_params x) in
  match pb_type x with
  | Safety =>
      construct Safety p no_own
        (map (fun q => construct IDMLaneTracking (reload q) no_own []) (pb_inner x))
  | RSSConformant =>
      construct RSSConformant p no_own
        (match pb_inner x with
         | [n; s] => [construct IDMLaneTracking (reload n) no_own []; construct_safety (reload s)]
         | _ => []
         end)
  | t => construct t p (pb_own x) []
  end.

(** Goal definitions: polymorphic_conversion.cpp 303-341, goal_definition.cpp.
    The stateless kinds come back as they were; a sequential goal is the list
    of its parts and starts over (goal_definition.cpp 141-157). *)
Inductive pgoal := PAtom (g : Obs -> bool) | PSeq (l : list pgoal).

Fixpoint pickle_goal (g : goal Obs) : pgoal :=
  match g with
  | GAtom f => PAtom f
  | GSeq l _ => PSeq (map pickle_goal l)
  end.

Fixpoint unpickle_goal (x : pgoal) : goal Obs :=
  match x with
  | PAtom f => GAtom f
  | PSeq l => GSeq (map unpickle_goal l) (-1)%Z
  end.

(** world/objects/agent.hpp, object.hpp.  [a_exec]: the kind of execution model
    and its last trajectory. *)
Record agent := {
  a_id : N;
  a_shape : Shape;
  a_model3d : Model3D;
  a_params : option P;
  a_behavior : option beh;
  a_dynamic : option (dtype * P);
  a_exec : etype * Traj;
  a_history : list (State * Action);
  a_max_history : nat;
  a_first_valid : Time;
  a_goal : option (goal Obs);
  a_corridor : option Cor;
  a_corridor_ids : list N;
  a_corridor_dir : bool
}.

(** Agent::GetCurrentState, agent.hpp 122: history_.back().first *)
Definition current_state (a : agent) : option State :=
  match rev (a_history a) with [] => None | x :: _ => Some (fst x) end.

(** The tuple of agent.cpp 70-83 without the entries the second function does
    not read. *)
Record pagent := {
  pa_history : list (State * Action); pa_shape : Shape; pa_id : N; pa_traj : Traj;
  pa_behavior : pbeh; pa_exec : etype; pa_dynamic : dtype * P; pa_state : State;
  pa_first_valid : Time; pa_goal : pgoal; pa_ids : list N; pa_dir : bool }.

(** agent.cpp 67-84.  A missing behavior model: GetBehaviorTrajectory uses a
    null pointer.  A missing goal or dynamic model: std::bad_typeid.  An
    execution model other than ExecutionModelInterpolate has no pickle
    function. A dynamic model not listed (polymorphic_conversion.cpp 343-355):
    throw; outside a handler. *)
Definition pickle_agent (a : agent) : pres pagent :=
  match a_behavior a with
  | None => PCrash
  | Some b =>
      pbind (pickle_beh b) (fun pb =>
      match a_exec a with
      | (Mpc, _) => PRaise
      | (Interpolate, _) =>
          match a_dynamic a with
          | None => PRaise
          | Some (TripleIntegrator, _) => PCrash
          | Some d =>
              match a_goal a, current_state a with
              | None, _ => PRaise
              | _, None => PCrash
              | Some g, Some s =>
                  POk {| pa_history := a_history a; pa_shape := a_shape a; pa_id := a_id a;
                         pa_traj := b_traj b; pa_behavior := pb; pa_exec := Interpolate;
                         pa_dynamic := d; pa_state := s; pa_first_valid := a_first_valid a;
                         pa_goal := pickle_goal g; pa_ids := a_corridor_ids a;
                         pa_dir := a_corridor_dir a |}
              end
          end
      end)
  end.

(** agent.cpp 85-107: the constructor (agent.cpp of the library, 19-60, without
    parameters: a history of at most 30 entries) and the setters. *)
Definition unpickle_agent (x : pagent) : agent :=
  {| a_id := pa_id x;
     a_shape := pa_shape x;
     a_model3d := no_model3d;
     a_params := None;
     a_behavior := Some (set_traj (unpickle_beh (pa_behavior x)) (pa_traj x));
     a_dynamic := Some (fst (pa_dynamic x), reload (snd (pa_dynamic x)));
     a_exec := (Interpolate, no_traj);
     a_history := pa_history x;
     a_max_history := 30;
     a_first_valid := pa_first_valid x;
     a_goal := Some (unpickle_goal (pa_goal x));
     a_corridor := None;
     a_corridor_ids := pa_ids x;
     a_corridor_dir := pa_dir x |}.

(** copy.deepcopy of one agent. *)
Definition copy_agent (a : agent) : pres agent :=
  pbind (pickle_agent a) (fun x => POk (unpickle_agent x)).

(** Agent::UpdateStateAction, agent.cpp 86-95, on the history. *)
Definition push_history (a : agent) (x : State * Action) : agent :=
  let h := a_history a ++ [x] in
  {| a_id := a_id a; a_shape := a_shape a; a_model3d := a_model3d a; a_params := a_params a;
     a_behavior := a_behavior a; a_dynamic := a_dynamic a; a_exec := a_exec a;
     a_history := if Nat.ltb (a_max_history a) (length h) then tl h else h;
     a_max_history := a_max_history a; a_first_valid := a_first_valid a; a_goal := a_goal a;
     a_corridor := a_corridor a; a_corridor_ids := a_corridor_ids a;
     a_corridor_dir := a_corridor_dir a |}.

(** Agent::GenerateRoadCorridor, agent.cpp 97-133, for an OpenDRIVE map:
    [search] is map_interface->GenerateRoadCorridor(position, goal shape) with
    the road ids and direction of its result (None: the null corridor is used),
    [build] is GenerateRoadCorridor(ids, direction) followed by GetRoadCorridor. *)
Definition generate_corridor (search : State -> goal Obs -> option (Cor * list N * bool))
    (build : list N -> bool -> option Cor) (a : agent) : pres (agent * bool) :=
  let set c ids dir :=
    {| a_id := a_id a; a_shape := a_shape a; a_model3d := a_model3d a; a_params := a_params a;
       a_behavior := a_behavior a; a_dynamic := a_dynamic a; a_exec := a_exec a;
       a_history := a_history a; a_max_history := a_max_history a;
       a_first_valid := a_first_valid a; a_goal := a_goal a;
       a_corridor := c; a_corridor_ids := ids; a_corridor_dir := dir |} in
  match a_goal a, a_corridor_ids a, current_state a with
  | Some g, [], Some s =>
      match search s g with
      | None => PCrash
      | Some (c, ids, dir) => POk (set (Some c) ids dir, true)
      end
  | _, (_ :: _) as ids, _ =>
      match build ids (a_corridor_dir a) with
      | None => POk (set None ids (a_corridor_dir a), false)
      | Some c => POk (set (Some c) ids (a_corridor_dir a), true)
      end
  | _, [], _ => POk (a, false)
  end.

End Pickle.
