(* The simulation core: bark/world/world.{hpp,cpp}, bark/world/objects/{agent,object}.{hpp,cpp},
   bark/world/observed_world.{hpp,cpp}.

   Behaviour, execution, dynamic and observer models are virtual classes in the code; here they are
   arbitrary types with arbitrary total operations (Section variables), so every theorem holds for
   every implementation. Objects are values; two agents sharing one model object through the same
   shared_ptr is outside this file (aliasing is treated in Model_Heap.v). A behaviour's Plan gets the
   observed world by value, i.e. it is assumed not to mutate it through the contained pointers.
   [None] is undefined behaviour / a crash of the C++ program (read of an empty history through
   history_.back(), null map, null agent pointer). Doubles are exact rationals. *)
From Coq Require Import List NArith QArith Bool.
From Verif Require Import Model_Map.
Import ListNotations.

(* bark/models/behavior/behavior_model.hpp:82-86 *)
Inductive bstatus := NOT_STARTED_YET | VALID | EXPIRED.
(* bark/models/execution/execution_model.hpp: enum ExecutionStatus *)
Inductive estatus := E_INVALID | E_VALID.

Definition is_valid (s : bstatus) : bool := match s with VALID => true | _ => false end.
Definition is_expired (s : bstatus) : bool := match s with EXPIRED => true | _ => false end.
Definition is_evalid (s : estatus) : bool := match s with E_VALID => true | _ => false end.

(* std::numeric_limits<double>::epsilon() = 2^-52 (used in agent.cpp:179) *)
Definition dbl_epsilon : Q := 1 # 4503599627370496.

Definition AgentId := N.

(* back() of a std::vector; None = undefined behaviour on an empty vector *)
Fixpoint last_opt {A} (l : list A) : option A :=
  match l with [] => None | [x] => Some x | _ :: r => last_opt r end.

(* monadic map over an association list (a for loop whose body may hit UB) *)
Fixpoint mapM_kv {A B} (f : N -> A -> option B) (l : list (N * A)) : option (list (N * B)) :=
  match l with
  | [] => Some []
  | (k, a) :: r =>
      match f k a with
      | None => None
      | Some b => match mapM_kv f r with None => None | Some r' => Some ((k, b) :: r') end
      end
  end.

(* The types the program is parametric in. *)
Record Types := mkTypes {
  (* value types of the program *)
  tState : Type; tAction : Type; tTraj : Type;
  (* model objects: behaviour, execution, dynamic model, goal definition *)
  tBM : Type; tEM : Type; tDM : Type; tGD : Type;
  (* Polygon shape, R-tree bounding box, map bounding box, 2-d point, query polygon *)
  tShape : Type; tBox : Type; tMapBox : Type; tPoint : Type; tPoly : Type;
  (* stored snapshot of the last observed world (agent.hpp:204-210), opaque *)
  tSensed : Type;
  (* observer model state (random generator of a noisy observer), evaluators, objects *)
  tOS : Type; tEv : Type; tObj : Type }.

Section Data.
  Context {T : Types}.
  Notation State := (tState T).   Notation Action := (tAction T).
  Notation BM := (tBM T).         Notation EM := (tEM T).
  Notation DM := (tDM T).         Notation GD := (tGD T).
  Notation Shape := (tShape T).   Notation Box := (tBox T).
  Notation MapBox := (tMapBox T). Notation Sensed := (tSensed T).
  Notation OS := (tOS T).         Notation Ev := (tEv T).       Notation Obj := (tObj T).

  (* bark/world/objects/agent.hpp:214-227 and object.hpp:46-49. road_corridor_ and its ids are not
     modelled here (never read by the functions of this file). Models are assumed non-null. *)
  Record agent := mkAgent {
    ag_id : AgentId;
    ag_shape : Shape;
    ag_bm : BM;
    ag_dm : DM;
    ag_em : EM;
    ag_goal : option GD;
    ag_hist : list (State * Action);     (* oldest first *)
    ag_max : nat;                        (* max_history_length_ *)
    ag_first : Q;                        (* first_valid_timestamp_ *)
    ag_sensed : option Sensed }.

  (* bark/world/world.hpp:216-227. rtree_agents_ is the list of its (box,id) values; map_ is reduced
     to its bounding box (None = null map pointer); renderer and params are not modelled. *)
  Record world := mkWorld {
    w_time : Q;
    w_agents : kmap agent;
    w_objects : kmap Obj;
    w_evals : list (N * Ev);             (* evaluators_, keyed by name (names as numbers) *)
    w_observer : OS;
    w_rtree : list (Box * AgentId);
    w_map : option MapBox;
    w_remove : bool;
    w_latthr : Q;
    w_maxfr : N }.

  (* bark/world/observed_world.hpp:44-45, 161 *)
  Record observed := mkObserved { ow_world : world; ow_ego : AgentId }.

End Data.
Arguments agent : clear implicits.
Arguments world : clear implicits.
Arguments observed : clear implicits.

(* The virtual methods and external library calls the core relies on. *)
Record Ops (T : Types) := mkOps {
  (* behaviour model operations (bark/models/behavior/behavior_model.hpp:112-137) *)
  b_status : tBM T -> bstatus;
  b_plan : tBM T -> Q -> observed T -> tBM T;
  b_last_traj : tBM T -> tTraj T;
  b_last_action : tBM T -> tAction T;
  b_clone : tBM T -> tBM T;
  (* execution model operations (bark/models/execution/execution_model.hpp) *)
  e_status : tEM T -> estatus;
  e_execute : tEM T -> Q -> tTraj T -> tDM T -> tEM T;
  e_state : tEM T -> tState T;
  e_clone : tEM T -> tEM T;
  d_clone : tDM T -> tDM T;
  g_clone : tGD T -> tGD T;
  obj_clone : tObj T -> tObj T;
  obj_id : tObj T -> AgentId;
  (* observer_->Observe (bark/models/observer/observer_model.hpp); threads the observer's state *)
  observe : tOS T -> world T -> AgentId -> tOS T * observed T;
  sense : observed T -> tSensed T;
  (* envelope(GetPolygonFromState(state)) (world.cpp:172-176) and box-within (world.cpp:188) *)
  envelope : tShape T -> tState T -> tBox T;
  box_within : tBox T -> tMapBox T -> bool;
  (* boost rtree nearest(p, k) query (world.cpp:214) *)
  knn : list (tBox T * AgentId) -> tPoint T -> nat -> list (tBox T * AgentId);
  (* intersects(box of polygon) query (world.cpp:235) and geometric Collide (world.cpp:241) *)
  box_hits : tBox T -> tPoly T -> bool;
  collide : tShape T -> tState T -> tPoly T -> bool }.
Arguments b_status {T} _.
Arguments b_plan {T} _.
Arguments b_last_traj {T} _.
Arguments b_last_action {T} _.
Arguments b_clone {T} _.
Arguments e_status {T} _.
Arguments e_execute {T} _.
Arguments e_state {T} _.
Arguments e_clone {T} _.
Arguments d_clone {T} _.
Arguments g_clone {T} _.
Arguments obj_clone {T} _.
Arguments obj_id {T} _.
Arguments observe {T} _.
Arguments sense {T} _.
Arguments envelope {T} _.
Arguments box_within {T} _.
Arguments knn {T} _.
Arguments box_hits {T} _.
Arguments collide {T} _.

Section World.
  Context {T : Types} (O : Ops T).
  Notation State := (tState T).   Notation Action := (tAction T).
  Notation BM := (tBM T).         Notation EM := (tEM T).
  Notation DM := (tDM T).         Notation GD := (tGD T).
  Notation Shape := (tShape T).   Notation Box := (tBox T).
  Notation Sensed := (tSensed T). Notation OS := (tOS T).       Notation Obj := (tObj T).
  Notation agent := (agent T).    Notation world := (world T).  Notation observed := (observed T).

  Definition set_agents (w : world) (m : kmap agent) : world :=
    mkWorld (w_time w) m (w_objects w) (w_evals w) (w_observer w) (w_rtree w) (w_map w)
            (w_remove w) (w_latthr w) (w_maxfr w).
  Definition set_rtree (w : world) (t : list (Box * AgentId)) : world :=
    mkWorld (w_time w) (w_agents w) (w_objects w) (w_evals w) (w_observer w) t (w_map w)
            (w_remove w) (w_latthr w) (w_maxfr w).
  Definition set_time (w : world) (t : Q) : world :=
    mkWorld t (w_agents w) (w_objects w) (w_evals w) (w_observer w) (w_rtree w) (w_map w)
            (w_remove w) (w_latthr w) (w_maxfr w).
  Definition set_observer (w : world) (o : OS) : world :=
    mkWorld (w_time w) (w_agents w) (w_objects w) (w_evals w) o (w_rtree w) (w_map w)
            (w_remove w) (w_latthr w) (w_maxfr w).
  Definition set_objects (w : world) (m : kmap Obj) : world :=
    mkWorld (w_time w) (w_agents w) m (w_evals w) (w_observer w) (w_rtree w) (w_map w)
            (w_remove w) (w_latthr w) (w_maxfr w).
  Definition set_bm (a : agent) (b : BM) : agent :=
    mkAgent (ag_id a) (ag_shape a) b (ag_dm a) (ag_em a) (ag_goal a) (ag_hist a) (ag_max a)
            (ag_first a) (ag_sensed a).
  Definition set_em (a : agent) (e : EM) : agent :=
    mkAgent (ag_id a) (ag_shape a) (ag_bm a) (ag_dm a) e (ag_goal a) (ag_hist a) (ag_max a)
            (ag_first a) (ag_sensed a).
  Definition set_hist (a : agent) (h : list (State * Action)) : agent :=
    mkAgent (ag_id a) (ag_shape a) (ag_bm a) (ag_dm a) (ag_em a) (ag_goal a) h (ag_max a)
            (ag_first a) (ag_sensed a).
  (* agent.hpp:204-206 *)
  Definition set_sensed (a : agent) (s : Sensed) : agent :=
    mkAgent (ag_id a) (ag_shape a) (ag_bm a) (ag_dm a) (ag_em a) (ag_goal a) (ag_hist a) (ag_max a)
            (ag_first a) (Some s).

  (* agent.cpp:19-62 : a fresh agent's history holds the initial state and the behaviour's last
     action (id, shape, models given; the road-corridor part of the constructor is not modelled). *)
  Definition new_agent (id : AgentId) (sh : Shape) (init : State) (b : BM) (d : DM) (e : EM)
             (g : option GD) (maxh : nat) (first : Q) : agent :=
    mkAgent id sh b d e g [(init, b_last_action O b)] maxh first None.

  (* agent.hpp:122 GetCurrentState = history_.back().first *)
  Definition current_state (a : agent) : option State := option_map fst (last_opt (ag_hist a)).

  (* agent.cpp:178-181 IsValidAtTime *)
  Definition valid_at (a : agent) (t : Q) : bool := Qle_bool (ag_first a) (t + dbl_epsilon).

  (* agent.cpp:89-98 UpdateStateAction *)
  Definition update_state_action (a : agent) : agent :=
    let h := ag_hist a ++ [(e_state O (ag_em a), b_last_action O (ag_bm a))] in
    set_hist a (if Nat.ltb (ag_max a) (length h) then tl h else h).

  (* agent.cpp:79-82 PlanBehavior *)
  Definition plan_behavior (a : agent) (dt : Q) (ow : observed) : agent :=
    set_bm a (b_plan O (ag_bm a) dt ow).
  (* agent.cpp:84-87 PlanExecution *)
  Definition plan_execution (a : agent) (t : Q) : agent :=
    set_em a (e_execute O (ag_em a) t (b_last_traj O (ag_bm a)) (ag_dm a)).

  (* agent.cpp:183-199 Clone (and the copy constructor 64-77) *)
  Definition clone_agent (a : agent) : agent :=
    mkAgent (ag_id a) (ag_shape a) (b_clone O (ag_bm a)) (d_clone O (ag_dm a)) (e_clone O (ag_em a))
            (option_map (g_clone O) (ag_goal a)) (ag_hist a) (ag_max a) (ag_first a) (ag_sensed a).

  (* world.hpp:124-131 GetAgent *)
  Definition get_agent (w : world) (id : AgentId) : option agent := m_find id (w_agents w).
  (* world.cpp:131-133 AddAgent *)
  Definition add_agent (w : world) (a : agent) : world :=
    set_agents w (m_insert (ag_id a) a (w_agents w)).
  (* world.cpp:135-137 AddObject *)
  Definition add_object (w : world) (o : Obj) : world :=
    set_objects w (m_insert (obj_id O o) o (w_objects w)).
  (* world.cpp:319-323 RemoveAgentById *)
  Definition remove_agent_by_id (w : world) (id : AgentId) : world :=
    set_agents w (m_erase id (w_agents w)).

  (* world.cpp:169-179 UpdateAgentRTree *)
  Definition update_rtree (w : world) : option world :=
    match mapM_kv (fun _ a => option_map (envelope O (ag_shape a)) (current_state a)) (w_agents w) with
    | None => None
    | Some l => Some (set_rtree w (map (fun p => (snd p, fst p)) l))
    end.

  (* world.hpp:232-246 Clone: make_shared<World>( *this) keeps time, observer, rtree, map and
     settings; agents and objects are re-inserted as clones; evaluator pointers are shared. *)
  Definition clone_world (w : world) : world :=
    fold_left (fun w' p => add_object w' (obj_clone O (snd p))) (w_objects w)
      (fold_left (fun w' p => add_agent w' (clone_agent (snd p))) (w_agents w)
         (set_objects (set_agents w []) [])).

  (* world.cpp:74-83, the loop body of PlanAgents for one agent already handed its observed world *)
  Definition plan_agent (a : agent) (t dt : Q) (ow : observed) : agent :=
    let a1 := plan_behavior (set_sensed a (sense O ow)) dt ow in
    if is_valid (b_status O (ag_bm a1)) then plan_execution a1 (t + dt) else a1.

  (* world.cpp:74-83 the loop of PlanAgents over agents_ against the clone [cw] *)
  Fixpoint plan_loop (o : OS) (cw : world) (t dt : Q) (l : kmap agent) : OS * kmap agent :=
    match l with
    | [] => (o, [])
    | (id, a) :: r =>
        if valid_at a t then
          let oo := observe O o cw id in
          let res := plan_loop (fst oo) cw t dt r in
          (fst res, (id, plan_agent a t dt (snd oo)) :: snd res)
        else
          let res := plan_loop o cw t dt r in (fst res, (id, a) :: snd res)
    end.

  (* world.cpp:70-84 PlanAgents *)
  Definition plan_agents (w : world) (dt : Q) : option world :=
    match update_rtree w with
    | None => None
    | Some w1 =>
        let res := plan_loop (w_observer w1) (clone_world w1) (w_time w1) dt (w_agents w1) in
        Some (set_observer (set_agents w1 (snd res)) (fst res))
    end.

  (* world.cpp:89-99 loop body of Execute. Reading the new current state for the time check is UB on
     an empty history; the check itself (BARK_EXPECT_TRUE) only logs. *)
  Definition execute_agent (t : Q) (a : agent) : option agent :=
    if valid_at a t && is_valid (b_status O (ag_bm a)) && is_evalid (e_status O (ag_em a)) then
      let a' := update_state_action a in
      match current_state a' with None => None | Some _ => Some a' end
    else Some a.

  (* world.cpp:190-196 one element of the R-tree query result *)
  Definition remove_outside_one (t : Q) (m : kmap agent) (id : AgentId) : kmap agent :=
    match m_find id m with
    | None => m
    | Some a => if is_valid (b_status O (ag_bm a)) && valid_at a t then m_erase id m else m
    end.

  (* world.cpp:181-208 RemoveInvalidAgents *)
  Definition remove_invalid (w : world) : option world :=
    let after_map :=
      if w_remove w then
        match w_map w with
        | None => None
        | Some mb =>
            let hits := filter (fun p => negb (box_within O (fst p) mb)) (w_rtree w) in
            Some (fold_left (remove_outside_one (w_time w)) (map snd hits) (w_agents w))
        end
      else Some (w_agents w) in
    match after_map with
    | None => None
    | Some m =>
        update_rtree
          (set_agents w (filter (fun p => negb (is_expired (b_status O (ag_bm (snd p))))) m))
    end.

  (* world.cpp:86-104 Execute *)
  Definition execute (w : world) (dt : Q) : option world :=
    match mapM_kv (fun _ a => execute_agent (w_time w) a) (w_agents w) with
    | None => None
    | Some m =>
        match remove_invalid (set_agents w m) with
        | None => None
        | Some w' => Some (set_time w' (w_time w + dt))
        end
    end.

  (* world.cpp:65-68 Step *)
  Definition step (w : world) (dt : Q) : option world :=
    match plan_agents w dt with None => None | Some w1 => execute w1 dt end.

  (* a run: successive Steps with given step sizes *)
  Fixpoint run (w : world) (dts : list Q) : option world :=
    match dts with
    | [] => Some w
    | dt :: r => match step w dt with None => None | Some w' => run w' r end
    end.

  (* world.cpp:116-129 GetValidAgents *)
  Definition get_valid_agents (w : world) : kmap agent :=
    filter (fun p => is_valid (b_status O (ag_bm (snd p))) && valid_at (snd p) (w_time w)) (w_agents w).

  (* world.cpp:106-114 GetWorldAtTime: every cloned agent is executed at the given time if VALID,
     and its history updated unconditionally *)
  Definition get_world_at_time (w : world) (t : Q) : world :=
    let cw := clone_world w in
    set_agents cw
      (map (fun p =>
              (fst p, update_state_action
                        (if is_valid (b_status O (ag_bm (snd p))) then plan_execution (snd p) t
                         else snd p))) (w_agents cw)).

  (* world.cpp:152-167 Observe: unknown ids are skipped *)
  Fixpoint observe_ids (o : OS) (w cw : world) (ids : list AgentId) : OS * list observed :=
    match ids with
    | [] => (o, [])
    | id :: r =>
        match get_agent w id with
        | None => observe_ids o w cw r
        | Some _ =>
            let oo := observe O o cw id in
            let res := observe_ids (fst oo) w cw r in
            (fst res, snd oo :: snd res)
        end
    end.
  Definition observe_world (w : world) (ids : list AgentId) : OS * list observed :=
    observe_ids (w_observer w) w (clone_world w) ids.

  (* observed_world.hpp:149-154 Clone, observed_world.cpp:95-100 Predict(time_span) *)
  Definition clone_observed (ow : observed) : observed :=
    mkObserved (clone_world (ow_world ow)) (ow_ego ow).
  Definition predict (ow : observed) (dt : Q) : option observed :=
    option_map (fun w => mkObserved w (ow_ego ow)) (step (ow_world (clone_observed ow)) dt).

  (* observed_world.cpp:171-177 ObserveForOtherAgent *)
  Definition observe_for_other (ow : observed) (other : AgentId) : observed :=
    mkObserved (ow_world (clone_observed ow)) other.

  (* observed_world.cpp:187-191 GetValidOtherAgents, observed_world.hpp:81-85 GetOtherAgents *)
  Definition get_valid_other_agents (ow : observed) : kmap agent :=
    m_erase (ow_ego ow) (get_valid_agents (ow_world ow)).
  Definition get_other_agents (ow : observed) : kmap agent :=
    m_erase (ow_ego ow) (w_agents (ow_world ow)).

  (* world.cpp:217-225 / 238-247: turning a list of index entries into a map of agents; [keep] is the
     extra filter. A null agent pointer is dereferenced (None) when the index is stale. *)
  Fixpoint collect_agents (w : world) (keep : agent -> option bool) (l : list (Box * AgentId))
           (acc : kmap agent) : option (kmap agent) :=
    match l with
    | [] => Some acc
    | (_, id) :: r =>
        match get_agent w id with
        | None => None
        | Some a =>
            match keep a with
            | None => None
            | Some b => collect_agents w keep r (if b then m_insert id a acc else acc)
            end
        end
    end.

  (* world.cpp:210-226 GetNearestAgents *)
  Definition get_nearest_agents (w : world) (p : tPoint T) (k : nat) : option (kmap agent) :=
    collect_agents w (fun a => Some (is_valid (b_status O (ag_bm a)) && valid_at a (w_time w)))
      (knn O (w_rtree w) p k) [].

  (* world.cpp:228-249 GetAgentsIntersectingPolygon *)
  Definition get_agents_intersecting (w : world) (pg : tPoly T) : option (kmap agent) :=
    collect_agents w
      (fun a => match current_state a with
                | None => None
                | Some s => Some (collide O (ag_shape a) s pg && is_valid (b_status O (ag_bm a))
                                  && valid_at a (w_time w))
                end)
      (filter (fun e => box_hits O (fst e) pg) (w_rtree w)) [].
End World.

(* object.cpp:15-22: the global counter agent_count (unsigned int, 32 bit) hands out ids. *)
Definition next_object_id (count : N) : N * N := (count, (count + 1) mod 4294967296)%N.
Fixpoint object_ids (count : N) (n : nat) : list N :=
  match n with
  | O => []
  | S n' => fst (next_object_id count) :: object_ids (snd (next_object_id count)) n'
  end.
