(* Pointer-level model of World::Clone, Step and Predict: which objects are copied, which are shared
   through shared_ptr and which are written. Payloads of models are abstract ([D]); everything a
   behaviour or observer computes is an arbitrary function of the whole heap. *)
From Coq Require Import List NArith ZArith QArith Bool Arith.
From Verif Require Import Model_Map.
Import ListNotations.

Definition loc := nat.

Section Heap.
  Variable D : Type.    (* payload of a model object: parameters, last action, last trajectory, status, RNG ... *)
  Variable H : Type.    (* one history entry *)

  (* An agent object (bark/world/objects/agent.hpp:221-243): pointers to its models, its history.
     Shape, road corridor and other never-written fields are omitted. *)
  Record hagent := mkHA { ha_id : N; ha_bm : loc; ha_dm : loc; ha_em : loc; ha_goal : option loc;
                          ha_hist : list H; ha_max : nat }.
  (* A heap object. [CModel d subs]: any model (behaviour, dynamic, execution, goal definition,
     observer, evaluator, plain object): payload plus the shared_ptr members pointing to further
     model objects, e.g. BehaviorSafety::behavior_model_ (behavior_safety.hpp:77),
     BehaviorRSSConformant::nominal_behavior_model_ (behavior_rss.hpp), GoalDefinitionSequential::
     sequential_goals_ (goal_definition_sequential.hpp:60). *)
  Inductive cell := CModel (d : D) (subs : list loc) | CAgent (a : hagent).

  (* The heap; allocation appends, nothing is freed (a shared_ptr keeps its object alive). *)
  Definition heap := list cell.
  Definition hget (h : heap) (l : loc) : option cell := nth_error h l.
  Fixpoint hset (h : heap) (l : loc) (c : cell) : heap :=
    match h, l with
    | [], _ => []
    | _ :: r, O => c :: r
    | x :: r, S l' => x :: hset r l' c
    end.
  Definition alloc (h : heap) (c : cell) : heap * loc := (h ++ [c], length h).

  (* world.hpp:216-227: the members of a World *)
  Record hworld := mkHW { hw_time : Q; hw_agents : kmap loc; hw_objects : kmap loc;
                          hw_evals : list loc; hw_observer : loc }.
  Definition hw_set_agents (w : hworld) (m : kmap loc) : hworld :=
    mkHW (hw_time w) m (hw_objects w) (hw_evals w) (hw_observer w).

  (* X::Clone() = make_shared<X>( *this): a new object whose shared_ptr members point to the same
     objects (e.g. behavior_safety.hpp:82-85, behavior_rss.hpp:216-220,
     goal_definition_sequential.hpp:64-66, single_track.hpp:77-80). [copy] is the payload copy. *)
  Variable copy : D -> D.
  Definition clone_model (h : heap) (l : loc) : heap * loc :=
    match hget h l with
    | Some (CModel d subs) => alloc h (CModel (copy d) subs)
    | _ => (h, l)      (* not a model: ill-formed, excluded by well-formedness *)
    end.
  Definition clone_opt (h : heap) (l : option loc) : heap * option loc :=
    match l with None => (h, None) | Some l => let r := clone_model h l in (fst r, Some (snd r)) end.

  (* agent.cpp:183-199 *)
  Definition hclone_agent (h : heap) (l : loc) : heap * loc :=
    match hget h l with
    | Some (CAgent a) =>
        let r1 := clone_model h (ha_bm a) in
        let r2 := clone_model (fst r1) (ha_dm a) in
        let r3 := clone_model (fst r2) (ha_em a) in
        let r4 := clone_opt (fst r3) (ha_goal a) in
        alloc (fst r4) (CAgent (mkHA (ha_id a) (snd r1) (snd r2) (snd r3) (snd r4) (ha_hist a) (ha_max a)))
    | _ => (h, l)
    end.

  Fixpoint clone_all (f : heap -> loc -> heap * loc) (h : heap) (m : kmap loc) : heap * kmap loc :=
    match m with
    | [] => (h, [])
    | (k, l) :: r =>
        let x := f h l in
        let y := clone_all f (fst x) r in
        (fst y, (k, snd x) :: snd y)
    end.

  (* world.hpp:232-246: agents and objects are cloned, evaluators and the observer shared *)
  Definition hclone_world (h : heap) (w : hworld) : heap * hworld :=
    let r1 := clone_all hclone_agent h (hw_agents w) in
    let r2 := clone_all clone_model (fst r1) (hw_objects w) in
    (fst r2, mkHW (hw_time w) (snd r1) (snd r2) (hw_evals w) (hw_observer w)).

  (* world.cpp:152-167 World::Observe with an ObserverModelNone (observer_model_none.hpp:47-53) and the
     ObservedWorld constructor (observed_world.hpp:44-45, world.cpp:48-63): the world is cloned ONCE; every
     observed world copies the clone's member variables, i.e. its map of agent pointers. Ids that are not in
     the world are skipped. *)
  Definition hobserve (h : heap) (w : hworld) (ids : list N) : heap * list (hworld * N) :=
    let c := hclone_world h w in
    (fst c, map (fun id => (snd c, id))
              (filter (fun id => match m_find id (hw_agents w) with Some _ => true | None => false end) ids)).

  (* Oracles: everything the models compute. They may read the whole heap. *)
  Record oracles := mkOr {
    o_observe : heap -> hworld -> N -> D -> D;            (* ObserverModel::Observe: new observer state *)
    o_plan : heap -> hworld -> N -> Q -> loc -> D -> D;   (* BehaviorModel::Plan: new payload *)
    o_exec : Q -> D -> D -> D -> D;                       (* ExecutionModel::Execute t traj dm: new payload *)
    o_entry : D -> D -> H;                                (* executed state and last action *)
    o_goes : heap -> hworld -> N -> bool;                 (* plans (valid at time) *)
    o_moves : D -> D -> bool;                             (* behaviour and execution VALID *)
    o_removed : heap -> hworld -> N -> bool;              (* RemoveInvalidAgents *)
    o_eval : heap -> hworld -> D -> D                     (* Evaluator::Evaluate: new evaluator state *)
  }.

  Definition wr_model (h : heap) (l : loc) (f : D -> D) : heap :=
    match hget h l with Some (CModel d subs) => hset h l (CModel (f d) subs) | _ => h end.
  Definition payload (h : heap) (l : loc) : option D :=
    match hget h l with Some (CModel d _) => Some d | _ => None end.

  (* Plan of a possibly composite behaviour: inner models are planned first, then the own members are
     written (behavior_safety.cpp:20-42, behavior_rss.cpp Plan). [fuel] bounds the nesting depth and
     is universally quantified in the theorems. *)
  Fixpoint plan_model (R : oracles) (cw : hworld) (id : N) (dt : Q) (fuel : nat) (h : heap) (l : loc) : heap :=
    match fuel with
    | O => h
    | S n =>
        match hget h l with
        | Some (CModel _ subs) =>
            let h1 := fold_left (fun h' s => plan_model R cw id dt n h' s) subs h in
            wr_model h1 l (o_plan R h1 cw id dt l)
        | _ => h
        end
    end.

  (* world.cpp:74-83 one agent of PlanAgents. Execution runs if behaviour VALID; whether it does is
     part of the oracle [o_exec]. *)
  Definition hplan_agent (R : oracles) (cw : hworld) (t dt : Q) (fuel : nat) (h : heap) (p : N * loc) : heap :=
    match hget h (snd p) with
    | Some (CAgent a) =>
        if o_goes R h cw (fst p) then
          let h0 := wr_model h (hw_observer cw) (o_observe R h cw (fst p)) in
          let h1 := plan_model R cw (fst p) dt fuel h0 (ha_bm a) in
          match payload h1 (ha_bm a), payload h1 (ha_dm a) with
          | Some b, Some d => wr_model h1 (ha_em a) (o_exec R (t + dt) b d)
          | _, _ => h1
          end
        else h
    | _ => h
    end.

  (* world.cpp:89-99 one agent of Execute; agent.cpp:89-98 UpdateStateAction *)
  Definition hexec_agent (R : oracles) (h : heap) (p : N * loc) : heap :=
    match hget h (snd p) with
    | Some (CAgent a) =>
        match payload h (ha_bm a), payload h (ha_em a) with
        | Some b, Some e =>
            if o_moves R b e then
              let hist := ha_hist a ++ [o_entry R e b] in
              hset h (snd p) (CAgent (mkHA (ha_id a) (ha_bm a) (ha_dm a) (ha_em a) (ha_goal a)
                                        (if Nat.ltb (ha_max a) (length hist) then tl hist else hist) (ha_max a)))
            else h
        | _, _ => h
        end
    | _ => h
    end.

  (* world.cpp:65-104, 181-208 Step *)
  Definition hstep (R : oracles) (dt : Q) (fuel : nat) (h : heap) (w : hworld) : heap * hworld :=
    let c := hclone_world h w in
    let h1 := fold_left (hplan_agent R (snd c) (hw_time w) dt fuel) (hw_agents w) (fst c) in
    let h2 := fold_left (hexec_agent R) (hw_agents w) h1 in
    (h2, mkHW (hw_time w + dt) (filter (fun p => negb (o_removed R h2 w (fst p))) (hw_agents w))
           (hw_objects w) (hw_evals w) (hw_observer w)).

  (* What a client can do with a world. *)
  Inductive hop :=
  | HStep (R : oracles) (dt : Q) (fuel : nat)                       (* Step *)
  | HEvaluate (R : oracles)                                         (* Evaluate (world.cpp:144-150) *)
  | HRemove (id : N)                                                (* RemoveAgentById *)
  | HAddNew (id : N) (bm dm em : D) (goal : option D) (hist : list H) (maxh : nat)
                                                                    (* AddAgent of a newly built agent *)
  | HAction (id : N) (f : D -> D)     (* ActionToBehavior on an agent's model (observed_world.cpp:106-110) *)
  | HSetBehavior (id : N) (l : loc).  (* SetBehaviorModel with a caller's model (observed_world.cpp:148-166) *)

  Definition hrun_op (h : heap) (w : hworld) (op : hop) : heap * hworld :=
    match op with
    | HStep R dt fuel => hstep R dt fuel h w
    | HEvaluate R => (fold_left (fun h' e => wr_model h' e (o_eval R h' w)) (hw_evals w) h, w)
    | HRemove id => (h, hw_set_agents w (m_erase id (hw_agents w)))
    | HAddNew id bm dm em goal hist maxh =>
        let r1 := alloc h (CModel bm []) in
        let r2 := alloc (fst r1) (CModel dm []) in
        let r3 := alloc (fst r2) (CModel em []) in
        let r4 := match goal with
                  | None => (fst r3, None)
                  | Some g => let r := alloc (fst r3) (CModel g []) in (fst r, Some (snd r))
                  end in
        let r5 := alloc (fst r4) (CAgent (mkHA id (snd r1) (snd r2) (snd r3) (snd r4) hist maxh)) in
        (fst r5, hw_set_agents w (m_insert id (snd r5) (hw_agents w)))
    | HAction id f =>
        (match m_find id (hw_agents w) with
         | Some l => match hget h l with Some (CAgent a) => wr_model h (ha_bm a) f | _ => h end
         | None => h
         end, w)
    | HSetBehavior id lb =>
        (match m_find id (hw_agents w) with
         | Some l => match hget h l with
                     | Some (CAgent a) =>
                         hset h l (CAgent (mkHA (ha_id a) lb (ha_dm a) (ha_em a) (ha_goal a) (ha_hist a) (ha_max a)))
                     | _ => h
                     end
         | None => h
         end, w)
    end.

  Fixpoint hrun (h : heap) (w : hworld) (ops : list hop) : heap * hworld :=
    match ops with
    | [] => (h, w)
    | op :: r => let x := hrun_op h w op in hrun (fst x) (snd x) r
    end.
End Heap.
