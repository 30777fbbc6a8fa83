(* Specification vocabulary for the simulation core (properties C01-C08). *)
From Coq Require Import List NArith QArith Bool Permutation.
From Verif Require Import Model_Map Model_World.
Import ListNotations.

(* the newest [n] elements of a sequence (oldest first) *)
Definition window {A} (n : nat) (l : list A) : list A := skipn (length l - n) l.

Section Spec.
  Context {T : Types} (O : Ops T).

  (* the number of history entries an agent keeps: its maximum, but never fewer than one *)
  Definition kept (a : agent T) : nat := Nat.max 1 (ag_max a).

  (* an agent whose history is non-empty and within its bound *)
  Definition agent_ok (a : agent T) : Prop :=
    ag_hist a <> [] /\ (length (ag_hist a) <= kept a)%nat.

  (* a world in normal use: agents filed under their own id, each once; histories as above; if
     removal of agents outside the map is switched on there is a map *)
  Definition world_ok (w : world T) : Prop :=
    m_sorted (w_agents w) /\
    (forall k a, get_agent w k = Some a -> ag_id a = k /\ agent_ok a) /\
    (w_remove w = true -> w_map w <> None).

  (* the world every agent observes in a step: a clone of the world before the step, with the
     spatial index brought up to date *)
  Definition pre_step_snapshot (w cw : world T) : Prop :=
    exists w1, update_rtree O w = Some w1 /\ cw = clone_world O w1.

  (* [ow] is an observation of agent [id] in the snapshot of [w] (for some observer randomness) *)
  Definition observation_of (w : world T) (id : AgentId) (ow : observed T) : Prop :=
    exists cw o, pre_step_snapshot w cw /\ ow = snd (observe O o cw id).

  (* the behaviour model an agent has after planning *)
  Definition planned_bm (a : agent T) (t dt : Q) (ow : observed T) : tBM T :=
    if valid_at a t then b_plan O (ag_bm a) dt ow else ag_bm a.

  (* What one step does to one agent that stays in the world. *)
  Record agent_stepped (t dt : Q) (ow : observed T) (a a' : agent T) : Prop := {
    st_same : ag_id a' = ag_id a /\ ag_shape a' = ag_shape a /\ ag_dm a' = ag_dm a /\
              ag_goal a' = ag_goal a /\ ag_max a' = ag_max a /\ ag_first a' = ag_first a;
    (* not yet valid at the old time: untouched *)
    st_idle : valid_at a t = false -> a' = a;
    (* valid: planned once *)
    st_planned : valid_at a t = true -> ag_bm a' = b_plan O (ag_bm a) dt ow;
    (* behaviour VALID: trajectory executed to the new time *)
    st_executed : valid_at a t = true -> b_status O (ag_bm a') = VALID ->
                  ag_em a' = e_execute O (ag_em a) (t + dt) (b_last_traj O (ag_bm a')) (ag_dm a);
    (* behaviour and execution VALID: exactly one pair appended *)
    st_moved : valid_at a t = true -> b_status O (ag_bm a') = VALID ->
               e_status O (ag_em a') = E_VALID ->
               ag_hist a' = window (kept a)
                 (ag_hist a ++ [(e_state O (ag_em a'), b_last_action O (ag_bm a'))]);
    (* otherwise the history does not change *)
    st_frozen : (b_status O (ag_bm a') <> VALID -> ag_em a' = ag_em a /\ ag_hist a' = ag_hist a) /\
                (e_status O (ag_em a') <> E_VALID -> ag_hist a' = ag_hist a) }.

  (* When a step removes an agent (evaluated with its behaviour model [bm] after planning). *)
  Definition leaves_map (w : world T) (a : agent T) : Prop :=
    exists mb s, w_map w = Some mb /\ current_state a = Some s /\
                 box_within O (envelope O (ag_shape a) s) mb = false.
  Definition removed_by_step (w : world T) (a : agent T) (bm : tBM T) : Prop :=
    b_status O bm = EXPIRED \/
    (w_remove w = true /\ b_status O bm = VALID /\ valid_at a (w_time w) = true /\ leaves_map w a).

  (* planning agents one at a time in the order [ids], mutating the table in place *)
  Fixpoint plan_in_order (o : tOS T) (cw : world T) (t dt : Q) (ids : list AgentId)
           (m : kmap (agent T)) : kmap (agent T) :=
    match ids with
    | [] => m
    | id :: r =>
        match m_find id m with
        | None => plan_in_order o cw t dt r m
        | Some a =>
            if valid_at a t then
              let oo := observe O o cw id in
              plan_in_order (fst oo) cw t dt r (m_insert id (plan_agent O a t dt (snd oo)) m)
            else plan_in_order o cw t dt r m
        end
    end.

  (* the same system with other behaviour planning functions *)
  Definition with_plan (f : tBM T -> Q -> observed T -> tBM T) : Ops T :=
    mkOps T (b_status O) f (b_last_traj O) (b_last_action O) (b_clone O) (e_status O) (e_execute O)
      (e_state O) (e_clone O) (d_clone O) (g_clone O) (obj_clone O) (obj_id O) (observe O) (sense O)
      (envelope O) (box_within O) (knn O) (box_hits O) (collide O).

  (* operations on the agent table, and the abstract finite map they implement *)
  Inductive table_op := OpAdd (a : agent T) | OpRemove (id : AgentId).
  Definition apply_op (w : world T) (op : table_op) : world T :=
    match op with OpAdd a => add_agent w a | OpRemove id => remove_agent_by_id w id end.
  Definition spec_op (f : AgentId -> option (agent T)) (op : table_op) : AgentId -> option (agent T) :=
    match op with
    | OpAdd a => fun k => if N.eqb k (ag_id a) then Some a else f k
    | OpRemove id => fun k => if N.eqb k id then None else f k
    end.

  (* an agent object receiving a sequence of planned (behaviour, execution) results, each followed
     by UpdateStateAction *)
  Definition agent_updates (a : agent T) (l : list (tBM T * tEM T)) : agent T :=
    fold_left (fun a p => update_state_action O (set_em (set_bm a (fst p)) (snd p))) l a.

  (* the observer keeps no state between observations (e.g. ObserverModelNone) *)
  Definition stateless_observer : Prop := forall o w id, fst (observe O o w id) = o.

  (* the spatial index lists exactly the agents of the table with their current boxes *)
  Definition index_fresh (w : world T) : Prop := update_rtree O w = Some w.

  (* contract of the k-nearest query of the R-tree *)
  Definition knn_contract (dist : tBox T -> tPoint T -> Q) : Prop :=
    forall l p k, exists rest,
      Permutation l (knn O l p k ++ rest) /\
      length (knn O l p k) = Nat.min k (length l) /\
      forall e e', In e (knn O l p k) -> In e' rest -> dist (fst e) p <= dist (fst e') p.

  (* contract of bounding boxes: colliding footprints have intersecting boxes *)
  Definition box_contract : Prop :=
    forall sh s pg, collide O sh s pg = true -> box_hits O (envelope O sh s) pg = true.

  (* an agent the query functions report: VALID and already valid at the world time *)
  Definition live_at (w : world T) (a : agent T) : Prop :=
    b_status O (ag_bm a) = VALID /\ valid_at a (w_time w) = true.

  Definition sumQ (l : list Q) : Q := fold_right Qplus 0 l.
End Spec.
