(* DeterministicScenarioGeneration and the model conversion it uses.
   bark/runtime/scenario/scenario_generation/deterministic.py, bark/runtime/commons/model_json_conversion.py.
   Opaque: model objects and their constructors, shapes, the map and its loading, what a goal sees of an agent
   (O) and the two region tests. Rounding of the uniform draw is not modelled. Reading the parameter tree
   (AddChild, clone) is Model_PyParams; here the entries of "Agents" are given as records. *)
From Coq Require Import String List ZArith QArith NArith Bool.
From Verif Require Import Model_Map Model_Goal Model_ScenGen.
Import ListNotations.

Section Determ.
  Context {O Mod Shape MapT : Type}.
  (* GoalDefinitionPolygon and GoalDefinitionStateLimits on a polygon of these points *)
  Context (inside : list (Q * Q) -> O -> bool) (within : list (Q * Q) -> Q * Q -> O -> bool).
  (* eval("M(params)"), eval("M(dynamic_model, params)") with dynamic_model = None *)
  Context (make1 make2 : string -> gres Mod).
  (* numpy's global random stream, values in [0, 1) *)
  Context (rnd : nat -> Q).

  (* agent_json["state"]: a list of numbers, or a list of rows *)
  Inductive jstate := Flat (l : list Q) | Rows (l : list (list Q)).
  (* one entry of "Agents", its "VehicleModel" *)
  Record vspec := mkV {
    v_id : N; v_state : jstate; v_points : list (Q * Q); v_center : list Q; v_type : option string;
    v_beh : string; v_dyn : string; v_exec : string; v_shape : Shape }.
  Record dagent := mkD {
    d_id : N; d_state : list Q; d_goal : goal O; d_beh : Mod; d_dyn : Mod; d_exec : Mod; d_shape : Shape }.
  Record dscen := mkDS { ds_map : MapT; ds_agents : list dagent; ds_eval : list N }.

  (* model_json_conversion.py:53-66 for a string and given params: the second form is tried whatever the first
     raised *)
  Definition convert_model (m : string) : gres Mod :=
    match make1 m with inl x => inl x | inr _ => make2 m end.

  (* deterministic.py:60-64; Polygon2d.Translate adds the point to every vertex. The third entry of center_pose is
     not used. *)
  Definition goal_polygon (v : vspec) : gres (list (Q * Q)) :=
    match v_center v with
    | cx :: cy :: _ => inl (map (fun p => (fst p + cx, snd p + cy)%Q) (v_points v))
    | _ => inr IndexError
    end.
  (* deterministic.py:66-76: num_reached times the same goal *)
  Definition goal_of (num_reached : nat) (v : vspec) (poly : list (Q * Q)) : goal O :=
    let one := match v_type v with
               | Some t => if String.eqb t "GoalDefinitionStateLimits" then GAtom (within poly (149 # 100, 165 # 100)%Q)
                           else GAtom (inside poly)
               | None => GAtom (inside poly)
               end in
    GSeq (repeat one num_reached) (-1).

  (* numpy.random.uniform: one draw per row *)
  Fixpoint draw (k : nat) (rows : list (list Q)) : gres (list Q * nat) :=
    match rows with
    | [] => inl ([], k)
    | (lo :: hi :: _) :: r =>
        match draw (S k) r with
        | inl (s, k') => inl ((lo + (hi - lo) * rnd k)%Q :: s, k')
        | inr e => inr e
        end
    | _ :: _ => inr IndexError
    end.
  (* deterministic.py:78-82. Rows of different lengths: no rectangular array. *)
  Definition state_of (k : nat) (s : jstate) : gres (list Q * nat) :=
    match s with
    | Flat l => inl (l, k)
    | Rows [] => inl ([], k)
    | Rows (r0 :: rs) =>
        if forallb (fun r => Nat.eqb (length r) (length r0)) rs then draw k (r0 :: rs) else inr ValueError
    end.

  (* deterministic.py:57-86, model_json_conversion.py:26-37 *)
  Definition one_agent (num_reached k : nat) (v : vspec) : gres (dagent * nat) :=
    match goal_polygon v with
    | inr e => inr e
    | inl poly =>
        match state_of k (v_state v) with
        | inr e => inr e
        | inl (st, k') =>
            match convert_model (v_beh v), convert_model (v_dyn v), convert_model (v_exec v) with
            | inl b, inl d, inl x => inl (mkD (v_id v) st (goal_of num_reached v poly) b d x (v_shape v), k')
            | inr e, _, _ | _, inr e, _ | _, _, inr e => inr e
            end
        end
    end.
  Fixpoint agents (num_reached k : nat) (vs : list vspec) : gres (list dagent * nat) :=
    match vs with
    | [] => inl ([], k)
    | v :: r =>
        match one_agent num_reached k v with
        | inr e => inr e
        | inl (a, k') =>
            match agents num_reached k' r with
            | inr e => inr e
            | inl (l, k'') => inl (a :: l, k'')
            end
        end
    end.

  (* the parameters read: num_reached with default 5, controlled_ids with default [0] *)
  Record dparams := mkDP { p_agents : list vspec; p_num_reached : option nat; p_controlled : option (list N) }.

  (* deterministic.py:50-92; loadmap: scenario.GetWorldState() reads the map file *)
  Definition create_single (loadmap : gres MapT) (p : dparams) (k : nat) : gres (dscen * nat) :=
    match loadmap with
    | inr e => inr e
    | inl mp =>
        match agents (match p_num_reached p with Some n => n | None => 5%nat end) k (p_agents p) with
        | inr e => inr e
        | inl (l, k') => inl (mkDS mp l (match p_controlled p with Some c => c | None => [0%N] end), k')
        end
    end.
  (* deterministic.py:39-48 *)
  Fixpoint create_scenarios (loadmap : gres MapT) (p : dparams) (n k : nat) : gres (list dscen * nat) :=
    match n with
    | 0%nat => inl ([], k)
    | S m =>
        match create_single loadmap p k with
        | inr e => inr e
        | inl (s, k') =>
            match create_scenarios loadmap p m k' with
            | inr e => inr e
            | inl (l, k'') => inl (s :: l, k'')
            end
        end
    end.
  (* deterministic.py:26-29: random_seed is not used *)
  Definition generator (random_seed : option Z) (loadmap : gres MapT) (p : dparams) (n k : nat) : gres (list dscen) :=
    match create_scenarios loadmap p n k with inl (l, _) => inl l | inr e => inr e end.

  (* the agents of the world of a scenario: scenario.py:91-94, world.cpp AddAgent *)
  Definition world_agents (s : dscen) : kmap dagent :=
    fold_left (fun m a => m_insert (d_id a) a m) (ds_agents s) [].
End Determ.
