(* bark/runtime/runtime.py, scenario/scenario.py, scenario_generation/scenario_generation.py on the object
   heap of Model_Heap: which Python and C++ objects a scenario, its copies, the worlds built from them and
   the recorded world history refer to.

   Simplifications.  The road corridor of an agent, the map (read only for the models) and rendering are
   left out; a Python call that raises is [None] or [Raised]; the viewer does not change the world. *)
From Coq Require Import String List NArith ZArith QArith Bool Arith.
From Verif Require Import Model_Map Model_Heap.
Import ListNotations.
Local Open Scope nat_scope.
Local Open Scope list_scope.

Section Runtime.
  Variable D : Type.    (* payload of a model object *)
  Variable H : Type.    (* history entry *)
  Variable M : Type.    (* map *)
  Notation heap := (heap D H).
  Notation hget := (hget D H).

  (* ** Values: a model object with everything it points to; an agent likewise. *)
  Inductive mval := MV (d : D) (subs : list mval).
  Record aval := mkAV { v_id : N; v_bm : mval; v_dm : mval; v_em : mval; v_goal : option mval;
                        v_hist : list H; v_max : nat }.

  Fixpoint all_some {A} (l : list (option A)) : option (list A) :=
    match l with
    | [] => Some []
    | None :: _ => None
    | Some x :: r => match all_some r with Some y => Some (x :: y) | None => None end
    end.

  (* The value of the object at [l]; [fuel] bounds the nesting. *)
  Fixpoint read_model (fuel : nat) (h : heap) (l : loc) : option mval :=
    match fuel with
    | O => None
    | S n =>
        match hget h l with
        | Some (CModel _ _ d subs) =>
            match all_some (map (read_model n h) subs) with Some vs => Some (MV d vs) | None => None end
        | _ => None
        end
    end.
  Definition read_opt (fuel : nat) (h : heap) (o : option loc) : option (option mval) :=
    match o with
    | None => Some None
    | Some l => match read_model fuel h l with Some v => Some (Some v) | None => None end
    end.
  Definition read_agent (fuel : nat) (h : heap) (l : loc) : option aval :=
    match hget h l with
    | Some (CAgent _ _ a) =>
        match read_model fuel h (ha_bm H a), read_model fuel h (ha_dm H a), read_model fuel h (ha_em H a),
              read_opt fuel h (ha_goal H a) with
        | Some b, Some d, Some e, Some g => Some (mkAV (ha_id H a) b d e g (ha_hist H a) (ha_max H a))
        | _, _, _, _ => None
        end
    | _ => None
    end.

  (* New objects from a value. *)
  Fixpoint build_model (h : heap) (v : mval) : heap * loc :=
    let 'MV d subs := v in
    let r := (fix go (h : heap) (l : list mval) : heap * list loc :=
                match l with
                | [] => (h, [])
                | x :: r => let a := build_model h x in let b := go (fst a) r in (fst b, snd a :: snd b)
                end) h subs in
    alloc D H (fst r) (CModel D H d (snd r)).
  Definition build_opt (h : heap) (o : option mval) : heap * option loc :=
    match o with None => (h, None) | Some v => let r := build_model h v in (fst r, Some (snd r)) end.
  Definition build_agent (h : heap) (v : aval) : heap * loc :=
    let r1 := build_model h (v_bm v) in
    let r2 := build_model (fst r1) (v_dm v) in
    let r3 := build_model (fst r2) (v_em v) in
    let r4 := build_opt (fst r3) (v_goal v) in
    alloc D H (fst r4) (CAgent D H (mkHA H (v_id v) (snd r1) (snd r2) (snd r3) (snd r4) (v_hist v) (v_max v))).

  (* What pickling an agent or an observer model and reading it back makes of its value, None if it raises
     (Model_Pickle, C84). *)
  Variable pk_agent : aval -> option aval.
  Variable pk_model : mval -> option mval.

  (* copy.deepcopy of an agent list: an agent object listed twice is copied once (the memo of deepcopy).
     Pickling recursion through a cycle does not end; the fuel [length h] suffices for acyclic objects. *)
  Definition lookup (l : loc) (memo : list (loc * loc)) : option loc :=
    match find (fun p => Nat.eqb l (fst p)) memo with Some p => Some (snd p) | None => None end.
  Fixpoint copy_agents (memo : list (loc * loc)) (h : heap) (l : list loc) : option (heap * list loc) :=
    match l with
    | [] => Some (h, [])
    | x :: r =>
        match lookup x memo with
        | Some y => match copy_agents memo h r with Some p => Some (fst p, y :: snd p) | None => None end
        | None =>
            match read_agent (length h) h x with
            | None => None
            | Some v =>
                match pk_agent v with
                | None => None
                | Some v' =>
                    let b := build_agent h v' in
                    match copy_agents ((x, snd b) :: memo) (fst b) r with
                    | Some p => Some (fst p, snd b :: snd p)
                    | None => None
                    end
                end
            end
        end
    end.

  (* Python dictionaries of the JSON parameters: nested dictionaries are references. *)
  Inductive jv := JVal (s : string) | JRef (l : nat).
  Definition jdict := list (string * jv).
  Definition jheap := list jdict.

  (* All memory. *)
  Record mem := mkMem { m_h : heap; m_j : jheap }.

  (* scenario.py 32-44 *)
  Record scen := mkScen { s_agents : list loc; s_eval : list N; s_file : string; s_json : option nat;
                          s_map : option M; s_observer : option loc }.

  (* scenario.py 80-89 Scenario.copy.  dict.copy() is shallow; None has no copy(). *)
  Definition scen_copy (m : mem) (s : scen) : option (mem * scen) :=
    let o := match s_observer s with
             | None => Some (m_h m, None)
             | Some l =>
                 match read_model (length (m_h m)) (m_h m) l with
                 | None => None
                 | Some v => match pk_model v with
                             | None => None
                             | Some v' => let b := build_model (m_h m) v' in Some (fst b, Some (snd b))
                             end
                 end
             end in
    match o with
    | None => None
    | Some (h1, ob) =>
        match copy_agents [] h1 (s_agents s) with
        | None => None
        | Some (h2, ags) =>
            match s_json s with
            | None => None
            | Some j =>
                match nth_error (m_j m) j with
                | None => None
                | Some d => Some (mkMem h2 (m_j m ++ [d]),
                                  mkScen ags (s_eval s) (s_file s) (Some (length (m_j m))) (s_map s) ob)
                end
            end
        end
    end.

  (* scenario_generation.py 14-24 *)
  Record gen := mkGen { g_stored : list scen; g_idx : nat; g_iter : option nat }.

  (* Python list indexing *)
  Definition py_index {A} (l : list A) (i : Z) : option A :=
    let j := if (i <? 0)%Z then (Z.of_nat (length l) + i)%Z else i in
    if (j <? 0)%Z then None else nth_error l (Z.to_nat j).

  (* scenario_generation.py 45-46 get_scenario *)
  Definition get_scenario (m : mem) (g : gen) (i : Z) : option (mem * scen) :=
    match py_index (g_stored g) i with None => None | Some s => scen_copy m s end.

  (* scenario_generation.py 33-40 get_next_scenario: the new cursor, and the scenario with its index *)
  Definition get_next (m : mem) (g : gen) : gen * option (mem * scen * nat) :=
    let i := if Nat.leb (length (g_stored g)) (g_idx g) then 0 else g_idx g in
    match get_scenario m g (Z.of_nat i) with
    | None => (mkGen (g_stored g) i (g_iter g), None)
    | Some (m', s) => (mkGen (g_stored g) (S i) (g_iter g), Some (m', s, i))
    end.

  (* scenario_generation.py 48-50 __iter__ *)
  Definition iter_start (g : gen) : gen := mkGen (g_stored g) (g_idx g) (Some 0).
  (* scenario_generation.py 52-59 __next__: StopIteration is [inl true], another exception [inl false] *)
  Definition iter_next (m : mem) (g : gen) : gen * (bool + (mem * scen * nat)) :=
    match g_iter g with
    | None => (g, inl false)
    | Some i =>
        if Nat.ltb i (length (g_stored g)) then
          match get_scenario m g (Z.of_nat i) with
          | None => (g, inl false)
          | Some (m', s) => (mkGen (g_stored g) (g_idx g) (Some (S i)), inr (m', s, i))
          end
        else (g, inl true)
    end.

  (* scenario.py 109-116 __getstate__, __setstate__: a pickled and loaded scenario has no map (agents, ids,
     parameters as for copies; scenario_generation.py 82-89 dump_scenario_list, load_scenario_list) *)
  Definition scen_reload (m : mem) (s : scen) : option (mem * scen) :=
    match scen_copy m s with
    | None => None
    | Some (m', s') => Some (m', mkScen (s_agents s') (s_eval s') (s_file s') (s_json s') None (s_observer s'))
    end.

  (* ** Worlds *)
  Variable copy : D -> D.                    (* payload copy of World::Clone *)
  Variable load_map : string -> option M.    (* scenario.py 119-144 CreateMapInterface, None: raises *)
  Variable none_observer : D.                (* ObserverModelNone, the default of World *)
  Variable observe_only : list N -> D -> D.  (* scenario.py 94-97 *)

  (* World::AddAgent, world.cpp 106-108, for each agent of the list; scenario.py 103-105 *)
  Definition add_agents (h : heap) (l : list loc) : kmap loc :=
    fold_left (fun m x => match hget h x with Some (CAgent _ _ a) => m_insert (ha_id H a) x m | _ => m end) l [].

  (* scenario.py 91-107 _build_world_state *)
  Definition world_state (h : heap) (s : scen) : option (heap * scen * hworld) :=
    let ob := match s_observer s with
              | Some l => (wr_model D H h l (observe_only (s_eval s)), l)
              | None => alloc D H h (CModel D H none_observer [])
              end in
    match (match s_map s with Some x => Some x | None => load_map (s_file s) end) with
    | None => None
    | Some mp =>
        Some (fst ob,
              mkScen (s_agents s) (s_eval s) (s_file s) (s_json s) (Some mp) (s_observer s),
              mkHW 0 (add_agents (fst ob) (s_agents s)) [] [] (snd ob))
    end.

  (* ** runtime.py 22-38 *)
  Record rt := mkRt { r_gen : option gen; r_scen : option scen; r_sidx : option nat; r_world : option hworld;
                      r_reset : bool; r_hist : list hworld }.
  Variable step_time : Q.
  Variable maintain : bool.

  Inductive res := Fine | Raised.

  (* runtime.py 40-50 reset.  An exception leaves what was assigned before it. *)
  Definition rt_reset (m : mem) (r : rt) (given : option scen) : mem * rt * res :=
    let start :=
      match given with
      | Some s => (m, mkRt (r_gen r) (Some s) (r_sidx r) (r_world r) (r_reset r) (r_hist r), Some s)
      | None =>
          match r_gen r with
          | None => (m, r, None)
          | Some g =>
              match get_next m g with
              | (g', None) => (m, mkRt (Some g') (r_scen r) (r_sidx r) (r_world r) (r_reset r) (r_hist r), None)
              | (g', Some (m', s, i)) =>
                  (m', mkRt (Some g') (Some s) (Some i) (r_world r) (r_reset r) (r_hist r), Some s)
              end
          end
      end in
    match start with
    | (m1, r1, None) => (m1, r1, Raised)
    | (m1, r1, Some s) =>
        match world_state (m_h m1) s with
        | None => (m1, r1, Raised)
        | Some (h, s', w) => (mkMem h (m_j m1), mkRt (r_gen r1) (Some s') (r_sidx r1) (Some w) true [], Fine)
        end
    end.

  (* World::PlanAgents (world.cpp 65-84) for the agents of [l] *)
  Definition hplan_all (R : oracles D H) (dt : Q) (fuel : nat) (h : heap) (w : hworld) (l : list (N * loc)) : heap :=
    let c := hclone_world D H copy h w in
    fold_left (hplan_agent D H R (snd c) (hw_time w) dt fuel) l (fst c).

  (* How a step ends: it does what the models compute, or planning the (k+1)-th agent raises. *)
  Inductive sev := StepOk (R : oracles D H) (fuel : nat) | StepRaises (R : oracles D H) (fuel k : nat).

  (* runtime.py 52-66 step *)
  Definition rt_step (m : mem) (r : rt) (e : sev) : mem * rt * res :=
    match r_reset r, r_world r with
    | true, Some w =>
        let first := match r_hist r with [] => maintain | _ => false end in
        let a := if first then let c := hclone_world D H copy (m_h m) w in (fst c, r_hist r ++ [snd c])
                 else (m_h m, r_hist r) in
        match e with
        | StepRaises R fuel k =>
            (mkMem (hplan_all R step_time fuel (fst a) w (firstn k (hw_agents w))) (m_j m),
             mkRt (r_gen r) (r_scen r) (r_sidx r) (Some w) true (snd a), Raised)
        | StepOk R fuel =>
            let st := hstep D H copy R step_time fuel (fst a) w in
            let b := if maintain then let c := hclone_world D H copy (fst st) (snd st) in (fst c, snd a ++ [snd c])
                     else (fst st, snd a) in
            (mkMem (fst b) (m_j m),
             mkRt (r_gen r) (r_scen r) (r_sidx r) (Some (snd st)) true (snd b), Fine)
        end
    | _, _ => (m, r, Raised)
    end.

  (* runtime.py 77-79 run: the class has a method step, and PyRuntime (python_wrapper/runtime.hpp 27-37)
     binds Step as step; looking up self.Step raises. *)
  Definition rt_run (m : mem) (r : rt) (n : nat) : mem * rt * res :=
    match n with O => (m, r, Fine) | S _ => (m, r, Raised) end.

  (* runtime.py 81-91 ExtractTimeSeries: state (the last history entry) and payload of the behavior model
     (its last action) of the first evaluated agent, world by world; np.stack of nothing raises *)
  Definition series (h : heap) (r : rt) : option (list (H * D)) :=
    match r_hist r, r_scen r with
    | _ :: _, Some s =>
        match s_eval s with
        | [] => None
        | id :: _ =>
            all_some (map (fun w =>
              match m_find id (hw_agents w) with
              | None => None
              | Some l =>
                  match hget h l with
                  | Some (CAgent _ _ a) =>
                      match rev (ha_hist H a), payload D H h (ha_bm H a) with
                      | x :: _, Some d => Some (x, d)
                      | _, _ => None
                      end
                  | _ => None
                  end
              end) (r_hist r))
        end
    | _, _ => None
    end.
End Runtime.
