(* Exporting benchmark results: bark/benchmark/scenario_dumper.py, benchmark_result.py:98-117.
   A file system is a function from paths; the base result folder and its time stamped sub folder are one fixed root.
   Opaque: the parameter tree of a config and its JSON text, the text of a map file, ntpath.basename, building
   the world of a scenario (scenario.py:91-107), the order in which Python walks a set. Not modelled: video export,
   the text of csv and xml files (their rows and vertices are kept), numbers becoming floats. *)
From Coq Require Import String List ZArith QArith NArith Bool.
From Verif Require Import Model_Analyzer.
Import ListNotations.

Inductive dexn := IndexError | ValueError | KeyError | FileNotFound | WorldError | FilterError.
Definition dres (A : Type) := (A + dexn)%type.

Section Dumper.
  Context {Scen Par Txt V : Type}.
  Definition state := list Q.
  (* the agents of the world built from a stored scenario, by ascending id, with the states of their history *)
  Context (world_of : Scen -> option (list (N * list state))).
  Context (map_name : Par -> option string)   (* params["Scenario"]["Generation"][...]["MapFilename"] *)
          (map_text : string -> option Txt)   (* the file src/database/<name> *)
          (basename : string -> string)
          (set_order : list Z -> list Z)      (* list(s) for a set s with these elements *)
          (srt : list (nat * Model_Analyzer.row V) -> list (Model_Analyzer.row V)). (* see Model_Analyzer *)

  Record trow := mkTR { w_id : N; w_time : Q; w_x : Q; w_y : Q; w_theta : Q; w_v : Q }.
  Record vertex := mkVx { x_time : Q; x_x : Q; x_y : Q; x_z : Q; x_h : Q }.
  Inductive path := Folder (config : Z) | InFolder (config : Z) (name : string) | Trajectory (config : Z) (agent : N)
                  | AtRoot (name : string).
  Inductive content := IsFolder | Rows (l : list trow) | Vertices (l : list vertex) | Params (p : Par) | MapText (t : Txt).
  Definition fsys := path -> option content.
  Definition path_eqb (a b : path) : bool :=
    match a, b with
    | Folder i, Folder j => Z.eqb i j
    | InFolder i s, InFolder j t => Z.eqb i j && String.eqb s t
    | Trajectory i n, Trajectory j m => Z.eqb i j && N.eqb n m
    | AtRoot s, AtRoot t => String.eqb s t
    | _, _ => false
    end.
  Definition write (p : path) (c : content) (f : fsys) : fsys := fun q => if path_eqb p q then Some c else f q.

  (* the parts of a BenchmarkResult read here *)
  Record result := mkRes { histories : Z -> option (list Scen); configs : list (Z * Par) }.
  (* benchmark_result.py:98-100, 126-131 *)
  Definition get_config (r : result) (i : Z) : option Par :=
    match find (fun c => Z.eqb (fst c) i) (configs r) with Some c => Some (snd c) | None => None end.
  (* histories[-1] *)
  Definition last_scen (h : list Scen) : dres Scen :=
    match rev h with [] => inr IndexError | s :: _ => inl s end.

  (* scenario_dumper.py:99-100 *)
  Definition row_of (a : N) (s : state) : dres trow :=
    match s with
    | t :: x :: y :: th :: v :: _ => inl (mkTR a t x y th v)
    | _ => inr IndexError
    end.
  Fixpoint rows_of (a : N) (h : list state) : dres (list trow) :=
    match h with
    | [] => inl []
    | s :: r =>
        match row_of a s with
        | inr e => inr e
        | inl w => match rows_of a r with inl l => inl (w :: l) | inr e => inr e end
        end
    end.
  Fixpoint table (w : list (N * list state)) : dres (list trow) :=
    match w with
    | [] => inl []
    | (a, h) :: r =>
        match rows_of a h with
        | inr e => inr e
        | inl l => match table r with inl l' => inl (l ++ l') | inr e => inr e end
        end
    end.
  (* scenario_dumper.py:88-103; no rows: pandas refuses the column names *)
  Definition write_trajectory (r : result) (i : Z) (f : fsys) : fsys * dres unit :=
    match histories r i with
    | None => (f, inl tt)
    | Some h =>
        match last_scen h with
        | inr e => (f, inr e)
        | inl s =>
            match world_of s with
            | None => (f, inr WorldError)
            | Some w =>
                match table w with
                | inr e => (f, inr e)
                | inl [] => (f, inr ValueError)
                | inl l => (write (InFolder i "trajectories.csv") (Rows l) f, inl tt)
                end
            end
        end
    end.
  (* scenario_dumper.py:106-112 *)
  Definition write_scenario_parameter (r : result) (i : Z) (f : fsys) : fsys * dres unit :=
    match get_config r i with
    | None => (f, inl tt)
    | Some p => (write (InFolder i "scenario_parameters.json") (Params p) f, inl tt)
    end.
  (* scenario_dumper.py:114-119: only builds the world again *)
  Definition write_behavior_parameter (r : result) (i : Z) (f : fsys) : fsys * dres unit :=
    match histories r i with
    | None => (f, inl tt)
    | Some h =>
        match last_scen h with
        | inr e => (f, inr e)
        | inl s => match world_of s with None => (f, inr WorldError) | Some _ => (f, inl tt) end
        end
    end.
  (* scenario_dumper.py:125-131 *)
  Definition write_map (r : result) (i : Z) (f : fsys) : fsys * dres unit :=
    match get_config r i with
    | None => (f, inl tt)
    | Some p =>
        match map_name p with
        | None => (f, inr KeyError)
        | Some m =>
            match map_text m with
            | None => (f, inr FileNotFound)
            | Some t => (write (AtRoot (basename m)) (MapText t) f, inl tt)
            end
        end
    end.

  (* the trajectory writer is the overridden method in OpenScenarioDumper *)
  Definition dumper := result -> Z -> fsys -> fsys * dres unit.
  Definition bind (x : fsys * dres unit) (k : fsys -> fsys * dres unit) : fsys * dres unit :=
    match x with (f, inl _) => k f | (f, inr e) => (f, inr e) end.
  (* scenario_dumper.py:62-68 without video *)
  Definition export (d : dumper) (r : result) (i : Z) (f : fsys) : fsys * dres unit :=
    bind (d r i (write (Folder i) IsFolder f)) (fun f1 =>
    bind (write_scenario_parameter r i f1) (fun f2 =>
    bind (write_behavior_parameter r i f2) (fun f3 => write_map r i f3))).
  Fixpoint export_all (d : dumper) (r : result) (l : list Z) (f : fsys) : fsys * dres unit :=
    match l with
    | [] => (f, inl tt)
    | i :: t => bind (export d r i f) (export_all d r t)
    end.
  Definition isinz (x : Z) (l : list Z) : bool := existsb (Z.eqb x) l.
  (* scenario_dumper.py:41-44; find_configs is Model_Analyzer *)
  Definition found_by (fr : frame V) (criteria : list (string * (V -> option bool))) : dres (list Z) :=
    match criteria with
    | [] => inl []
    | _ => match find_configs V srt fr criteria [] [] [] with Some l => inl l | None => inr FilterError end
    end.
  (* scenario_dumper.py:46-54; c: the configs found *)
  Definition select (c given : list Z) : dres (list Z) :=
    match c, given with
    | _ :: _, _ :: _ => inl (set_order (filter (fun i => isinz i given) c))
    | [], _ :: _ => inl given
    | _ :: _, [] => inl c
    | [], [] => inr ValueError
    end.
  (* scenario_dumper.py:40-59 *)
  Definition export_scenarios_filter (d : dumper) (r : result) (fr : frame V)
      (criteria : list (string * (V -> option bool))) (given : list Z) (f : fsys) : fsys * dres (list Z) :=
    match found_by fr criteria with
    | inr e => (f, inr e)
    | inl c =>
        match select c given with
        | inr e => (f, inr e)
        | inl l => match export_all d r l f with (f', inl _) => (f', inl l) | (f', inr e) => (f', inr e) end
        end
    end.

  (* agent.cpp:85-95, the states of the history of an agent that may keep m entries (agent.cpp:32-39: 30 without
     parameters, else MaxHistoryLength, 50 by default; a size is never negative here); copying keeps them (C84) *)
  Definition push_state (m : nat) (h : list state) (s : state) : list state :=
    let h' := h ++ [s] in if Nat.ltb m (length h') then tl h' else h'.
  Definition history_after (m : nat) (s0 : state) (steps : list state) : list state :=
    fold_left (push_state m) steps [s0].

  (* OpenScenarioDumper: scenario_dumper.py:176-184 *)
  Definition vertex_of (s : state) : dres vertex :=
    match s with
    | t :: x :: y :: th :: _ => inl (mkVx t x y 0 th)
    | _ => inr IndexError
    end.
  Fixpoint vertices_of (h : list state) : dres (list vertex) :=
    match h with
    | [] => inl []
    | s :: r =>
        match vertex_of s with
        | inr e => inr e
        | inl v => match vertices_of r with inl l => inl (v :: l) | inr e => inr e end
        end
    end.
  Fixpoint write_polylines (i : Z) (w : list (N * list state)) (f : fsys) : fsys * dres unit :=
    match w with
    | [] => (f, inl tt)
    | (a, h) :: r =>
        match vertices_of h with
        | inr e => (f, inr e)
        | inl l => write_polylines i r (write (Trajectory i a) (Vertices l) f)
        end
    end.
  (* scenario_dumper.py:159-187; the template file is present *)
  Definition write_openscenario (r : result) (i : Z) (f : fsys) : fsys * dres unit :=
    match histories r i with
    | None => (f, inl tt)
    | Some h =>
        match last_scen h with
        | inr e => (f, inr e)
        | inl s => match world_of s with None => (f, inr WorldError) | Some w => write_polylines i w f end
        end
    end.
End Dumper.
