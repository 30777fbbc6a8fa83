(* bark/benchmark/benchmark_analyzer.py: BenchmarkAnalyzer.

   Simplifications.  Of a row the configuration index, scenario index, scenario set and the other cells are
   kept; the functions given as criteria return a Boolean or raise; pandas' sort_values (kind quicksort)
   may put rows with equal keys in any order, so sorting is an oracle; drawing is a list of events. *)
From Coq Require Import String List ZArith QArith Bool Arith.
Import ListNotations.
Local Open Scope string_scope.
Local Open Scope nat_scope.
Local Open Scope list_scope.

Section Analyzer.
  Variable V : Type.    (* cell values *)

  (* One row of the data frame . *)
  Record row := mkRow { r_conf : Z; r_scen : Z; r_set : string; r_val : string -> V }.
  (* A data frame has its columns also without rows; DataFrame([]) has none. *)
  Record frame := mkFrame { f_cols : list string; f_rows : list row }.

  Definition isin (x : Z) (l : list Z) : bool := existsb (Z.eqb x) l.
  Definition has_col (f : frame) (c : string) : bool := existsb (String.eqb c) (f_cols f).

  (* {x: i for i, x in enumerate(l)}[x]: the last index wins *)
  Fixpoint pos_from (x : Z) (i : nat) (l : list Z) : option nat :=
    match l with
    | [] => None
    | y :: r =>
        match pos_from x (S i) r with
        | Some j => Some j
        | None => if Z.eqb x y then Some i else None
        end
    end.
  Definition pos (l : list Z) (x : Z) : option nat := pos_from x 0 l.

  (* Series.sort_values().index on rows keyed with positions *)
  Variable sorted_by : list (nat * row) -> list row.

  (* df.reindex(df.column.map(dict).sort_values().index): a row without position (NaN) comes last; there is
     none in the calls below *)
  Definition reindex (key : row -> Z) (l : list Z) (rows : list row) : list row :=
    sorted_by (map (fun r => (match pos l (key r) with Some i => i | None => length l end, r)) rows).

  (* 22-27 get_scenario_ids *)
  Definition get_scenario_ids (f : frame) (ids : list Z) : option (list Z) :=
    if has_col f "config_idx" && has_col f "scen_idx" then
      Some (map r_scen (reindex r_conf ids (filter (fun r => isin (r_conf r) ids) (f_rows f))))
    else None.

  (* 36-38: df.loc[df[column].apply(function)] *)
  Fixpoint apply_loc (fn : V -> option bool) (c : string) (rows : list row) : option (list row) :=
    match rows with
    | [] => Some []
    | r :: t =>
        match fn (r_val r c) with
        | None => None
        | Some b =>
            match apply_loc fn c t with
            | None => None
            | Some l => Some (if b then r :: l else l)
            end
        end
    end.
  Fixpoint apply_criteria (f : frame) (cr : list (string * (V -> option bool))) (rows : list row) : option (list row) :=
    match cr with
    | [] => Some rows
    | (c, fn) :: t =>
        if has_col f c then
          match apply_loc fn c rows with
          | None => None
          | Some l => apply_criteria f t l
          end
        else None
    end.

  Definition nonempty {A} (l : list A) : bool := match l with [] => false | _ => true end.

  (* 34-52 find_configs; None and an empty list are both false *)
  Definition find_configs (f : frame) (criteria : list (string * (V -> option bool))) (scen_list as_in in_confs : list Z)
    : option (list Z) :=
    match apply_criteria f criteria (f_rows f) with
    | None => None
    | Some rows1 =>
        match (if nonempty as_in then get_scenario_ids f as_in else Some scen_list) with
        | None => None
        | Some scens =>
            if has_col f "config_idx" && (negb (nonempty scens) || has_col f "scen_idx") then
              let rows2 := if nonempty in_confs then filter (fun r => isin (r_conf r) in_confs) rows1 else rows1 in
              let rows3 :=
                if nonempty scens then
                  let kept := filter (fun r => isin (r_scen r) scens) rows2 in
                  let found := filter (fun s => isin s (map r_scen kept)) scens in
                  reindex r_scen found kept
                else rows2 in
              Some (map r_conf rows3)
            else None
        end
    end.

  (* sorted(set(l)) *)
  Fixpoint insert (x : Z) (l : list Z) : list Z :=
    match l with
    | [] => [x]
    | y :: r => if Z.ltb x y then x :: l else if Z.eqb x y then l else y :: insert x r
    end.
  Definition sort_set (l : list Z) : list Z := fold_right insert [] l.
  Definition inter (a b : list Z) : list Z := filter (fun x => isin x b) a.

  (* 56-57 *)
  Fixpoint match_rest (f : frame) (acc : list Z) (ls : list (list Z)) : option (list Z) :=
    match ls with
    | [] => Some acc
    | l :: r =>
        match get_scenario_ids f l with
        | None => None
        | Some s => match_rest f (inter acc s) r
        end
    end.
  Fixpoint zlist_eqb (a b : list Z) : bool :=
    match a, b with
    | [], [] => true
    | x :: a, y :: b => Z.eqb x y && zlist_eqb a b
    | _, _ => false
    end.
  (* 61-67 *)
  Fixpoint congruent_lists (f : frame) (matching : list Z) (ls : list (list Z)) : option (list (list Z)) :=
    match ls with
    | [] => Some []
    | l :: r =>
        match find_configs f [] matching [] l with
        | None => None
        | Some c =>
            match get_scenario_ids f c with
            | None => None
            | Some s =>
                if zlist_eqb s matching then
                  match congruent_lists f matching r with None => None | Some cs => Some (c :: cs) end
                else None                                  (* AssertionError *)
            end
        end
    end.
  (* 54-67 make_scenarios_congruent *)
  Definition make_scenarios_congruent (f : frame) (ls : list (list Z)) : option (list (list Z)) :=
    match ls with
    | [] => None                                           (* IndexError *)
    | l :: r =>
        match get_scenario_ids f l with
        | None => None
        | Some s =>
            match match_rest f s r with
            | None => None
            | Some m => congruent_lists f (sort_set m) ls
            end
        end
    end.

  (* ** visualize *)
  Variable S : Type.                       (* recorded scenarios *)
  Inductive ev := Draw (viewer : nat) (s : S) (time : Q).
  Inductive vres := VDone | VRaise.

  (* 121-142, one pass over the viewers at [step]: what is drawn and whether a history goes on, or None if
     it raises (no history: len(None) or an empty list indexed) *)
  Fixpoint pass (sim : Q) (step v : nat) (hs : list (option (list S))) : list ev * option bool :=
    match hs with
    | [] => ([], Some false)
    | None :: _ => ([], None)
    | Some h :: r =>
        let i := if Nat.ltb (length h) step then Nat.pred (length h) else Nat.pred step in
        match nth_error h i with
        | None => ([], None)
        | Some s =>
            let q := pass sim step (Datatypes.S v) r in
            (Draw v s (sim * inject_Z (Z.of_nat i))%Q :: fst q,
             match snd q with
             | None => None
             | Some b => Some (negb (Nat.ltb (length h) step) || b)
             end)
        end
    end.
  (* 113-146 _render_histories; None: still running after [fuel] passes *)
  Fixpoint render (fuel : nat) (sim : Q) (step : nat) (hs : list (option (list S))) : list ev * option vres :=
    match fuel with
    | 0 => ([], None)
    | Datatypes.S n =>
        match pass sim (Datatypes.S step) 0 hs with
        | (e, None) => (e, Some VRaise)
        | (e, Some false) => (e, Some VDone)
        | (e, Some true) => let q := render n sim (Datatypes.S step) hs in (e ++ fst q, snd q)
        end
    end.

  Variable config : Z -> bool.             (* get_benchmark_config(i) is not None *)
  Variable history : Z -> option (list S). (* get_history(i) *)
  Variable sim_time : Z -> Q.              (* step time of the configuration, 0.2 without *)

  (* 84-107 for one position: the histories and the last step time; inl: visualize returns or raises *)
  Fixpoint collect (k : nat) (ls : list (list Z)) (sim : option Q) : vres + (list (option (list S)) * option Q) :=
    match ls with
    | [] => inr ([], sim)
    | l :: r =>
        match nth_error l k with
        | None => inl VRaise
        | Some c =>
            if config c then
              match collect k r (Some (sim_time c)) with
              | inl x => inl x
              | inr (hs, s) => inr (history c :: hs, s)
              end
            else inl VDone
        end
    end.
  (* 78-110 *)
  Fixpoint vis_from (fuel : nat) (k n : nat) (ls : list (list Z)) : list ev * option vres :=
    match n with
    | 0 => ([], Some VDone)
    | Datatypes.S n =>
        match collect k ls None with
        | inl x => ([], Some x)
        | inr (_, None) => ([], Some VRaise)               (* sim_time unbound: no viewer *)
        | inr (hs, Some sim) =>
            match render fuel sim 0 hs with
            | (e, Some VDone) => let q := vis_from fuel (Datatypes.S k) n ls in (e ++ fst q, snd q)
            | (e, x) => (e, x)
            end
        end
    end.
  (* 69-110 visualize without viewer names, for lists of configurations and [viewers] viewers, real_time_factor not zero *)
  Definition visualize (fuel viewers : nat) (ls : list (list Z)) : list ev * option vres :=
    match ls with
    | [] => ([], Some VRaise)
    | l :: _ =>
        if Nat.eqb (length ls) viewers then vis_from fuel 0 (length l) ls else ([], Some VRaise)
    end.
End Analyzer.
