(** Creating benchmark configurations, selecting evaluators and running one
    configuration (/repo/bark/benchmark/benchmark_runner.py), loading
    configurations from an archive (benchmark_result.py).

    Scenario, world and evaluators are opaque; every call into them may raise
    (None).  Evaluators carry state.  Drawing, logging and the wall clock are
    not modelled.  *)

From Coq Require Import String List Arith Lia Bool.
Import ListNotations.
From Verif Require Import Model_Benchmark.
Local Open Scope string_scope.
Local Open Scope nat_scope.
Local Open Scope list_scope.

(* ------------------------------------------------------------------ *)
(* Python dicts with string keys *)

Section Dict.
Context {V : Type}.

Definition dct := list (string * V).

(** d[k] = v *)
Fixpoint dset (d : dct) (k : string) (v : V) : dct :=
  match d with
  | [] => [(k, v)]
  | (j, w) :: r => if String.eqb j k then (k, v) :: r else (j, w) :: dset r k v
  end.

(** d[k] *)
Fixpoint dget (d : dct) (k : string) : option V :=
  match d with
  | [] => None
  | (j, w) :: r => if String.eqb j k then Some w else dget r k
  end.

(** {**a, **b} and d.update(b) *)
Definition dupdate (a b : dct) : dct := fold_left (fun d kv => dset d (fst kv) (snd kv)) b a.
End Dict.
Arguments dct : clear implicits.

(** Python's [a in b] for strings. *)
Fixpoint contains (a b : string) : bool :=
  String.prefix a b || match b with EmptyString => false | String _ b' => contains a b' end.

(* ------------------------------------------------------------------ *)
(* Configurations, benchmark_runner.py 228-270 *)

Section Create.
Context {B Sc Val : Type}.

(** benchmark_result.py 38-48 *)
Record bconfig := {
  bc_idx : nat; bc_behavior : B; bc_scenario : Sc; bc_scen_idx : nat;
  bc_set : string; bc_desc : dct Val
}.

(** One scenario set of the database: what iterating over it yields. *)
Record scen_set := { ss_scenarios : list Sc; ss_name : string; ss_desc : dct Val }.

(** scenario.GetDatasetScenarioDescription *)
Variable dataset_desc : Sc -> dct Val.

(** benchmark_runner.py 234: num_scenarios and scenario_idx >= num_scenarios *)
Definition past (num : option nat) (i : nat) : bool :=
  match num with
  | None | Some 0 => false
  | Some n => n <=? i
  end.

(** benchmark_runner.py 233-252: the loop over the scenarios of one set, from
    scenario [i] on; break leaves it. *)
Fixpoint create_scens (num : option nat) (b : B) (s : scen_set) (scs : list Sc) (i : nat)
    (acc : list bconfig) : list bconfig :=
  match scs with
  | [] => acc
  | sc :: r =>
      if past num i then acc
      else create_scens num b s r (S i)
             (acc ++ [{| bc_idx := length acc; bc_behavior := b; bc_scenario := sc;
                         bc_scen_idx := i; bc_set := ss_name s;
                         bc_desc := dupdate (ss_desc s) (dataset_desc sc) |}])
  end.

(** benchmark_runner.py 228-253 *)
Definition create_configs (num : option nat) (behs : list B) (db : list scen_set) : list bconfig :=
  fold_left (fun acc b =>
    fold_left (fun acc s => create_scens num b s (ss_scenarios s) 0 acc) db acc) behs [].

(** benchmark_runner.py 255-270: one unnamed set, no description. *)
Fixpoint create_scens_gen (num : option nat) (b : B) (cls : string) (scs : list Sc) (i : nat)
    (acc : list bconfig) : list bconfig :=
  match scs with
  | [] => acc
  | sc :: r =>
      if past num i then acc
      else create_scens_gen num b cls r (S i)
             (acc ++ [{| bc_idx := length acc; bc_behavior := b; bc_scenario := sc;
                         bc_scen_idx := i; bc_set := cls; bc_desc := [] |}])
  end.

Definition create_configs_gen (num : option nat) (behs : list B) (cls : string) (scs : list Sc)
  : list bconfig :=
  fold_left (fun acc b => create_scens_gen num b cls scs 0 acc) behs [].

End Create.
Arguments bconfig : clear implicits.
Arguments scen_set : clear implicits.

(* ------------------------------------------------------------------ *)
(* EvaluationConfig, benchmark_runner.py 33-73 *)

Section Evaluators.
Context {Cfg : Type}.

Record eval_config := { ec_specific : dct Cfg; ec_default : option Cfg }.

(** AddEvaluatorConfig, benchmark_runner.py 41-45: an empty name is falsy. *)
Definition add_evaluator_config (e : eval_config) (c : Cfg) (name : option string) : eval_config :=
  match name with
  | None | Some "" => {| ec_specific := ec_specific e; ec_default := Some c |}
  | Some n => {| ec_specific := dset (ec_specific e) n c; ec_default := ec_default e |}
  end.

(** _GetScenarioEvaluators, benchmark_runner.py 62-73: the selected evaluators
    ([inl None] is Python's None) or ValueError. *)
Definition scenario_evaluators (e : eval_config) (set : string) : option Cfg + exn :=
  if 1 <? length (ec_specific e) then
    match filter (fun kv => contains (fst kv) set) (ec_specific e) with
    | [] => inl (ec_default e)
    | [kv] => inl (dget (ec_specific e) (fst kv))
    | _ => inr ValueError
    end
  else inl (ec_default e).

End Evaluators.
Arguments eval_config : clear implicits.

(* ------------------------------------------------------------------ *)
(* Running one configuration, benchmark_runner.py 323-418 *)

Section Run.
Context {B Sc V W Ev : Type}.

(** What a row holds. *)
Inductive cell := CNat (n : nat) | CStr (s : string) | CVal (v : V) | CWhy (l : list string).

Variable get_world : Sc -> option W.                 (* scenario.GetWorldState *)
Variable set_behavior : Sc -> B -> W -> option W.    (* world.agents[ego].behavior_model = ... *)
Variable make_evaluators : Sc -> string -> option (list (string * Ev)).
                                                     (* CreateInitializedEvaluators *)
Variable evaluate : Ev -> W -> option (Ev * V).      (* Evaluate(world) *)
Variable plan execute : W -> option W.               (* PlanAgents, Execute *)
Variable behavior_desc : B -> string * dct cell.     (* name and param_descriptions *)
Variable behavior_none : B -> bool.                  (* behavior is None *)

Definition criteria := list (string * (V -> option bool)).

(** terminal_when: [] when nothing (or an empty dict) was given, one dict of
    criteria, or one per scenario set name (runner.py 130, 407-418). *)
Inductive terminal_when := TNone | TFlat (c : criteria) | TPerSet (l : list (string * criteria)).

(** _get_evalution_dict, benchmark_runner.py 401-405.  An evaluator that raises
    leaves the ones before it advanced; the loop is left then anyway. *)
Fixpoint eval_all (es : list (string * Ev)) (w : W) : option (list (string * Ev) * dct V) :=
  match es with
  | [] => Some ([], [])
  | (n, e) :: r =>
      match evaluate e w with
      | None => None
      | Some (e', v) =>
          match eval_all r w with
          | None => None
          | Some (r', d) => Some ((n, e') :: r', (n, v) :: d)
          end
      end
  end.

(** _is_terminal_for_scen_set, benchmark_runner.py 420-427: the criteria that
    hold, None for a KeyError or an exception of a criterion. *)
Fixpoint holding (c : criteria) (d : dct V) : option (list string) :=
  match c with
  | [] => Some []
  | (n, f) :: r =>
      match dget d n with
      | None => None
      | Some v =>
          match f v, holding r d with
          | Some b, Some l => Some (if b then n :: l else l)
          | _, _ => None
          end
      end
  end.

(** _is_terminal, benchmark_runner.py 407-418. *)
Definition is_terminal (t : terminal_when) (set : string) (d : dct V) : option (list string) :=
  match t with
  | TNone => None
  | TFlat c => holding c d
  | TPerSet l =>
      match filter (fun kc => contains (fst kc) set) l with
      | [kc] => holding (snd kc) d
      | _ => None
      end
  end.

(** BenchmarkConfig.as_dict, benchmark_result.py 58-63; BehaviorConfig.as_dict 24-26 *)
Definition as_dict (c : bconfig B Sc cell) : dct cell :=
  dupdate
    (dupdate (dupdate [] [("config_idx", CNat (bc_idx c)); ("scen_set", CStr (bc_set c));
                          ("scen_idx", CNat (bc_scen_idx c))])
             (bc_desc c))
    (dupdate [("behavior", CStr (fst (behavior_desc (bc_behavior c))))]
             (snd (behavior_desc (bc_behavior c)))).

(** benchmark_runner.py 382-385 *)
Definition make_row (c : bconfig B Sc cell) (step : nat) (d : dct V) (why : cell) : dct cell :=
  dset (dupdate (dset (as_dict c) "step" (CNat step)) (map (fun kv => (fst kv, CVal (snd kv))) d))
       "Terminal" why.

(** How _run_benchmark_config ends: with a row and a history, with a bare dict
    (an exception in GetWorldState, 338-340), with an uncaught exception, or
    not within the given number of iterations. *)
Inductive cres :=
  | CTuple (row : dct cell) (history : list W)
  | CDict (row : dct cell)
  | CRaise
  | CFuel.

Definition raised := CStr "exception_raised".

(** benchmark_runner.py 352-380 *)
Fixpoint run_steps (fuel : nat) (t : terminal_when) (c : bconfig B Sc cell) (keep : bool)
    (w : W) (es : list (string * Ev)) (step : nat) (hist : list W) : cres :=
  match fuel with
  | 0 => CFuel
  | S fuel' =>
      match eval_all es w with
      | None => CTuple (make_row c step [] raised) hist
      | Some (es', d) =>
          match is_terminal t (bc_set c) d with
          | None => CRaise
          | Some (n :: why) => CTuple (make_row c step d (CWhy (n :: why))) hist
          | Some [] =>
              match plan w with
              | None => CTuple (make_row c step d raised) hist
              | Some w1 =>
                  match execute w1 with
                  | None => CTuple (make_row c step d raised) hist
                  | Some w2 =>
                      run_steps fuel' t c keep w2 es' (S step)
                        (if keep then hist ++ [w2] else hist)
                  end
              end
          end
      end
  end.

(** benchmark_runner.py 323-387 (_run_benchmark_config). *)
Definition run_config (fuel : nat) (t : terminal_when) (keep : bool) (c : bconfig B Sc cell) : cres :=
  match get_world (bc_scenario c) with
  | None => CDict (dset (dset (as_dict c) "step" (CNat 0)) "Terminal" raised)
  | Some w =>
      match (if behavior_none (bc_behavior c) then Some w
             else set_behavior (bc_scenario c) (bc_behavior c) w) with
      | None => CRaise
      | Some w =>
          match make_evaluators (bc_scenario c) (bc_set c) with
          | None => CRaise
          | Some es => run_steps fuel t c keep w es 0 (if keep then [w] else [])
          end
      end
  end.

(** benchmark_runner.py 286: result_dict, scenario_history = ... ; a dict of
    other than two keys cannot be unpacked.  [row_idx] reads "config_idx". *)
Definition exec_config (fuel : nat) (t : terminal_when) (keep : bool)
    (c : bconfig B Sc cell) : option (Model_Benchmark.row (dct cell) * list W) :=
  match run_config fuel t keep c with
  | CTuple r h =>
      match dget r "config_idx" with
      | Some (CNat i) => Some ({| r_idx := i; r_data := r |}, h)
      | _ => None
      end
  | _ => None
  end.

End Run.

(* ------------------------------------------------------------------ *)
(* Loading configurations and histories, benchmark_result.py 158-210 *)

Section Load.
Context {C H : Type}.
Notation member := (member C H).
Notation item := (item C H).

(** benchmark_result.py 190-209 (_load_and_merge with _find_files_to_load): an
    empty or missing index list means everything. *)
Definition files_to_load (k : kind) (ms : list member) (idxs : list nat) : list member :=
  match idxs with
  | [] => of_kind k ms
  | _ => filter (fun m => existsb (fun i => existsb (Nat.eqb i) (map fst (snd m))) idxs) (of_kind k ms)
  end.

Definition load_and_merge (k : kind) (ms : list member) (idxs : list nat) : list (nat * item) :=
  fold_left (fun d m => fold_left (fun d kv => dict_set d (fst kv) (snd kv)) (snd m) d)
            (files_to_load k ms idxs) [].

Definition item_conf (x : nat * item) : list (conf C) :=
  match snd x with ItC c => [c] | ItH _ => [] end.

(** benchmark_result.py 174-188 (load_benchmark_configs): the configurations
    after the call. *)
Definition load_benchmark_configs (have : list (conf C)) (ms : list member)
    (idxs : option (list nat)) : list (conf C) :=
  let missing := match idxs with
                 | None | Some [] => []
                 | Some l => filter (fun i => negb (existsb (Nat.eqb i) (map c_idx have))) l
                 end in
  have ++ flat_map item_conf (load_and_merge Configs ms missing).

End Load.
