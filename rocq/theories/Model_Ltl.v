(** bark/world/evaluation/ltl/evaluator_ltl.cpp.

    The rule monitor library is external (ltl/rule_monitor.h, not in the repository): its operations are
    fields of the record [Monitor]. AgentId is cast to int in the code; ids are plain numbers here.
    safety_violations_ is an unbounded number. Observing the world through the observer model is the
    business of [eval_view] (Model_Eval.v); one observed world is reduced here to what the evaluator
    reads from it. *)
From Coq Require Import List NArith QArith Bool.
From Verif Require Import Model_Map.
Import ListNotations.

(** External operations: a rule state carries the agent ids it talks about. Evaluate and FinalTransit
    both get the rule state by reference, so both may change it (they return a penalty). *)
Record Monitor := mkMonitor {
  RS : Type;                          (* RuleState *)
  Lab : Type;                         (* a label key (name and agent id) *)
  lab_eqb : Lab -> Lab -> bool;
  is_agent_specific : bool;           (* RuleMonitor::IsAgentSpecific *)
  make_initial : list RS;             (* RuleMonitor::MakeRuleState() *)
  make_new : list N -> list N -> list RS; (* RuleMonitor::MakeRuleState(current, known) *)
  rs_ids : RS -> list N;              (* RuleState::GetAgentIds *)
  aut_eval : list (Lab * bool) -> RS -> RS * Q;
  aut_final : RS -> RS * Q }.

Section Ltl.
  Variable M : Monitor.

  (** what one evaluation reads from an observed world: ids of GetValidOtherAgents (in map order) and the
      label map returned by every label function, in order *)
  Record obs := mkObs { o_others : list N; o_labels : list (list (Lab M * bool)) }.

  (** evaluator_ltl.hpp:60-66 *)
  Record ltl_state := mkLtl { safety_violations : nat; rule_states : list (RS M); known_agents : kmap unit }.

  Definition lookup (k : Lab M) (m : list (Lab M * bool)) : option bool :=
    option_map snd (find (fun p => lab_eqb M k (fst p)) m).
  (** unordered_map::insert(first,last): an existing key keeps its value *)
  Definition insert_labels (m new : list (Lab M * bool)) : list (Lab M * bool) :=
    fold_left (fun m p => match lookup (fst p) m with Some _ => m | None => m ++ [p] end) new m.
  (** evaluator_ltl.cpp:99-107 EvaluateLabels *)
  Definition evaluate_labels (ls : list (list (Lab M * bool))) : list (Lab M * bool) :=
    fold_left insert_labels ls [].

  (** evaluator_ltl.cpp:30-39, the constructor; None: MakeRuleState() returned nothing ([0] of an empty
      vector) *)
  Definition ltl_new : option ltl_state :=
    if is_agent_specific M then Some (mkLtl 0 [] [])
    else match make_initial M with [] => None | r :: _ => Some (mkLtl 0 [r] []) end.

  (** evaluator_ltl.cpp:117-119 AddKnownAgents *)
  Definition add_known (known : kmap unit) (ids : list N) : kmap unit :=
    fold_left (fun m i => m_insert i tt m) ids known.

  (** evaluator_ltl.cpp:123-142 RemoveRuleStates: the (sorted) set difference of the rule state's ids and
      the current ids is empty. [set_difference] is a multiset difference; it is empty exactly if every
      id of the tuple occurs at least as often among the current ids. *)
  Definition ids_present (cur ids : list N) : bool :=
    forallb (fun i => Nat.leb (count_occ N.eq_dec ids i) (count_occ N.eq_dec cur i)) ids.
  Definition remove_rule_states (cur : list N) (l : list (RS M)) : list (RS M) :=
    filter (fun r => ids_present cur (rs_ids M r)) l.

  (** evaluator_ltl.cpp:52-72 *)
  Definition update_states (s : ltl_state) (cur : list N) : ltl_state :=
    if is_agent_specific M then
      mkLtl (safety_violations s)
            (remove_rule_states cur (rule_states s ++ make_new M cur (map fst (known_agents s))))
            (add_known (known_agents s) cur)
    else s.

  Definition nonzero (q : Q) : bool := negb (Qeq_bool q 0).

  (** evaluator_ltl.cpp:79-96, the loop over the rule states; [v] is safety_violations_, [g] is
      guarantee_violations *)
  Fixpoint eval_states (labels : list (Lab M * bool)) (l : list (RS M)) (v g : nat)
    : list (RS M) * nat * nat :=
    match l with
    | [] => ([], v, g)
    | r :: rest =>
        let e := aut_eval M labels r in
        let v' := if nonzero (snd e) then S v else v in
        let f := aut_final M (fst e) in
        let g' := if nonzero (snd f) then S g else g in
        let '(rest', v2, g2) := eval_states labels rest v' g' in
        (fst f :: rest', v2, g2)
    end.

  (** evaluator_ltl.cpp:50-98 Evaluate(ObservedWorld): new state and returned number *)
  Definition ltl_observe (s : ltl_state) (o : obs) : ltl_state * nat :=
    let s1 := update_states s (o_others o) in
    let '(rs, v, g) := eval_states (evaluate_labels (o_labels o)) (rule_states s1) (safety_violations s1) 0 in
    (mkLtl v rs (known_agents s1), (v + g)%nat).

  (** evaluator_ltl.cpp:41-48 Evaluate(World): [None] = the evaluated agent is not in the world *)
  Definition ltl_eval (s : ltl_state) (o : option obs) : ltl_state * nat :=
    match o with Some o => ltl_observe s o | None => (s, safety_violations s) end.

  Fixpoint ltl_run (s : ltl_state) (h : list (option obs)) : ltl_state * list nat :=
    match h with
    | [] => (s, [])
    | o :: r => let e := ltl_eval s o in
                let q := ltl_run (fst e) r in (fst q, snd e :: snd q)
    end.
End Ltl.
Arguments mkObs {M}.
Arguments o_others {M}.
Arguments o_labels {M}.
Arguments mkLtl {M}.
Arguments safety_violations {M}.
Arguments rule_states {M}.
Arguments known_agents {M}.
