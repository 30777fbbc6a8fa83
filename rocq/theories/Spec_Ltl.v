(** Specification vocabulary for C32: monitoring episodes over a history of observed worlds. *)
From Coq Require Import List NArith QArith Bool.
From Verif Require Import Model_Map Model_Ltl.
Import ListNotations.

Section Spec.
  Variable M : Monitor.

  (** Contract of the external monitor library. [wanted] says which id tuples the rule talks about (e.g.
      all tuples of k different agents). MakeRuleState(current, known) returns one fresh rule state for
      every wanted tuple of current agents that contains an agent not known yet; stepping an automaton
      does not change the ids of a rule state. *)
  Record monitor_ok (wanted : list N -> Prop) : Prop := {
    mo_wanted : forall t, wanted t -> NoDup t;
    mo_eval_ids : forall l r, rs_ids M (fst (aut_eval M l r)) = rs_ids M r;
    mo_final_ids : forall r, rs_ids M (fst (aut_final M r)) = rs_ids M r;
    mo_new : forall cur known, NoDup cur ->
      NoDup (map (rs_ids M) (make_new M cur known)) /\
      forall t, In t (map (rs_ids M) (make_new M cur known)) <->
        (wanted t /\ incl t cur /\ exists i, In i t /\ ~ In i known) }.

  (** the observations actually made (the evaluated agent was in the world) *)
  Definition made (h : list (option (obs M))) : list (obs M) :=
    flat_map (fun o => match o with Some x => [x] | None => [] end) h.

  (** all ids of tuple [t] are among the other agents of the [m]-th observation *)
  Definition present (H : list (obs M)) (m : nat) (t : list N) : Prop :=
    exists o, nth_error H m = Some o /\ incl t (o_others o).
  (** agent [i] was not among the other agents before the [m]-th observation *)
  Definition unseen_before (H : list (obs M)) (m : nat) (i : N) : Prop :=
    forall j o, (j < m)%nat -> nth_error H j = Some o -> ~ In i (o_others o).

  (** the tuple has been under observation since the [m]-th observation, which was the first one that
      contained all its agents with at least one of them new *)
  Definition monitored_since (wanted : list N -> Prop) (H : list (obs M)) (m : nat) (t : list N) : Prop :=
    (m < length H)%nat /\ wanted t /\
    (exists i, In i t /\ unseen_before H m i) /\
    (forall k, (m <= k < length H)%nat -> present H k t).

  (** one evaluation of one automaton: penalised or not, and the next automaton state *)
  Definition penalised (o : obs M) (r : RS M) : nat :=
    if Qeq_bool (snd (aut_eval M (evaluate_labels M (o_labels o)) r)) 0 then 0%nat else 1%nat.
  Definition advance (o : obs M) (r : RS M) : RS M :=
    fst (aut_final M (fst (aut_eval M (evaluate_labels M (o_labels o)) r))).

  (** number of penalised steps of an automaton started in [r] as long as [alive] holds *)
  Fixpoint episode (alive : obs M -> bool) (r : RS M) (H : list (obs M)) : nat :=
    match H with
    | [] => 0
    | o :: H' => if alive o then penalised o r + episode alive (advance o r) H' else 0
    end.
  (** all ids of the rule state are present *)
  Definition all_present (r : RS M) (o : obs M) : bool :=
    forallb (fun i => existsb (N.eqb i) (o_others o)) (rs_ids M r).

  (** the increasing list of ids seen before the [m]-th observation *)
  Definition seen (H : list (obs M)) (m : nat) : list N :=
    map fst (fold_left (fun s i => m_insert i tt s) (flat_map o_others (firstn m H)) []).
  (** the rule states created at the [m]-th observation *)
  Definition created (H : list (obs M)) (m : nat) : list (RS M) :=
    match nth_error H m with None => [] | Some o => make_new M (o_others o) (seen H m) end.

  Definition total (f : nat -> nat) (n : nat) : nat := list_sum (map f (seq 0 n)).
End Spec.
Arguments made {M}.
Arguments present {M}.
Arguments unseen_before {M}.
Arguments monitored_since {M}.
Arguments penalised {M}.
Arguments advance {M}.
Arguments episode {M}.
Arguments all_present {M}.
Arguments seen {M}.
Arguments created {M}.
