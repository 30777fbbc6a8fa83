(** C32: temporal rule evaluation. *)
From Coq Require Import List NArith QArith Bool Lia.
From Verif Require Import Model_Map Proof_Map Model_Ltl Spec_Ltl Proof_Ltl.
Import ListNotations.
Local Open Scope nat_scope.

(** The safety violation count never decreases, and every reported number is at least that count,
    whatever the monitor library does. *)
Theorem C32_violations_never_decrease :
  forall (M : Monitor) (s : ltl_state M) (o : option (obs M)) s' n,
  ltl_eval M s o = (s', n) ->
  safety_violations s <= safety_violations s' /\ safety_violations s' <= n.
Proof.
  intros M s [o|] s' n; cbn [ltl_eval].
  - intros E. pose proof (violations_mono_obs M s o) as V. rewrite E in V. apply observe_state in E as (_ & _ & _ & ->).
    cbn in V. lia.
  - intros H; injection H as <- <-. lia.
Qed.
Print Assumptions C32_violations_never_decrease.

(** Which tuples are monitored: after any history of evaluations of a rule about other agents, exactly
    the wanted tuples that have been completely present, without interruption, since an observation in
    which one of their agents was seen for the first time; each has exactly one monitor state. *)
Theorem C32_monitored_exactly :
  forall (M : Monitor) wanted s0 (h : list (option (obs M))),
  is_agent_specific M = true -> monitor_ok M wanted -> ltl_new M = Some s0 ->
  Forall (fun o => NoDup (o_others o)) (made h) ->
  let states := rule_states (fst (ltl_run M s0 h)) in
  NoDup (map (rs_ids M) states) /\
  (forall t, In t (map (rs_ids M) states) <-> exists m, monitored_since wanted (made h) m t).
Proof.
  intros M wanted s0 h Hs Hok H0 Hn. unfold ltl_new in H0. rewrite Hs in H0. injection H0 as <-.
  cbn zeta. rewrite run_made. exact (monitored_main M Hs wanted Hok (made h) Hn).
Qed.
Print Assumptions C32_monitored_exactly.

(** An agent tuple whose agents have all been seen and of which one then disappears is never monitored
    again, even if all its agents are present again. *)
Theorem C32_reappearing_never_monitored :
  forall (M : Monitor) wanted s0 (h : list (option (obs M))) t k,
  is_agent_specific M = true -> monitor_ok M wanted -> ltl_new M = Some s0 ->
  Forall (fun o => NoDup (o_others o)) (made h) ->
  (forall i, In i t -> exists j o, j < k /\ nth_error (made h) j = Some o /\ In i (o_others o)) ->
  k < length (made h) -> ~ present (made h) k t ->
  ~ In t (map (rs_ids M) (rule_states (fst (ltl_run M s0 h)))).
Proof.
  intros M wanted s0 h t k Hs Hok H0 Hn Hseen Hk Habs Hin.
  destruct (C32_monitored_exactly M wanted s0 h Hs Hok H0 Hn) as [_ IF].
  apply IF in Hin as (m & L & _ & (i & Hi & Hu) & P). destruct (le_lt_dec m k) as [Hle|Hlt].
  - apply Habs, P. lia.
  - destruct (Hseen i Hi) as (j & o & Lj & Ej & Ij). apply (Hu j o ltac:(lia) Ej Ij).
Qed.
Print Assumptions C32_reappearing_never_monitored.

(** The violation count is exactly the number of penalised automaton steps, summed over the monitoring
    episodes: one per rule state created at some observation, running while all its agents are present. *)
Theorem C32_violations_counted_exactly :
  forall (M : Monitor) wanted s0 (h : list (option (obs M))),
  is_agent_specific M = true -> monitor_ok M wanted -> ltl_new M = Some s0 ->
  Forall (fun o => NoDup (o_others o)) (made h) ->
  safety_violations (fst (ltl_run M s0 h)) =
  total (fun m => list_sum (map (fun r => episode (all_present r) r (skipn m (made h))) (created (made h) m)))
        (length (made h)).
Proof.
  intros M wanted s0 h Hs Hok H0 Hn. unfold ltl_new in H0. rewrite Hs in H0. injection H0 as <-.
  rewrite run_made. exact (count_main M Hs wanted Hok (made h) Hn).
Qed.
Print Assumptions C32_violations_counted_exactly.

(** A rule that does not talk about other agents has one automaton that is stepped by every evaluation. *)
Theorem C32_plain_rule :
  forall (M : Monitor) s0 r rest (h : list (option (obs M))),
  is_agent_specific M = false -> make_initial M = r :: rest -> ltl_new M = Some s0 ->
  safety_violations (fst (ltl_run M s0 h)) = episode (fun _ => true) r (made h) /\
  rule_states (fst (ltl_run M s0 h)) = [fold_left (fun r o => advance o r) (made h) r].
Proof.
  intros M s0 r rest h Hs Hi H0. unfold ltl_new in H0. rewrite Hs, Hi in H0. injection H0 as <-.
  rewrite run_made. destruct (plain_count M Hs r (made h) 0 []) as (A & k' & B & _). split; [rewrite A; reflexivity|exact B].
Qed.
Print Assumptions C32_plain_rule.

(** What one evaluation reports: the violations so far plus the number of monitored automata that would
    violate the rule if the trace ended now; the latter are not remembered. *)
Theorem C32_reported_number :
  forall (M : Monitor) (s : ltl_state M) (o : option (obs M)) s' n,
  ltl_eval M s o = (s', n) ->
  match o with
  | None => n = safety_violations s /\ s' = s
  | Some ob => exists stepped, rule_states s' = map (fun r => fst (aut_final M r)) stepped /\
      n = safety_violations s' + length (filter (fun r => negb (Qeq_bool (snd (aut_final M r)) 0)) stepped)
  end.
Proof.
  intros M s [o|] s' n E; cbn [ltl_eval] in E.
  - apply observe_state in E as (E1 & _ & _ & E4).
    exists (map (fun r => fst (aut_eval M (evaluate_labels M (o_labels o)) r)) (rule_states (update_states M s (o_others o)))).
    split; [rewrite E1, map_map; reflexivity|]. rewrite E4. f_equal.
    clear E1 E4. induction (rule_states (update_states M s (o_others o))) as [|r l IH]; cbn; auto. unfold nonzero in *.
    match goal with |- context [if ?c then _ :: _ else _] => destruct c end; cbn; auto.
  - injection E as <- <-. auto.
Qed.
Print Assumptions C32_reported_number.

(** Labels: the first label function that yields a value for a label wins. *)
Theorem C32_first_label_wins :
  forall (M : Monitor) (ls : list (list (Lab M * bool))) k,
  (forall a b, lab_eqb M a b = true <-> a = b) ->
  lookup M k (evaluate_labels M ls) = lookup M k (concat ls).
Proof.
  intros M ls k Heq.
  assert (LA : forall a b, lookup M k (a ++ b) = match lookup M k a with Some v => Some v | None => lookup M k b end).
  { intros a b. unfold lookup. induction a as [|p a IH]; cbn; auto. destruct (lab_eqb M k (fst p)); cbn; auto. }
  assert (LI : forall new m, lookup M k (insert_labels M m new) = lookup M k (m ++ new)).
  { induction new as [|p new IH]; intros m; cbn [insert_labels fold_left]; [now rewrite app_nil_r|].
    fold (insert_labels M (match lookup M (fst p) m with Some _ => m | None => m ++ [p] end) new).
    rewrite IH, !LA. destruct (lookup M (fst p) m) as [v|] eqn:E.
    - destruct (lookup M k m) eqn:Ek; [reflexivity|].
      unfold lookup at 2. cbn [find]. destruct (lab_eqb M k (fst p)) eqn:Ekp; [|reflexivity].
      apply Heq in Ekp. subst k. congruence.
    - rewrite LA. destruct (lookup M k m); [reflexivity|]. unfold lookup at 3. cbn [find].
      unfold lookup at 1. cbn [find]. destruct (lab_eqb M k (fst p)); reflexivity. }
  assert (G : forall ls m, lookup M k (fold_left (insert_labels M) ls m) = lookup M k (m ++ concat ls)).
  { induction ls0 as [|l ls0 IH]; intros m; cbn [fold_left concat]; [now rewrite app_nil_r|].
    rewrite IH, LA, LI, !LA. destruct (lookup M k m); [reflexivity|]. reflexivity. }
  exact (G ls []).
Qed.
Print Assumptions C32_first_label_wins.

(** A concrete monitor meeting the contract: the rule "label 0 never holds" about every single other agent;
    rule state = (ids, number of steps so far). *)
Definition unary_monitor : Monitor := {|
  RS := list N * nat; Lab := N; lab_eqb := N.eqb; is_agent_specific := true; make_initial := [];
  make_new := fun cur known => map (fun i => ([i], 0)) (filter (fun i => negb (existsb (N.eqb i) known)) cur);
  rs_ids := fst;
  aut_eval := fun labels r => ((fst r, S (snd r)),
     if existsb (fun p => existsb (N.eqb (fst p)) (fst r) && snd p) labels then (-1)%Q else 0%Q);
  aut_final := fun r => (r, if Nat.ltb (snd r) 2 then (-1)%Q else 0%Q) |}.

Lemma unary_ok : monitor_ok unary_monitor (fun t => exists i, t = [i]).
Proof.
  constructor; cbn.
  - intros t [i ->]. repeat constructor. intros [].
  - intros l r. reflexivity.
  - intros r. reflexivity.
  - intros cur known Hn. rewrite map_map. cbn. split.
    + apply NoDup_filter with (f := fun i => negb (existsb (N.eqb i) known)) in Hn.
      induction Hn as [|x l Hx Hl IH]; cbn; constructor; auto. rewrite in_map_iff. intros (y & E & Hy).
      injection E as ->. tauto.
    + intros t. rewrite in_map_iff. split.
      * intros (i & <- & Hi). apply filter_In in Hi as [Hi Hk]. split; [eauto|]. split; [intros x [<-|[]]; exact Hi|].
        exists i. split; [now left|]. intros Hin. apply negb_true_iff in Hk.
        assert (existsb (N.eqb i) known = true) by (apply existsb_exists; exists i; split; [exact Hin|apply N.eqb_refl]).
        congruence.
      * intros ((i & ->) & Hi & (j & [<-|[]] & Hk)). exists i. split; [reflexivity|]. apply filter_In.
        split; [apply Hi; now left|]. apply negb_true_iff. apply not_true_is_false. intros E.
        apply existsb_exists in E as (x & Hx & E). apply N.eqb_eq in E. subst. tauto.
Qed.

(** agents 1 and 2 seen; 1 leaves; 1 returns (and violates the rule, unnoticed); 2 violates it once. *)
Definition unary_history : list (option (obs unary_monitor)) :=
  [Some (@mkObs unary_monitor [1; 2]%N [[(1, false)]; [(1, true); (2, false)]]%N);
   None;
   Some (@mkObs unary_monitor [2]%N [[(2, true)]]%N);
   Some (@mkObs unary_monitor [1; 2]%N [[(1, true); (2, false)]]%N)].
Example C32_nonvacuous :
  Forall (fun o => NoDup (o_others o)) (made unary_history) /\
  exists s0, ltl_new unary_monitor = Some s0 /\
    snd (ltl_run unary_monitor s0 unary_history) = [2; 0; 1; 1] /\
    map fst (rule_states (fst (ltl_run unary_monitor s0 unary_history))) = [[2%N]] /\
    present (made unary_history) 2 [1%N] /\ ~ present (made unary_history) 1 [1%N].
Proof.
  split. { cbn. repeat constructor; cbn; intuition discriminate. }
  eexists. split; [reflexivity|]. split; [vm_compute; reflexivity|]. split; [vm_compute; reflexivity|]. split.
  - eexists. split; [reflexivity|]. intros x [<-|[]]. cbn. auto.
  - intros (o & E & I). cbn in E. injection E as <-. specialize (I 1%N (or_introl eq_refl)). cbn in I.
    destruct I as [I|[]]. discriminate.
Qed.
