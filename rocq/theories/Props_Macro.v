(** C42: macro actions select primitives. *)
From Coq Require Import Reals List Bool ZArith Arith Lra Lia.
From Verif Require Import Base_Real Base_Ext Base_Geom Model_Line Model_Frenet Model_Dynamic Model_IDM Props_IDM Toy_Road
  Model_Primitives Props_Primitives.
Import ListNotations.
Local Open Scope R_scope.

(** The corridor the behavior is heading for: its target or, without one, the ego's lane corridor. *)
Definition heading_for (s : macro) (w : pworld) (c : corr) : Prop :=
  match ma_target s with Some t => c = t | None => pw_lane w = Some c end.
Definition around (w : pworld) (c : corr) : adjacent := mkAdj (Some c) (fst (pw_sides w c)) (snd (pw_sides w c)).
(** The primitives whose precondition holds, in the order of the list. *)
Definition holds (w : pworld) (adj : adjacent) (p : prim) : bool := match prim_pre p w adj with Some true => true | _ => false end.
Definition available (s : macro) (w : pworld) (c : corr) : list prim := filter (holds w (around w c)) (ma_prims s).

Lemma valid_from_filter w adj : forall ps i l, valid_from i ps w adj = Some l ->
  (forall ps0, length ps0 = i -> map (nth_error (ps0 ++ ps)) l = map Some (filter (holds w adj) ps)) /\
  (forall p, In p ps -> prim_pre p w adj <> None).
Proof.
  induction ps as [|p ps IH]; intros i l H; cbn [valid_from] in H.
  { inversion H. split; [reflexivity|intros ? []]. }
  bnd H ok OK. bnd H l' L. inversion H; subst; clear H. destruct (IH _ _ L) as [A B]. split.
  - intros ps0 E. cbn [filter]. unfold holds at 1. rewrite OK.
    assert (R : map (nth_error (ps0 ++ p :: ps)) l' = map Some (filter (holds w adj) ps)).
    { replace (ps0 ++ p :: ps) with ((ps0 ++ [p]) ++ ps) by (rewrite <- app_assoc; reflexivity). apply A. rewrite app_length. cbn. lia. }
    destruct ok; cbn [map]; rewrite R; auto. f_equal. rewrite nth_error_app2, E, Nat.sub_diag by lia. reflexivity.
  - intros q [<-|Hq]; [congruence|auto].
Qed.
Lemma replace_same {A} (l : list A) i x y : nth_error l i = Some y -> nth_error (replace l i x) i = Some x.
Proof.
  intros H. assert (i < length l)%nat by (apply nth_error_Some; congruence). unfold replace.
  rewrite nth_error_app2; rewrite firstn_length_le by lia; [|lia]. now rewrite Nat.sub_diag.
Qed.
Lemma replace_other {A} : forall (l : list A) i j x, (i < length l)%nat -> i <> j -> nth_error (replace l i x) j = nth_error l j.
Proof.
  intros l i. revert l. induction i as [|i IH]; intros [|a l] j x L N; cbn in L; try lia; destruct j as [|j]; try lia; try reflexivity.
  cbn. apply (IH l j x); lia.
Qed.
Lemma replace_length {A} (l : list A) i x : (i < length l)%nat -> length (replace l i x) = length l.
Proof. intros H. unfold replace. rewrite app_length, firstn_length_le by lia. cbn [length]. rewrite skipn_length. lia. Qed.

Lemma ma_plan_inv s w T s' tr : ma_plan s w T = Some (s', tr) ->
  exists c i j p p' q, heading_for s w c /\ ma_active s = DiscreteAction i /\
    nth_error (ma_prims s) j = Some p /\ prim_plan p w T (prim_select p w (around w c)) = Some (p', tr) /\
    (ma_check s = false -> j = i /\ ma_valid s' = ma_valid s) /\
    (ma_check s = true -> nth_error (ma_valid s') i = Some j /\
       (ma_valid s = [] -> valid_from 0 (ma_prims s) w (around w c) = Some (ma_valid s')) /\
       (ma_valid s <> [] -> ma_valid s' = ma_valid s)) /\
    ma_prims s' = replace (ma_prims s) j p' /\ nth_error (ma_prims s') i = Some q /\ ma_last s' = p_last q /\
    ma_target s' = prim_select p w (around w c) /\ ma_traj s' = tr /\ ma_status s' = VALID /\
    ma_check s' = ma_check s /\ ma_active s' = ma_active s.
Proof.
  intros H. unfold ma_plan, ma_corridors in H. bnd H ca CA. bnd CA c EC.
  destruct (pw_sides w c) as [l r] eqn:SD. inversion CA; subst; clear CA.
  assert (AD : mkAdj (Some c) l r = around w c) by (unfold around; rewrite SD; reflexivity). rewrite AD in H. bnd H valid V.
  destruct (ma_active s) as [?|? ?|?|i] eqn:ACT; try discriminate H. bnd H j J. bnd H p P. cbv zeta in H. bnd H pr0 PT. bnd H q Q. destruct pr0 as [p' tr'].
  cbn [fst snd] in *. inversion H; subst; clear H. cbn [ma_valid ma_prims ma_last ma_target ma_traj ma_status ma_check ma_active].
  exists c, i, j, p, p', q. split. { unfold heading_for. destruct (ma_target s); congruence. }
  split; auto. split; auto. split; auto. split; [intros CH|split; [intros CH|]].
  - rewrite CH in *. inversion J; inversion V; auto.
  - rewrite CH in *. split; auto. destruct (ma_valid s) as [|x v] eqn:VS; split; intros X; try congruence.
  - repeat split; auto.
Qed.

(** Without the validity check, action i executes the primitive with index i; the last action and trajectory are those
    of that primitive, the other primitives are not touched, and the target corridor is the one the primitive chose. *)
Theorem C42_action_executes_its_primitive : forall s w T s' tr, ma_check s = false -> ma_plan s w T = Some (s', tr) ->
  exists c i p p', heading_for s w c /\ ma_active s = DiscreteAction i /\ nth_error (ma_prims s) i = Some p /\
    prim_plan p w T (prim_select p w (around w c)) = Some (p', tr) /\ ma_target s' = prim_select p w (around w c) /\
    ma_last s' = p_last p' /\ ma_traj s' = tr /\ nth_error (ma_prims s') i = Some p' /\
    (forall k, k <> i -> nth_error (ma_prims s') k = nth_error (ma_prims s) k) /\ ma_num s' = ma_num s.
Proof.
  intros s w T s' tr CH H. destruct (ma_plan_inv _ _ _ _ _ H) as (c & i & j & p & p' & q & HF & A & P & PL & NC & _ & PR & Q & LA & TG & TR & _).
  destruct (NC CH) as [-> _]. exists c, i, p, p'. assert (LT : (i < length (ma_prims s))%nat) by (apply nth_error_Some; congruence).
  assert (E : nth_error (ma_prims s') i = Some p') by (rewrite PR; eapply replace_same; eauto).
  repeat split; auto.
  - congruence.
  - intros k K. rewrite PR. apply replace_other; auto.
  - unfold ma_num. rewrite PR. now apply replace_length.
Qed.
(** An index beyond the last primitive, or an action that is not an index, is an error. *)
Theorem C42_unknown_action : forall s w T, (forall i, ma_active s = DiscreteAction i -> (ma_num s <= i)%nat) -> ma_plan s w T = None.
Proof.
  intros s w T H. destruct (ma_plan s w T) as [[s' tr]|] eqn:E; auto. exfalso.
  destruct (ma_plan_inv _ _ _ _ _ E) as (c & i & j & p & p' & q & _ & A & P & _ & _ & _ & PR & Q & _).
  specialize (H _ A). unfold ma_num in H.
  assert (i < length (ma_prims s'))%nat by (apply nth_error_Some; congruence).
  assert (j < length (ma_prims s))%nat by (apply nth_error_Some; congruence).
  rewrite PR, replace_length in H0 by auto. lia.
Qed.

(** With the check, the first plan executes the i-th of the primitives that are available now ... *)
Theorem C42_first_plan_with_check : forall s w T s' tr, ma_check s = true -> ma_valid s = [] -> ma_plan s w T = Some (s', tr) ->
  exists c i p p', heading_for s w c /\ ma_active s = DiscreteAction i /\ nth_error (available s w c) i = Some p /\
    prim_plan p w T (prim_select p w (around w c)) = Some (p', tr) /\ ma_target s' = prim_select p w (around w c) /\ ma_traj s' = tr.
Proof.
  intros s w T s' tr CH V H. destruct (ma_plan_inv _ _ _ _ _ H) as (c & i & j & p & p' & q & HF & A & P & PL & _ & VC & PR & Q & LA & TG & TR & _).
  destruct (VC CH) as (N & F & _). specialize (F V). apply valid_from_filter in F. destruct F as [F _]. specialize (F [] eq_refl). cbn [app] in F.
  exists c, i, p, p'. repeat split; auto. apply (f_equal (fun l => nth_error l i)) in F. rewrite !nth_error_map, N in F. cbn in F.
  unfold available. destruct (nth_error (filter _ _) i) as [x|]; cbn in F; congruence.
Qed.
(** ... but the available set is never computed again: later actions index the primitives that were available then. *)
Lemma mstep_frozen s o s' : mstep s o = Some s' -> ma_check s = true -> ma_valid s <> [] -> ma_valid s' = ma_valid s /\ ma_check s' = true.
Proof.
  intros H CH V. destruct o as [p| |a|w T]; cbn in H.
  - inversion H. auto.
  - inversion H. auto.
  - inversion H. auto.
  - destruct (ma_plan s w T) as [[s1 tr]|] eqn:E; cbn in H; [|discriminate]. inversion H; subst.
    destruct (ma_plan_inv _ _ _ _ _ E) as (c & i & j & p & p' & q & _ & _ & _ & _ & _ & VC & _ & _ & _ & _ & _ & _ & CK & _).
    split; [apply VC; auto|congruence].
Qed.
Theorem C42_available_set_is_frozen : forall os s s', mrun s os = Some s' -> ma_check s = true -> ma_valid s <> [] ->
  ma_valid_primitives s' = ma_valid_primitives s.
Proof.
  unfold ma_valid_primitives. induction os as [|o os IH]; intros s s' H CH V; cbn in H; [now inversion H|].
  destruct (mstep s o) as [s1|] eqn:E; cbn in H; [|discriminate]. destruct (mstep_frozen _ _ _ E CH V) as [E1 C1].
  rewrite (IH _ _ H C1) by congruence. auto.
Qed.
Theorem C42_later_plans : forall os s s1 w T s' tr, mrun s os = Some s1 -> ma_check s = true -> ma_valid s <> [] ->
  ma_plan s1 w T = Some (s', tr) ->
  exists i j p p' target, ma_active s1 = DiscreteAction i /\ nth_error (ma_valid_primitives s) i = Some j /\
    nth_error (ma_prims s1) j = Some p /\ prim_plan p w T target = Some (p', tr).
Proof.
  intros os s s1 w T s' tr R CH V H. pose proof (C42_available_set_is_frozen _ _ _ R CH V) as FR.
  assert (CH1 : ma_check s1 = true).
  { clear H FR. revert s R CH V. induction os as [|o os IH]; intros s R CH V; cbn in R; [inversion R; congruence|].
    destruct (mstep s o) as [s2|] eqn:E; cbn in R; [|discriminate]. destruct (mstep_frozen _ _ _ E CH V) as [E1 C1]. apply (IH s2); auto. congruence. }
  destruct (ma_plan_inv _ _ _ _ _ H) as (c & i & j & p & p' & q & _ & A & P & PL & _ & VC & _).
  unfold ma_valid_primitives in *. destruct (VC CH1) as (N & _ & F). rewrite F in N by congruence. rewrite FR in N.
  exists i, j, p, p', (prim_select p w (around w c)). auto.
Qed.
Print Assumptions C42_later_plans.

(** A legal action under the check: its index must be below the number of available primitives, but the number that is
    reported counts all primitives. *)
Theorem C42_legal_actions : forall s w T s' tr c, ma_check s = true -> ma_valid s = [] -> ma_plan s w T = Some (s', tr) -> heading_for s w c ->
  exists i, ma_active s = DiscreteAction i /\ (i < length (available s w c) <= ma_num s)%nat.
Proof.
  intros s w T s' tr c CH V H HF. destruct (C42_first_plan_with_check _ _ _ _ _ CH V H) as (c' & i & p & p' & HF' & A & N & _).
  assert (c' = c) as -> by (unfold heading_for in *; destruct (ma_target s); congruence).
  exists i. split; auto. split; [apply nth_error_Some; congruence|]. unfold available, ma_num. clear. induction (ma_prims s) as [|x l IH]; cbn; [lia|]. destruct (holds _ _ x); cbn; lia.
Qed.

(** *** Examples and counterexamples *)
Definition no_sides (c : corr) : option corr * option corr := (None, None).
Lemma ex_stay_pre a v c sides : prim_pre (ex_prim (StayLane a false)) (ex_world v sides) c = Some (Rleb (get_lon_acc_min ex_model v) a && Rleb a 8).
Proof. reflexivity. Qed.
Lemma ex_moving v : 1 <= v -> get_lon_acc_min ex_model v = -5.
Proof. intros H. unfold get_lon_acc_min. rewrite Rabs_right by lra. destruct (Rltb_spec v (1 / 100000)); [lra|reflexivity]. Qed.
Lemma ex_standing : get_lon_acc_min ex_model 0 = 0.
Proof. unfold get_lon_acc_min. rewrite Rabs_R0. destruct (Rltb_spec 0 (1 / 100000)); [reflexivity|lra]. Qed.

(** One plan of a behavior without target on the example road. *)
Lemma ex_ma_stay ps valid check target act last traj i j a v sides :
  nth_error ps j = Some (ex_prim (StayLane a false)) -> (i < length ps)%nat ->
  (target = None \/ target = Some (ex_lane 0)) ->
  (check = false -> j = i) ->
  (check = true -> nth_error (match valid with [] => match valid_from 0 ps (ex_world v sides) (around (ex_world v sides) (ex_lane 0)) with Some l => l | None => [] end | _ => valid end) i = Some j /\
     valid_from 0 ps (ex_world v sides) (around (ex_world v sides) (ex_lane 0)) <> None) ->
  act = DiscreteAction i ->
  exists s' tr p' s q, ma_plan (mkMA ps valid check target act last traj VALID) (ex_world v sides) 1 = Some (s', tr) /\
    ma_prims s' = replace ps j p' /\ p_last p' = InputAction [a; s] /\
    nth_error (ma_prims s') i = Some q /\ ma_last s' = p_last q /\ ma_target s' = Some (ex_lane 0).
Proof.
  intros PJ LI TG C0 C1 ->. destruct (ex_const_acc (StayLane a false) a v 0 sides) as (p' & tr & E & s & LS).
  assert (JL : (j < length ps)%nat) by (apply nth_error_Some; congruence).
  destruct (nth_error (replace ps j p') i) as [q|] eqn:Q; [|apply nth_error_None in Q; rewrite replace_length in Q by auto; lia].
  set (adj := around (ex_world v sides) (ex_lane 0)) in *.
  assert (CO : ma_corridors (mkMA ps valid check target (DiscreteAction i) last traj VALID) (ex_world v sides) = Some (ex_lane 0, adj)).
  { unfold ma_corridors. cbn [ma_target].
    assert (match target with Some c => Some c | None => pw_lane (ex_world v sides) end = Some (ex_lane 0)) as -> by (destruct TG as [->| ->]; reflexivity).
    cbn [bind]. unfold adj, around. destruct (pw_sides (ex_world v sides) (ex_lane 0)) as [l r]. reflexivity. }
  assert (VV : exists vl, (if check then match valid with [] => valid_from 0 ps (ex_world v sides) adj | v0 => Some v0 end else Some valid) = Some vl /\
     (if check then nth_error vl i else Some i) = Some j).
  { destruct check.
    - destruct (C1 eq_refl) as [N NN]. destruct (valid_from 0 ps _ adj) as [vl|]; [|congruence].
      destruct valid as [|v0 vr]; eexists; split; try reflexivity; exact N.
    - exists valid. split; auto. rewrite (C0 eq_refl). reflexivity. }
  destruct VV as (vl & V1 & V2).
  eexists _, tr, p', s, q. split.
  - unfold ma_plan. rewrite CO. cbn [bind ma_check ma_valid ma_prims ma_active]. match goal with |- bind ?x _ = _ => assert (x = Some vl) as -> by (destruct check; [destruct valid|]; exact V1) end. cbn [bind]. rewrite V2. cbn [bind]. rewrite PJ. cbn [bind].
    assert (prim_plan (ex_prim (StayLane a false)) (ex_world v sides) 1 (prim_select (ex_prim (StayLane a false)) (ex_world v sides) adj) = Some (p', tr)) as -> by exact E.
    cbn [bind fst snd]. rewrite Q. cbn [bind]. reflexivity.
  - repeat split; auto.
Qed.

Example C42_executes_nonvacuous : exists s' tr, ma_plan (ma_act (ma_new false [ex_prim (StayLane 0 false); ex_prim (StayLane 1 false)]) (DiscreteAction 1)) (ex_world 10 no_sides) 1 = Some (s', tr) /\
  exists s, ma_last s' = InputAction [1; s].
Proof.
  destruct (ex_ma_stay [ex_prim (StayLane 0 false); ex_prim (StayLane 1 false)] [] false None (DiscreteAction 1) (DiscreteAction 0) [] 1 1 1 10 no_sides) as (s' & tr & p' & s & q & E & PR & LS & Q & LA & _);
    auto; try discriminate. exists s', tr. split; [exact E|]. exists s. rewrite LA. rewrite PR in Q. cbn in Q. inversion Q; subst. exact LS.
Qed.

Lemma ex_two_valid v : 1 <= v -> valid_from 0 [ex_prim (StayLane 100 false); ex_prim (StayLane 1 false)] (ex_world v no_sides) (around (ex_world v no_sides) (ex_lane 0)) = Some [1%nat].
Proof.
  intros V. unfold valid_from. rewrite !ex_stay_pre, (ex_moving v V). cbn [bind].
  destruct (Rleb_spec 100 8); [lra|]. rewrite andb_false_r. destruct (Rleb_spec (-5) 1); [|lra]. destruct (Rleb_spec 1 8); [|lra]. reflexivity.
Qed.
(** The number of primitives that is reported includes actions that make Plan throw ... *)
Theorem C42_reported_number_refuted : exists s w i, ma_check s = true /\ (i < ma_num s)%nat /\ ma_plan (ma_act s (DiscreteAction i)) w 1 = None /\
  (exists j r, (j < ma_num s)%nat /\ ma_plan (ma_act s (DiscreteAction j)) w 1 = Some r).
Proof.
  set (ps := [ex_prim (StayLane 100 false); ex_prim (StayLane 1 false)]).
  exists (ma_new true ps), (ex_world 10 no_sides), 1%nat. split; auto. split; [cbn; lia|]. split.
  - destruct (ma_plan _ _ _) as [[s' tr]|] eqn:E; auto. exfalso.
    destruct (ma_plan_inv _ _ _ _ _ E) as (c & i & j & p & p' & q & HF & A & _ & _ & _ & VC & _). cbn in A. inversion A; subst i.
    destruct (VC eq_refl) as (N & F & _). specialize (F eq_refl). cbn in HF. inversion HF; subst c.
    change (ma_prims (ma_act (ma_new true ps) (DiscreteAction 1))) with ps in F. unfold ps in F. rewrite ex_two_valid in F by lra. inversion F as [F']. rewrite <- F' in N. discriminate N.
  - exists 0%nat. destruct (ex_ma_stay ps [] true None (DiscreteAction 0) (DiscreteAction 0) [] 0 1 1 10 no_sides) as (s' & tr & _ & _ & _ & E & _); auto; try (cbn; lia); try discriminate.
    + intros _. unfold ps. rewrite ex_two_valid by lra. split; [reflexivity|discriminate].
    + exists (s', tr). split; [cbn; lia|exact E].
Qed.
(** ... and the last action that is reported is that of the primitive whose index in the whole list is the action, even
    if another one was executed. *)
Theorem C42_reported_action_refuted : exists s w s' tr s0, ma_plan s w 1 = Some (s', tr) /\
  (exists p p', nth_error (available s w (ex_lane 0)) 0 = Some p /\ ma_active s = DiscreteAction 0 /\ prim_plan p w 1 (Some (ex_lane 0)) = Some (p', tr) /\ p_last p' = InputAction [1; s0]) /\
  ma_last s' = DiscreteAction 0.
Proof.
  set (ps := [ex_prim (StayLane 100 false); ex_prim (StayLane 1 false)]).
  destruct (ex_ma_stay ps [] true None (DiscreteAction 0) (DiscreteAction 0) [] 0 1 1 10 no_sides) as (s' & tr & p1 & s0 & q & E & PR & LS & Q & LA & TG); auto; try (cbn; lia); try discriminate.
  { intros _. unfold ps. rewrite ex_two_valid by lra. split; [reflexivity|discriminate]. }
  exists (ma_new true ps), (ex_world 10 no_sides), s', tr, s0. split; [exact E|]. split.
  - destruct (C42_first_plan_with_check _ _ _ _ _ (eq_refl : ma_check (ma_new true ps) = true) eq_refl E) as (c & i & p & p' & HF & A & N & PL & TG' & TR).
    cbn in HF. inversion HF; subst c. cbn in A. inversion A; subst i. exists p, p'. split; auto. split; [reflexivity|].
    rewrite TG in TG'. rewrite <- TG' in PL. split; auto.
    destruct (ma_plan_inv _ _ _ _ _ E) as (c & i & j & p2 & p2' & q2 & HF2 & A2 & P2 & PL2 & _ & VC & PR2 & _ & _ & TG2 & _).
    cbn in HF2. inversion HF2; subst c. cbn in A2. inversion A2; subst i. destruct (VC eq_refl) as (N2 & F2 & _). specialize (F2 eq_refl).
    change (ma_prims (ma_new true ps)) with ps in F2. unfold ps in F2. rewrite ex_two_valid in F2 by lra. inversion F2 as [F2']. rewrite <- F2' in N2. cbn in N2. inversion N2; subst j.
    cbn in P2. inversion P2; subst p2. unfold available in N. cbn [ma_prims ma_new ps filter] in N. unfold holds in N. rewrite !ex_stay_pre, (ex_moving 10) in N by lra.
    destruct (Rleb_spec 100 8); [lra|]. rewrite andb_false_r in N. destruct (Rleb_spec (-5) 1); [|lra]. destruct (Rleb_spec 1 8); [|lra]. cbn in N. inversion N; subst p.
    destruct (ex_const_acc (StayLane 1 false) 1 10 0 no_sides) as (p3 & tr3 & E3 & s3 & LS3).
    cbn [prim_plan p_kind ex_prim] in PL, PL2. rewrite <- TG2, TG in PL2. rewrite PL in PL2. inversion PL2; subst p2'.
    rewrite PR in PR2. unfold replace in PR2. cbn in PR2. inversion PR2. congruence.
  - rewrite LA. rewrite PR in Q. cbn in Q. inversion Q; subst. reflexivity.
Qed.
(** It is right if the primitives before it are all available. *)
Theorem C42_reported_action_partial : forall s w T s' tr, ma_plan s w T = Some (s', tr) ->
  (forall i, ma_active s = DiscreteAction i -> ma_check s = true -> nth_error (ma_valid s') i = Some i) ->
  exists i p p' target, ma_active s = DiscreteAction i /\ nth_error (ma_prims s) i = Some p /\ prim_plan p w T target = Some (p', tr) /\ ma_last s' = p_last p'.
Proof.
  intros s w T s' tr H ID. destruct (ma_plan_inv _ _ _ _ _ H) as (c & i & j & p & p' & q & HF & A & P & PL & NC & VC & PR & Q & LA & TG & TR & _).
  assert (j = i) as ->.
  { destruct (ma_check s) eqn:CH; [|apply (NC eq_refl)]. destruct (VC eq_refl) as (N & _). rewrite (ID i A eq_refl) in N. congruence. }
  exists i, p, p', (prim_select p w (around w c)). repeat split; auto. rewrite LA. rewrite PR, (replace_same _ _ p' _ P) in Q. congruence.
Qed.

(** An unavailable primitive is executed: available while driving, it is still selected at standstill. *)
Theorem C42_executes_unavailable_refuted : exists s w1 w2 s1 tr1 s2 tr2, ma_valid s = [] /\ ma_check s = true /\
  ma_plan s w1 1 = Some (s1, tr1) /\ ma_plan s1 w2 1 = Some (s2, tr2) /\
  available s1 w2 (ex_lane 0) = [] /\ ma_target s1 = Some (ex_lane 0).
Proof.
  set (ps := [ex_prim (StayLane (-1) false)]). set (w1 := ex_world 10 no_sides). set (w2 := ex_world 0 no_sides).
  assert (V1 : valid_from 0 ps w1 (around w1 (ex_lane 0)) = Some [0%nat]).
  { unfold ps, valid_from. unfold w1. rewrite !ex_stay_pre, ex_moving by lra. destruct (Rleb_spec (-5) (-1)); [|lra]. destruct (Rleb_spec (-1) 8); [|lra]. reflexivity. }
  destruct (ex_ma_stay ps [] true None (DiscreteAction 0) (DiscreteAction 0) [] 0 0 (-1) 10 no_sides) as (s1 & tr1 & p1 & st1 & q1 & E1 & PR & LS & Q & LA & TG); auto; try discriminate; try (cbn; lia).
  { intros _. fold w1. rewrite V1. split; [reflexivity|discriminate]. }
  change (mkMA ps [] true None (DiscreteAction 0) (DiscreteAction 0) [] VALID) with (ma_new true ps) in E1. fold w1 in E1.
  destruct (ma_plan_inv _ _ _ _ _ E1) as (c & i & j & p & p' & q & HF & A & P & PL & _ & VC & PR2 & _ & _ & _ & TR & ST & CK & AC).
  destruct (VC eq_refl) as (_ & F & _). specialize (F eq_refl). cbn in HF. inversion HF; subst c. change (ma_prims (ma_new true ps)) with ps in F. rewrite V1 in F. inversion F as [F'].
  (* the executed primitive differs from the initial one only in its memory *)
  set (m2 := fun p => const_acc_plan p (-1) false w2 1 (Some (ex_lane 0))).
  assert (K : p_kind p1 = StayLane (-1) false /\ p_par p1 = ex_par /\ p_gain p1 = 1 /\ p_limit p1 = true /\ p_lim p1 = (4, -4, 8, -5)).
  { rewrite PR in PR2. unfold ps, replace in PR2. cbn in A. inversion A; subst i. destruct (VC eq_refl) as (N & _). rewrite <- F' in N. cbn in N. inversion N; subst j.
    cbn in PR2. inversion PR2; subst p'. cbn in P. inversion P; subst p. cbn [prim_plan p_kind ex_prim] in PL.
    unfold const_acc_plan in PL. cbn [prim_select p_kind around a_current] in PL. cbn [at_ pw_ego w1 ex_world nth_error bind pw_model] in PL. change (prim_select (ex_prim (StayLane (-1) false)) w1 (around w1 (ex_lane 0))) with (Some (ex_lane 0)) in PL. cbn iota in PL. bnd PL rr RR. inversion PL. repeat split. }
  destruct K as (K1 & K2 & K3 & K4 & K5).
  assert (E2 : exists p2 tr2, const_acc_plan p1 (-1) false w2 1 (Some (ex_lane 0)) = Some (p2, tr2)).
  { unfold const_acc_plan. cbn [at_ pw_ego w2 ex_world nth_error bind pw_model pw_time leading_distance]. rewrite K2, K3, K4, K5.
    assert (idm_dt ex_par 1 = 1) as -> by (unfold idm_dt, ex_par; cbn; field).
    destruct (ex_plan_rows (-1) 0 0) as (tr & s & E). unfold prim_source. rewrite E. cbn [bind]. eauto. }
  destruct E2 as (p2 & tr2 & E2).
  assert (PS1 : ma_prims s1 = [p1]) by (rewrite PR; reflexivity).
  assert (P2 : exists s2, ma_plan s1 w2 1 = Some (s2, tr2)).
  { unfold ma_plan, ma_corridors. rewrite TG. cbn [bind pw_sides w2 ex_world no_sides]. rewrite CK, <- F', AC, PS1. cbn [ma_check ma_new ma_active bind nth_error].
    unfold prim_select, prim_plan. rewrite K1. cbn [a_current]. fold w2. rewrite E2. cbn [bind fst snd replace firstn skipn app nth_error]. eauto. }
  destruct P2 as (s2 & P2). exists (ma_new true ps), w1, w2, s1, tr1, s2, tr2. repeat split; auto.
  unfold available. rewrite PS1. cbn [filter]. unfold holds, prim_pre. rewrite K1. cbn [pw_model w2 ex_world bind at_ pw_ego nth_error]. rewrite ex_standing.
  destruct (Rleb_spec 0 (-1)); [lra|]. reflexivity.
Qed.
(** Asking for the available primitives before the first plan yields none. *)
Theorem C42_valid_before_plan_refuted : exists s w, ma_valid_primitives s = [] /\ ma_check s = true /\ available s w (ex_lane 0) <> [] /\ heading_for s w (ex_lane 0).
Proof.
  exists (ma_new true [ex_prim GapKeeping]), (ex_world 10 no_sides). split; [reflexivity|]. split; [reflexivity|]. split; [|reflexivity]. cbn. discriminate.
Qed.

(** Adding: the returned index executes the new primitive (without the check), also after further additions and plans. *)
Theorem C42_added_index_stays : forall s p os s', ma_check s = false ->
  mrun (fst (ma_add s p)) os = Some s' -> Forall (fun o => o <> OClear) os ->
  exists p', nth_error (ma_prims s') (snd (ma_add s p)) = Some p' /\ p_kind p' = p_kind p /\ p_par p' = p_par p.
Proof.
  intros s p os s' CH H F. cbn [snd ma_add].
  assert (G : forall os s1, mrun s1 os = Some s' -> Forall (fun o => o <> OClear) os -> (exists p1, nth_error (ma_prims s1) (length (ma_prims s)) = Some p1 /\ p_kind p1 = p_kind p /\ p_par p1 = p_par p) ->
    exists p', nth_error (ma_prims s') (length (ma_prims s)) = Some p' /\ p_kind p' = p_kind p /\ p_par p' = p_par p).
  { clear H F os. induction os as [|o os IH]; intros s1 H F (p1 & N & K1 & K2); cbn in H; [inversion H; subst; eauto|].
    inversion F; subst. destruct (mstep s1 o) as [s2|] eqn:E; cbn in H; [|discriminate]. apply (IH s2); auto.
    destruct o as [q| |a|w T]; cbn in E.
    - inversion E; subst. cbn. exists p1. split; auto. rewrite nth_error_app1; auto. apply nth_error_Some. congruence.
    - congruence.
    - inversion E; subst. exists p1. auto.
    - destruct (ma_plan s1 w T) as [[s3 tr]|] eqn:PL; cbn in E; [|discriminate]. inversion E; subst.
      destruct (ma_plan_inv _ _ _ _ _ PL) as (c & i & j & q & q' & _ & _ & _ & P & PP & _ & _ & PR & _). cbn [fst] in *. rewrite PR.
      destruct (Nat.eq_dec j (length (ma_prims s))) as [->|NE].
      + exists q'. split; [eapply replace_same; eauto|]. rewrite N in P. inversion P; subst q. rewrite <- K1, <- K2.
        unfold prim_plan in PP. destruct (p_kind p1) eqn:KK; unfold const_acc_plan, gap_plan in PP.
        1-3: destruct (prim_select _ _ _); [bnd PP v0 V0; bnd PP rv RV; bnd PP m M; bnd PP r RR; inversion PP; subst; cbn; auto|inversion PP; subst; cbn; auto].
        bnd PP m M. bnd PP lane L. bnd PP r RR. inversion PP; subst; cbn; auto.
      + exists p1. split; auto. rewrite replace_other; auto. apply nth_error_Some. congruence. }
  apply (G os (fst (ma_add s p))); auto. exists p. split; auto. cbn. rewrite nth_error_app2, Nat.sub_diag by lia. reflexivity.
Qed.

(** The behavior reports VALID after every plan, even when the executed primitive has expired. *)
Theorem C42_status_always_valid : forall s w T s' tr, ma_plan s w T = Some (s', tr) -> ma_status s' = VALID.
Proof. intros s w T s' tr H. destruct (ma_plan_inv _ _ _ _ _ H) as (c & i & j & p & p' & q & H'). apply H'. Qed.
Example C42_expired_primitive : exists s w s' tr p, ma_plan s w 1 = Some (s', tr) /\ ma_status s' = VALID /\ nth_error (ma_prims s') 0 = Some p /\ i_status (p_beh p) = EXPIRED /\ tr = [].
Proof.
  (* gap keeping while no lane corridor is found *)
  set (w := mkPW [0; 50; 0; 0; 10] 0 (Some ex_model) None None no_sides None).
  exists (mkMA [ex_prim GapKeeping] [] false (Some (ex_lane 0)) (DiscreteAction 0) (DiscreteAction 0) [] VALID), w. do 3 eexists. repeat split.
Qed.

(** A change-left action moves the target one corridor to the left of the current target, if there is one. *)
Theorem C42_change_left_target : forall s w T s' tr c i p a r ml, ma_check s = false -> ma_plan s w T = Some (s', tr) -> heading_for s w c ->
  ma_active s = DiscreteAction i -> nth_error (ma_prims s) i = Some p -> p_kind p = ChangeLeft a r ml ->
  ma_target s' = match fst (pw_sides w c) with Some l => Some l | None => Some c end.
Proof.
  intros s w T s' tr c i p a r ml CH H HF A P K. destruct (C42_action_executes_its_primitive _ _ _ _ _ CH H) as (c' & i' & p1 & p' & HF' & A' & P' & _ & TG & _).
  assert (c' = c) as -> by (unfold heading_for in *; destruct (ma_target s); congruence).
  rewrite A in A'. inversion A'; subst i'. rewrite P in P'. inversion P'; subst p1. rewrite TG. unfold prim_select. rewrite K. unfold or_current, around. cbn. destruct (fst (pw_sides w c)); reflexivity.
Qed.
Theorem C42_change_right_target : forall s w T s' tr c i p a r ml, ma_check s = false -> ma_plan s w T = Some (s', tr) -> heading_for s w c ->
  ma_active s = DiscreteAction i -> nth_error (ma_prims s) i = Some p -> p_kind p = ChangeRight a r ml ->
  ma_target s' = match snd (pw_sides w c) with Some l => Some l | None => Some c end.
Proof.
  intros s w T s' tr c i p a r ml CH H HF A P K. destruct (C42_action_executes_its_primitive _ _ _ _ _ CH H) as (c' & i' & p1 & p' & HF' & A' & P' & _ & TG & _).
  assert (c' = c) as -> by (unfold heading_for in *; destruct (ma_target s); congruence).
  rewrite A in A'. inversion A'; subst i'. rewrite P in P'. inversion P'; subst p1. rewrite TG. unfold prim_select. rewrite K. unfold or_current, around. cbn. destruct (snd (pw_sides w c)); reflexivity.
Qed.
(** Staying in the lane keeps the target. *)
Theorem C42_stay_keeps_target : forall s w T s' tr c i p a r, ma_check s = false -> ma_plan s w T = Some (s', tr) -> heading_for s w c ->
  ma_active s = DiscreteAction i -> nth_error (ma_prims s) i = Some p -> p_kind p = StayLane a r -> ma_target s' = Some c.
Proof.
  intros s w T s' tr c i p a r CH H HF A P K. destruct (C42_action_executes_its_primitive _ _ _ _ _ CH H) as (c' & i' & p1 & p' & HF' & A' & P' & _ & TG & _).
  assert (c' = c) as -> by (unfold heading_for in *; destruct (ma_target s); congruence).
  rewrite A in A'. inversion A'; subst i'. rewrite P in P'. inversion P'; subst p1. rewrite TG. unfold prim_select. rewrite K. reflexivity.
Qed.
Fixpoint lefts (sides : corr -> option corr * option corr) (n : nat) (c : corr) : corr :=
  match n with O => c | S k => lefts sides k (match fst (sides c) with Some l => l | None => c end) end.
(** So an action that is held for n plans moves the target n corridors to the left, wherever the ego is. *)
Theorem C42_held_change_left : forall ws s s' c i p a r ml sides, ma_check s = false ->
  mrun s (map (fun wt => OPlan (fst wt) (snd wt)) ws) = Some s' -> ma_target s = Some c ->
  ma_active s = DiscreteAction i -> nth_error (ma_prims s) i = Some p -> p_kind p = ChangeLeft a r ml ->
  Forall (fun wt => pw_sides (fst wt) = sides) ws ->
  ma_target s' = Some (lefts sides (length ws) c).
Proof.
  induction ws as [|[w T] ws IH]; intros s s' c i p a r ml sides CH R TG A P K F; cbn [map mrun] in R.
  { inversion R; subst. exact TG. }
  inversion F as [|? ? SD F']; subst. cbn [fst snd mstep] in R. destruct (ma_plan s w T) as [[s1 tr]|] eqn:PL; cbn [bind fst] in R; [|discriminate].
  assert (HF : heading_for s w c) by (unfold heading_for; rewrite TG; reflexivity).
  pose proof (C42_change_left_target _ _ _ _ _ _ _ _ _ _ _ CH PL HF A P K) as TG1.
  destruct (C42_action_executes_its_primitive _ _ _ _ _ CH PL) as (c' & i' & p1 & p' & HF' & A' & P' & PP & _ & _ & _ & N' & _).
  rewrite A in A'. inversion A'; subst i'. rewrite P in P'. inversion P'; subst p1. clear A' P'.
  destruct (ma_plan_inv _ _ _ _ _ PL) as (_ & _ & _ & _ & _ & _ & _ & _ & _ & _ & _ & _ & _ & _ & _ & _ & _ & _ & CK & AC).
  assert (K' : p_kind p' = ChangeLeft a r ml).
  { unfold prim_plan in PP. rewrite K in PP. unfold const_acc_plan in PP. destruct (prim_select _ _ _); [bnd PP v0 V0; bnd PP rv RV; bnd PP m M; bnd PP rr RR; inversion PP; subst; cbn; auto|inversion PP; subst; cbn; auto]. }
  cbn [length lefts]. cbn [fst] in *. destruct (fst (pw_sides w c)) as [l|]; [apply (IH s1 s' l i p' a r ml (pw_sides w))|apply (IH s1 s' c i p' a r ml (pw_sides w))]; auto; try congruence.
Qed.
Print Assumptions C42_held_change_left.
Example C42_held_change_left_nonvacuous : exists s w s' , mrun s [OPlan w 1; OPlan w 1] = Some s' /\ ma_check s = false /\ ma_target s = Some (ex_lane 0) /\ ma_target s' = Some (ex_lane 2).
Proof.
  set (sides := fun c : corr => match co_id c return option corr * option corr with O => (Some (ex_lane 1), None) | 1%nat => (Some (ex_lane 2), None) | _ => (None, None) end).
  set (p := ex_prim (ChangeLeft 0 false 0)). set (w := ex_world 10 sides).
  set (s := mkMA [p] [] false (Some (ex_lane 0)) (DiscreteAction 0) (DiscreteAction 0) [] VALID).
  assert (G : forall q, p_par q = ex_par -> p_gain q = 1 -> p_limit q = true -> p_lim q = (4, -4, 8, -5) -> forall i, exists q' tr, const_acc_plan q 0 false w 1 (Some (ex_lane i)) = Some (q', tr) /\
    q' = with_beh q (p_last q') (p_beh q')).
  { intros q Q1 Q2 Q3 Q4 i. unfold const_acc_plan. cbn [at_ pw_ego w ex_world nth_error bind pw_model pw_time leading_distance]. rewrite Q1, Q2, Q3, Q4.
    assert (idm_dt ex_par 1 = 1) as -> by (unfold idm_dt, ex_par; cbn; field).
    destruct (ex_plan_rows 0 10 i) as (tr & s0 & E). unfold prim_source. rewrite E. cbn [bind]. do 2 eexists. split; reflexivity. }
  destruct (G p eq_refl eq_refl eq_refl eq_refl 1%nat) as (q1 & tr1 & E1 & Q1).
  destruct (G q1) with (i := 2%nat) as (q2 & tr2 & E2 & Q2); try (rewrite Q1; reflexivity).
  assert (E : exists s', mrun s [OPlan w 1; OPlan w 1] = Some s').
  { cbn [mrun mstep]. unfold ma_plan at 1. unfold ma_corridors. cbn [ma_target s bind pw_sides w ex_world sides ex_lane co_id ma_check ma_active ma_prims nth_error].
    cbn [prim_select prim_plan p_kind p ex_prim or_current a_left]. fold w. change (mkPrim (ChangeLeft 0 false 0) ex_par 1 true (4, -4, 8, -5) (DiscreteAction 0) (mkIS VALID [] (InputAction [0; 0]))) with p.
    change (mkCo 1 road) with (ex_lane 1). rewrite E1. cbn [bind fst snd replace firstn skipn app nth_error].
    unfold ma_plan, ma_corridors. cbn [ma_target bind pw_sides w ex_world sides ex_lane co_id ma_check ma_active ma_prims nth_error].
    assert (KQ : p_kind q1 = ChangeLeft 0 false 0) by (rewrite Q1; reflexivity).
    unfold prim_select, prim_plan. rewrite KQ. cbn [or_current a_left]. change (mkCo 2 road) with (ex_lane 2). fold w.
    change (mkPW [0; 50; 0; 0; 10] 0 (Some ex_model) (Some (mkCo 0 road)) (Some (mkCo 0 road)) sides None) with w.
    rewrite E2. cbn [bind fst snd replace firstn skipn app nth_error]. eauto. }
  destruct E as (s' & E). exists s, w, s'. split; [exact E|]. split; [reflexivity|]. split; [reflexivity|].
  change [OPlan w 1; OPlan w 1] with (map (fun wt : pworld * R => OPlan (fst wt) (snd wt)) [(w, 1); (w, 1)]) in E.
  rewrite (C42_held_change_left _ s s' (ex_lane 0) 0 p 0 false 0 sides eq_refl E eq_refl eq_refl eq_refl eq_refl); [reflexivity|]. repeat constructor.
Qed.

(** Random macro actions: without the check any drawn index executes the corresponding primitive. *)
Theorem C42_random_choice : forall draw s w T s' tr, ma_check s = false ->
  (forall n, (0 <= n)%Z -> (0 <= draw n <= n)%Z) -> random_plan draw s w T = Some (s', tr) ->
  exists i p p' target, (i < ma_num s)%nat /\ nth_error (ma_prims s) i = Some p /\ prim_plan p w T target = Some (p', tr) /\ ma_last s' = p_last p'.
Proof.
  intros draw s w T s' tr CH D H. unfold random_plan in H. destruct (_ <? 0)%Z eqn:Z; [discriminate|]. 
  destruct (C42_action_executes_its_primitive (ma_act s _) w T s' tr CH H) as (c & i & p & p' & _ & A & P & PL & _ & LA & _).
  exists i, p, p', (prim_select p w (around w c)). cbn in P. repeat split; auto. apply nth_error_Some. congruence.
Qed.
Theorem C42_random_with_check_refuted : exists draw s w, (forall n, (0 <= n)%Z -> (0 <= draw n <= n)%Z) /\ ma_check s = true /\ available s w (ex_lane 0) <> [] /\ random_plan draw s w 1 = None.
Proof.
  set (ps := [ex_prim (StayLane 100 false); ex_prim (StayLane 1 false)]).
  exists (fun n => n), (ma_new true ps), (ex_world 10 no_sides). split; [intros; lia|]. split; [reflexivity|]. split.
  - unfold available. cbn [ma_prims ma_new ps filter]. unfold holds. rewrite !ex_stay_pre, (ex_moving 10) by lra.
    destruct (Rleb_spec 100 8); [lra|]. rewrite andb_false_r. destruct (Rleb_spec (-5) 1); [|lra]. destruct (Rleb_spec 1 8); [|lra]. discriminate.
  - unfold random_plan. cbn [ma_prims ma_new ps length]. change (Z.of_nat 2 - 1)%Z with 1%Z. cbn [Z.ltb Z.compare]. change (Z.to_nat 1) with 1%nat.
    destruct (ma_plan _ _ _) as [[s' tr]|] eqn:E; auto. exfalso.
    destruct (ma_plan_inv _ _ _ _ _ E) as (c & i & j & p & p' & q & HF & A & _ & _ & _ & VC & _). cbn in A. inversion A; subst i.
    destruct (VC eq_refl) as (N & F & _). specialize (F eq_refl). cbn in HF. inversion HF; subst c.
    change (ma_prims _) with ps in F. unfold ps in F. rewrite ex_two_valid in F by lra. inversion F as [F']. rewrite <- F' in N. discriminate N.
Qed.

(** The behavior built from parameters: index i below the number of accelerations is the i-th acceleration, then left, right,
    gap keeping. *)
Theorem C42_from_parameters : forall stay left right gap accs lc gk,
  (forall i a, nth_error accs i = Some a -> nth_error (from_params stay left right gap accs lc gk) i = Some (stay a)) /\
  (lc = true -> nth_error (from_params stay left right gap accs lc gk) (length accs) = Some left /\
     nth_error (from_params stay left right gap accs lc gk) (length accs + 1) = Some right) /\
  (gk = true -> nth_error (from_params stay left right gap accs lc gk) (length accs + (if lc then 2 else 0)) = Some gap) /\
  length (from_params stay left right gap accs lc gk) = (length accs + (if lc then 2 else 0) + (if gk then 1 else 0))%nat.
Proof.
  intros stay left right gap accs lc gk. unfold from_params. split; [|split; [intros ->; split|split]].
  - intros i a H. rewrite nth_error_app1 by (rewrite map_length; apply nth_error_Some; congruence). now rewrite nth_error_map, H.
  - rewrite nth_error_app2; rewrite map_length; [|lia]. now rewrite Nat.sub_diag.
  - rewrite nth_error_app2; rewrite map_length; [|lia]. now replace (length accs + 1 - length accs)%nat with 1%nat by lia.
  - intros ->. rewrite nth_error_app2; rewrite map_length; [|lia]. replace (length accs + (if lc then 2 else 0) - length accs)%nat with (if lc then 2 else 0)%nat by lia. destruct lc; reflexivity.
  - rewrite !app_length, map_length. destruct lc, gk; cbn; lia.
Qed.
Print Assumptions C42_action_executes_its_primitive.
Print Assumptions C42_executes_unavailable_refuted.
Print Assumptions C42_reported_action_refuted.
