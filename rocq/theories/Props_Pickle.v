(** C84: copying an agent (copy.deepcopy, Scenario.copy, pickling). *)
From Coq Require Import List ZArith NArith Bool Lia Arith.
From Verif Require Import Model_Goal Spec_Goal Model_Pickle.
Import ListNotations.

Section C84.
Context {P Traj Action Own Extra Shape State Obs Cor Model3D Time : Type}.
Variable reload child : P -> P.
Variable no_traj : Traj.
Variable start_action : btype -> P -> Own -> Action.
Variable start_extra : btype -> P -> Own -> Extra.
Variable no_own : Own.
Variable no_model3d : Model3D.

Notation beh := (@beh P Traj Action Own Extra).
Notation agent := (@agent P Traj Action Own Extra Shape State Obs Cor Model3D Time).
Notation copy := (@copy_agent P Traj Action Own Extra Shape State Obs Cor Model3D Time
                    reload child no_traj start_action start_extra no_own no_model3d).

(** An agent can be copied: it has a behavior model that is not
    BehaviorMPContinuousActions, the interpolating execution model, one of the
    two single track models, a goal and a state. *)
Definition copyable (a : agent) : Prop :=
  (exists b, a_behavior a = Some b /\ b_type b <> MPContinuousActions) /\
  fst (a_exec a) = Interpolate /\
  (exists p, a_dynamic a = Some (SingleTrack, p) \/ a_dynamic a = Some (SingleTrackSteeringRate, p)) /\
  a_goal a <> None /\ a_history a <> [].

Lemma current_state_some (a : agent) : a_history a <> [] -> exists s, current_state a = Some s.
Proof.
  intros H. unfold current_state. destruct (rev (a_history a)) as [|x r] eqn:E; [|eauto].
  exfalso. apply H. rewrite <- (rev_involutive (a_history a)), E. reflexivity.
Qed.

Lemma btype_MPC (b : beh) :
  {b_type b = MPContinuousActions /\ pickle_beh b = PCrash} +
  {b_type b <> MPContinuousActions /\ pickle_beh b =
     POk {| pb_type := b_type b; pb_params := b_params b; pb_own := b_own b; pb_inner := map b_params (b_inner b) |}}.
Proof. unfold pickle_beh. destruct (b_type b); try (right; split; [discriminate|reflexivity]). now left. Qed.

Lemma copy_inv (a a' : agent) : copy a = POk a' -> copyable a /\
  exists b d g s, a_behavior a = Some b /\ a_dynamic a = Some d /\ a_goal a = Some g /\ current_state a = Some s /\
    pickle_beh b = POk {| pb_type := b_type b; pb_params := b_params b; pb_own := b_own b;
                          pb_inner := map b_params (b_inner b) |} /\
    a' = unpickle_agent reload child no_traj start_action start_extra no_own no_model3d
      {| pa_history := a_history a; pa_shape := a_shape a; pa_id := a_id a; pa_traj := b_traj b;
         pa_behavior := {| pb_type := b_type b; pb_params := b_params b; pb_own := b_own b;
                           pb_inner := map b_params (b_inner b) |};
         pa_exec := Interpolate; pa_dynamic := d; pa_state := s; pa_first_valid := a_first_valid a;
         pa_goal := pickle_goal g; pa_ids := a_corridor_ids a; pa_dir := a_corridor_dir a |}.
Proof.
  unfold copy_agent, pickle_agent, copyable. intros E.
  destruct (a_behavior a) as [b|]; [|discriminate].
  assert (Eb : pickle_beh b = PCrash \/ b_type b <> MPContinuousActions /\ pickle_beh b =
     POk {| pb_type := b_type b; pb_params := b_params b; pb_own := b_own b; pb_inner := map b_params (b_inner b) |}).
  { unfold pickle_beh. destruct (b_type b); try (right; split; [discriminate|reflexivity]). now left. }
  destruct Eb as [Eb|[Nb Eb]]; rewrite Eb in E; [discriminate|]. cbn [pbind] in E.
  destruct (a_exec a) as [[|] tr]; [|discriminate].
  destruct (a_dynamic a) as [[[| |] p]|]; try discriminate;
  (destruct (a_goal a) as [g|]; [|discriminate]);
  (destruct (current_state a) as [s|] eqn:Es; [|discriminate]);
  cbn [pbind] in E; injection E as <-;
  (split; [repeat split; eauto; try discriminate; intros Hh; unfold current_state in Es; rewrite Hh in Es; discriminate|]);
  (eexists _, _, _, _; repeat split; eauto).
Qed.

(** If it fails: the process ends only without a behavior model, with one that
    has no pickle functions, with the triple integrator or without a state; an
    exception comes only from the execution model, a missing dynamic model or a
    missing goal. *)
Theorem C84_failure_kind (a : agent) :
  (copy a = PCrash ->
     (forall b, a_behavior a = Some b -> b_type b = MPContinuousActions) \/
     (exists p, a_dynamic a = Some (TripleIntegrator, p)) \/ a_history a = []) /\
  (copy a = PRaise -> fst (a_exec a) = Mpc \/ a_dynamic a = None \/ a_goal a = None).
Proof.
  unfold copy_agent, pickle_agent.
  destruct (a_behavior a) as [b|]; [|split; [intros _; left; discriminate|discriminate]].
  destruct (btype_MPC b) as [E|E]; rewrite (proj2 E); cbn [pbind].
  { split; [|discriminate]. intros _. left. intros b' X. injection X as <-. tauto. }
  destruct (a_exec a) as [[|] tr]; [|split; [discriminate|auto]].
  destruct (a_dynamic a) as [[[| |] p]|]; cbn [pbind];
    try (split; [discriminate|auto]; fail); try (split; [eauto|discriminate]; fail);
  (destruct (a_goal a) as [g|]; [|split; [discriminate|auto]]);
  (destruct (current_state a) as [s|] eqn:Es; cbn [pbind]; [split; discriminate|];
   split; [|discriminate]; intros _; right; right; unfold current_state in Es;
   destruct (rev (a_history a)) eqn:Er; [|discriminate];
   now rewrite <- (rev_involutive (a_history a)), Er).
Qed.

Theorem C84_copyable_iff (a : agent) : (exists a', copy a = POk a') <-> copyable a.
Proof.
  split.
  - intros (a' & E). now apply copy_inv in E.
  - intros ((b & Eb & Nb) & Ee & (p & Ed) & Hg & Hh).
    destruct (current_state_some a Hh) as (s & Es).
    unfold copy_agent, pickle_agent. rewrite Eb.
    assert (Ep : exists x, pickle_beh b = POk x).
    { unfold pickle_beh. destruct (b_type b); eauto. congruence. }
    destruct Ep as (x & ->). cbn [pbind].
    destruct (a_exec a) as [e tr]. cbn [fst] in Ee. subst e. rewrite Es.
    destruct (a_goal a) as [g|]; [|congruence].
    destruct Ed as [-> | ->]; cbn [pbind]; eauto.
Qed.

(** What a copy keeps: id, shape, state, history, first valid time, route, the
    planned trajectory, and of the behavior and dynamic model the type and the
    parameters (through the condensed list, see C14) and the primitives or
    trajectory given at construction. *)
Theorem C84_copy_keeps (a a' : agent) : copy a = POk a' ->
  a_id a' = a_id a /\ a_shape a' = a_shape a /\ a_history a' = a_history a /\
  current_state a' = current_state a /\ a_first_valid a' = a_first_valid a /\
  a_corridor_ids a' = a_corridor_ids a /\ a_corridor_dir a' = a_corridor_dir a /\
  (exists d p, a_dynamic a = Some (d, p) /\ a_dynamic a' = Some (d, reload p)) /\
  exists b b', a_behavior a = Some b /\ a_behavior a' = Some b' /\
    b_type b' = b_type b /\ b_params b' = reload (b_params b) /\ b_traj b' = b_traj b /\
    (b_type b <> Safety -> b_type b <> RSSConformant -> b_own b' = b_own b).
Proof.
  intros E. apply copy_inv in E as (_ & b & [d p] & g & s & Eb & Ed & Eg & Es & Epb & ->).
  cbn. repeat split; auto.
  - eauto.
  - exists b. eexists. split; [exact Eb|]. split; [reflexivity|].
    unfold unpickle_beh; cbn. destruct (b_type b); cbn; repeat split; auto; congruence.
Qed.

(** What it does not keep: parameters of the agent, 3d model, corridor (it is
    built again when the agent is put into a world), executed trajectory, the
    history bound; the behavior's last action and other internal state start
    over. *)
Theorem C84_copy_loses (a a' : agent) : copy a = POk a' ->
  a_params a' = None /\ a_model3d a' = no_model3d /\ a_corridor a' = None /\
  a_exec a' = (Interpolate, no_traj) /\ a_max_history a' = 30 /\
  exists b', a_behavior a' = Some b' /\
    b_action b' = start_action (b_type b') (b_params b') (b_own b') /\
    b_extra b' = start_extra (b_type b') (b_params b') (b_own b').
Proof.
  intros E. apply copy_inv in E as (_ & b & d & g & s & Eb & Ed & Eg & Es & Epb & ->).
  cbn. repeat split; auto. eexists. split; [reflexivity|].
  unfold unpickle_beh; cbn. destruct (b_type b); cbn; auto.
Qed.

(** A model inside BehaviorSafety (and the nominal one inside
    BehaviorRSSConformant) becomes a lane tracking IDM, whatever it was. *)
Theorem C84_inner_models_replaced_refuted (a a' : agent) b : copy a = POk a' ->
  a_behavior a = Some b ->
  exists b', a_behavior a' = Some b' /\
    (b_type b = Safety -> length (b_inner b') = length (b_inner b) /\
       Forall (fun i => b_type i = IDMLaneTracking) (b_inner b')) /\
    (b_type b = RSSConformant -> length (b_inner b) = 2 ->
       map b_type (b_inner b') = [IDMLaneTracking; Safety]).
Proof.
  intros E Eb0. apply copy_inv in E as (_ & b1 & d & g & s & Eb & Ed & Eg & Es & Epb & ->).
  rewrite Eb0 in Eb. injection Eb as <-.
  eexists. split; [reflexivity|]. split.
  - intros Et. cbn. unfold unpickle_beh; cbn. rewrite Et. cbn. split.
    + now rewrite !map_length.
    + rewrite map_map. apply Forall_forall. intros x I. apply in_map_iff in I as (y & <- & _). reflexivity.
  - intros Et L. cbn. unfold unpickle_beh; cbn. rewrite Et. cbn.
    destruct (b_inner b) as [|x [|y [|z l]]]; try discriminate. reflexivity.
Qed.

(** The task a goal stands for, without the progress made. *)
Fixpoint task_of (g : goal Obs) : task Obs :=
  match g with
  | GAtom f => Visit f
  | GSeq l _ => InOrder (map task_of l)
  end.

Fixpoint goal_ind' (Q : goal Obs -> Prop) (Ha : forall f, Q (GAtom f))
    (Hs : forall l z, Forall Q l -> Q (GSeq l z)) (g : goal Obs) : Q g :=
  match g with
  | GAtom f => Ha f
  | GSeq l z => Hs l z ((fix go l : Forall Q l :=
      match l with [] => Forall_nil Q | x :: r => Forall_cons x (goal_ind' Q Ha Hs x) (go r) end) l)
  end.

Lemma goal_copy (g : goal Obs) : unpickle_goal (pickle_goal g) = fresh (task_of g).
Proof.
  induction g as [f|l z IH] using goal_ind'; [reflexivity|]. cbn.
  f_equal. rewrite !map_map. apply map_ext_in. intros x I.
  rewrite Forall_forall in IH. auto.
Qed.

(** The copy's goal is the same task from its beginning: progress made in
    sequential goals is forgotten. *)
Theorem C84_goal_starts_over (a a' : agent) g : copy a = POk a' -> a_goal a = Some g ->
  a_goal a' = Some (fresh (task_of g)).
Proof.
  intros E Eg0. apply copy_inv in E as (_ & b & d & g1 & s & Eb & Ed & Eg & Es & Epb & ->).
  rewrite Eg0 in Eg. injection Eg as <-. cbn. now rewrite goal_copy.
Qed.

Lemma task_of_fresh (t : task Obs) : task_of (fresh t) = t.
Proof.
  revert t. fix IH 1. intros [f|l]; [reflexivity|]. cbn. f_equal. rewrite map_map.
  induction l as [|x r IHr]; [reflexivity|]. cbn. now rewrite IH, IHr.
Qed.

Theorem C84_fresh_goal_kept (a a' : agent) t : copy a = POk a' -> a_goal a = Some (fresh t) ->
  a_goal a' = a_goal a.
Proof.
  intros E Eg. rewrite (C84_goal_starts_over a a' (fresh t) E Eg), Eg, task_of_fresh. reflexivity.
Qed.

(** Put into a world, the copy gets the corridor of the agent's route, also when
    the agent has left its start; it is the agent's own corridor if that was
    built from the route on the same map. *)
Theorem C84_corridor_rebuilt (a a' : agent) search build c : copy a = POk a' ->
  a_corridor_ids a <> [] -> build (a_corridor_ids a) (a_corridor_dir a) = Some c ->
  exists a2, generate_corridor search build a' = POk (a2, true) /\ a_corridor a2 = Some c /\
    a_corridor_ids a2 = a_corridor_ids a /\ a_corridor_dir a2 = a_corridor_dir a.
Proof.
  intros E Ni Ec. destruct (C84_copy_keeps a a' E) as (_ & _ & _ & _ & _ & Ei & Ed & _).
  unfold generate_corridor. rewrite Ei, Ed.
  destruct (a_corridor_ids a) as [|i l] eqn:El; [congruence|].
  rewrite Ec. destruct (a_goal a'); (eexists; split; [reflexivity|]; cbn; auto).
Qed.

(** Put into a world whose map does not know its route, an agent loses its
    corridor, also one it had before, and keeps the route. *)
Theorem C84_corridor_lost (a : agent) (search : State -> goal Obs -> option (Cor * list N * bool)) build :
  a_corridor_ids a <> [] -> build (a_corridor_ids a) (a_corridor_dir a) = None ->
  exists a2, generate_corridor search build a = POk (a2, false) /\ a_corridor a2 = None /\
    a_corridor_ids a2 = a_corridor_ids a /\ a_corridor_dir a2 = a_corridor_dir a.
Proof.
  intros Ni Ec. unfold generate_corridor.
  destruct (a_corridor_ids a) as [|i l] eqn:El; [congruence|].
  rewrite Ec. destruct (a_goal a); (eexists; split; [reflexivity|]; cbn; auto).
Qed.

(** An agent without a route is given one from its current position. *)
Theorem C84_corridor_searched (a a' : agent) search build s g c ids dir : copy a = POk a' ->
  a_corridor_ids a = [] -> current_state a = Some s -> a_goal a = Some g ->
  search s (fresh (task_of g)) = Some (c, ids, dir) ->
  exists a2, generate_corridor search build a' = POk (a2, true) /\ a_corridor a2 = Some c /\
    a_corridor_ids a2 = ids /\ a_corridor_dir a2 = dir.
Proof.
  intros E Ei Es Eg Ec. destruct (C84_copy_keeps a a' E) as (_ & _ & _ & Es' & _ & Ei' & Ed & _).
  unfold generate_corridor. rewrite (C84_goal_starts_over a a' g E Eg), Ei', Ei, Es', Es, Ec.
  eexists; split; [reflexivity|]; cbn; auto.
Qed.

(** Histories: the number of entries after n more steps. *)
Fixpoint pushes (a : agent) (l : list (State * Action)) : agent :=
  match l with [] => a | x :: r => pushes (push_history a x) r end.

Lemma push_length (a : agent) x :
  length (a_history (push_history a x)) =
    (if Nat.ltb (a_max_history a) (S (length (a_history a))) then length (a_history a)
     else S (length (a_history a))) /\
  a_max_history (push_history a x) = a_max_history a.
Proof.
  split; [|reflexivity]. unfold push_history. cbn [a_history a_max_history].
  rewrite app_length. replace (length (a_history a) + length [x]) with (S (length (a_history a))) by (cbn; lia).
  destruct (Nat.ltb (a_max_history a) (S (length (a_history a)))).
  - destruct (a_history a) as [|y r]; cbn [app tl length]; [reflexivity|]. rewrite app_length. cbn. lia.
  - rewrite app_length. cbn. lia.
Qed.

Lemma pushes_length l : forall a : agent,
  length (a_history (pushes a l)) =
    Nat.max (length (a_history a)) (Nat.min (a_max_history a) (length (a_history a) + length l)).
Proof.
  induction l as [|x r IH]; intros a; cbn [pushes length].
  - lia.
  - rewrite IH. destruct (push_length a x) as [-> ->].
    destruct (Nat.ltb_spec (a_max_history a) (S (length (a_history a)))); lia.
Qed.

(** The copy remembers at most 30 states (or as many as it was given), the
    agent itself as many as configured. *)
Theorem C84_history_window (a a' : agent) l : copy a = POk a' ->
  length (a_history (pushes a' l)) =
    Nat.max (length (a_history a)) (Nat.min 30 (length (a_history a) + length l)) /\
  length (a_history (pushes a l)) =
    Nat.max (length (a_history a)) (Nat.min (a_max_history a) (length (a_history a) + length l)).
Proof.
  intros E. rewrite !pushes_length. destruct (C84_copy_keeps a a' E) as (_ & _ & -> & _).
  destruct (C84_copy_loses a a' E) as (_ & _ & _ & _ & -> & _). auto.
Qed.

(** Copying again changes nothing more. *)
Theorem C84_copy_idempotent (a a' : agent) :
  (forall p, reload (reload p) = reload p) -> (forall p, reload (child (reload p)) = child (reload p)) ->
  copy a = POk a' -> copy a' = POk a'.
Proof.
  intros Rr Rc E.
  assert (Ca : copyable a).
  { apply copy_inv in E. tauto. }
  assert (Ca' : copyable a').
  { destruct (C84_copy_keeps a a' E) as (_ & _ & Hh & _ & _ & _ & _ & (d & p & Ed & Ed') & b & b' & Eb & Eb' & Et & _).
    destruct (C84_copy_loses a a' E) as (_ & _ & _ & Ee & _).
    destruct Ca as ((b0 & Eb0 & Nb0) & _ & (q & Eq) & Hg & Hn).
    repeat split.
    - exists b'. split; [auto|]. rewrite Et. congruence.
    - now rewrite Ee.
    - exists (reload p). rewrite Ed'. rewrite Ed in Eq. destruct Eq as [Eq|Eq]; injection Eq as -> _; auto.
    - destruct (a_goal a) as [g|] eqn:Eg; [|congruence]. rewrite (C84_goal_starts_over a a' g E Eg). discriminate.
    - congruence. }
  destruct (proj2 (C84_copyable_iff a') Ca') as (a2 & E2).
  rewrite E2. f_equal.
  pose proof E as Ecopy.
  apply copy_inv in E as (_ & b & d & g & s & Eb & Ed & Eg & Es & Epb & ->).
  apply copy_inv in E2 as (_ & b2 & d2 & g2 & s2 & Eb2 & Ed2 & Eg2 & Es2 & Epb2 & ->).
  cbn in Eb2, Ed2, Eg2. injection Eb2 as <-. injection Ed2 as <-. injection Eg2 as <-.
  unfold unpickle_agent; cbn. f_equal.
  - f_equal. destruct b as [t p o inn tr ac ex]; cbn. unfold unpickle_beh; cbn.
    destruct t; cbn; rewrite ?Rr; try reflexivity.
    + f_equal. rewrite !map_map. apply map_ext. intros x. cbn. now rewrite Rr.
    + unfold set_traj, construct. f_equal.
      destruct (map b_params inn) as [|x [|y [|z l]]]; cbn; try reflexivity. now rewrite !Rr.
  - now rewrite Rr.
  - f_equal. rewrite !goal_copy. now rewrite task_of_fresh.
Qed.

End C84.

Print Assumptions C84_copyable_iff.
Print Assumptions C84_failure_kind.
Print Assumptions C84_corridor_lost.
Print Assumptions C84_copy_keeps.
Print Assumptions C84_copy_loses.
Print Assumptions C84_inner_models_replaced_refuted.
Print Assumptions C84_goal_starts_over.
Print Assumptions C84_fresh_goal_kept.
Print Assumptions C84_corridor_rebuilt.
Print Assumptions C84_corridor_searched.
Print Assumptions C84_history_window.
Print Assumptions C84_copy_idempotent.

(** A case: an agent with a safety behavior around a rule based lane changer,
    a sequential goal with its first part reached, 40 remembered states out of
    at most 50, and a route. *)
Section Toy.
Let toy_beh : @beh nat nat nat nat nat :=
  Beh Safety 7 0 [Beh MobilRuleBased 8 0 [] 3 4 5] 11 12 13.
Let toy_goal : goal nat := GSeq [GAtom (Nat.eqb 1); GSeq [GAtom (Nat.eqb 2)] 0%Z] 1%Z.
Let toy : @agent nat nat nat nat nat nat nat nat nat nat nat :=
  {| a_id := 9%N; a_shape := 1; a_model3d := 2; a_params := Some 3; a_behavior := Some toy_beh;
     a_dynamic := Some (SingleTrack, 5); a_exec := (Interpolate, 6);
     a_history := map (fun k => (k, k)) (seq 0 40); a_max_history := 50; a_first_valid := 0;
     a_goal := Some toy_goal; a_corridor := Some 77; a_corridor_ids := [4%N; 5%N];
     a_corridor_dir := true |}.
Let copy := @copy_agent nat nat nat nat nat nat nat nat nat nat nat
  (fun p => p) (fun p => p) 0 (fun _ _ _ => 100) (fun _ _ _ => 200) 0 0.

Example C84_nonvacuous : exists a', copy toy = POk a' /\
  copyable toy /\ current_state a' = Some 39 /\
  a_behavior a' = Some (Beh Safety 7 0 [Beh IDMLaneTracking 8 0 [] 0 100 200] 11 100 200) /\
  a_goal a' = Some (GSeq [GAtom (Nat.eqb 1); GSeq [GAtom (Nat.eqb 2)] (-1)%Z] (-1)%Z) /\
  length (a_history (pushes a' [(1, 1); (2, 2)])) = 40 /\
  length (a_history (pushes toy [(1, 1); (2, 2)])) = 42 /\
  copy a' = POk a'.
Proof.
  eexists. split; [reflexivity|]. split.
  { split; [eexists; split; [reflexivity|discriminate]|]. split; [reflexivity|].
    split; [exists 5; now left|]. split; discriminate. }
  repeat split; reflexivity.
Qed.

Example C84_corridor_nonvacuous : exists a' a2, copy toy = POk a' /\
  generate_corridor (fun _ _ => None) (fun ids d => if d then Some (length ids) else None) a' = POk (a2, true) /\
  a_corridor a2 = Some 2.
Proof. eexists _, _. repeat split; reflexivity. Qed.
End Toy.
