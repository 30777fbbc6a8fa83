(** C119: car following with a fixed lane corridor. *)
From Coq Require Import Reals List Bool Lra Lia.
From Verif Require Import Props_RSS.
From Verif Require Import Toy_Road Spec_IDM Base_Real Base_Ext Base_Geom Model_Line Model_Angle Model_Frenet Model_Dynamic Model_IDM Proof_IDM Props_IDM Model_FixedLane.
Import ListNotations.
Local Open Scope R_scope.

(* ------------------------------------------------------------------ *)
(** * Specification *)

(** A corner of the vehicle is inside the corridor. *)
Definition touches (shape : list pt) (c : lane_corr) : Prop := exists q, In q shape /\ lc_within c q = true.
(** The same corridor with another leader and another end. *)
Definition other_traffic (c c' : lane_corr) : Prop := lc_line c' = lc_line c /\ lc_within c' = lc_within c.

Lemma touches_iff shape c : existsb (lc_within c) shape = true <-> touches shape c.
Proof. apply existsb_exists. Qed.

(* ------------------------------------------------------------------ *)
(** * The choice *)

(** The fixed corridor is taken if a corner of the vehicle is inside it or the heading deviates from its direction by the
    given angle or more; otherwise the current one. *)
Theorem C119_choice : forall st shape cur target deviation r,
  choose_corridor st shape cur target deviation = Some r ->
  exists fs, frenet_state st (lc_line target) = Some fs /\
  (touches shape target \/ deviation <= Rabs (angle fs) -> r = Some target) /\
  (~ touches shape target -> Rabs (angle fs) < deviation -> r = cur).
Proof.
  intros st shape cur target deviation r H. unfold choose_corridor in H.
  destruct (frenet_state st (lc_line target)) as [fs|]; [|discriminate]. cbn [bind] in H. exists fs. split; [reflexivity|].
  rewrite <- touches_iff. destruct (existsb (lc_within target) shape).
  - split; [congruence|]. intros N. now destruct N.
  - destruct (Rltb_spec (Rabs (angle fs)) deviation) as [L|L].
    + split; [|congruence]. intros [X|X]; [discriminate|lra].
    + split; [congruence|]. intros. lra.
Qed.
Print Assumptions C119_choice.

(** It needs the vehicle's place along the fixed corridor, even when the corners decide. *)
Theorem C119_choice_defined : forall st shape cur target deviation,
  choose_corridor st shape cur target deviation <> None <-> frenet_state st (lc_line target) <> None.
Proof.
  intros. unfold choose_corridor. destruct (frenet_state st (lc_line target)) as [fs|]; cbn [bind]; [|tauto].
  destruct (existsb _ _); [split; discriminate|]. destruct (Rltb _ _); split; discriminate.
Qed.
Print Assumptions C119_choice_defined.

(* ------------------------------------------------------------------ *)
(** * Planning *)

(** Without a lane corridor the model expires and repeats its last trajectory, fixed corridor or not. *)
Theorem C119_no_corridor : forall p m gain limit st ego shape start T fixed,
  classic_plan p st ego shape start T None fixed = Some (mkIS EXPIRED (i_traj st) (i_action st), i_traj st) /\
  tracking_plan p m gain limit st ego shape start T None fixed = Some (mkIS EXPIRED (i_traj st) (i_action st), i_traj st).
Proof. intros. split; reflexivity. Qed.
Print Assumptions C119_no_corridor.

(** Without a fixed corridor: the model of C15 to C17 on the nearest corridor. *)
Theorem C119_no_fixed : forall p m gain limit st ego shape start T near,
  classic_plan p st ego shape start T (Some near) None =
    idm_plan p (classic_trajectory p) st ego start T (Some (lc_line near, lc_until near)) (lc_front near) /\
  tracking_plan p m gain limit st ego shape start T (Some near) None =
    idm_plan p (tracking_trajectory p m gain limit) st ego start T (Some (lc_line near, lc_until near)) (lc_front near).
Proof. intros. split; reflexivity. Qed.
Print Assumptions C119_no_fixed.

Lemma plan_chosen p gen gl st ego shape start T near fixed r : plan_on p gen gl st ego shape start T (Some near) (Some fixed) = Some r ->
  exists ds cur, dstate_of ego = Some ds /\ choose_corridor ds shape (Some near) fixed (2 / 10) = Some (Some cur) /\
    idm_plan p gen st ego start T (Some (gl near, lc_until cur)) (lc_front cur) = Some r.
Proof.
  unfold plan_on. intros H. destruct (dstate_of ego) as [ds|]; [|discriminate]. cbn [bind] in H.
  destruct (choose_corridor ds shape (Some near) fixed (2 / 10)) as [c|] eqn:C; [|discriminate]. cbn [bind] in H.
  destruct c as [cur|]; [|discriminate]. exists ds, cur. repeat split; auto.
Qed.
Lemma plan_eq p gen gl st ego shape start T near fixed ds cur :
  dstate_of ego = Some ds -> choose_corridor ds shape (Some near) fixed (2 / 10) = Some (Some cur) ->
  plan_on p gen gl st ego shape start T (Some near) (Some fixed) = idm_plan p gen st ego start T (Some (gl near, lc_until cur)) (lc_front cur).
Proof. intros D C. unfold plan_on. rewrite D. cbn [bind]. rewrite C. reflexivity. Qed.

(** With one: the leader and the end of lane braked for are those of the chosen corridor; lane tracking steers along the
    fixed corridor's center line, ... *)
Theorem C119_tracking : forall p m gain limit st ego shape start T near fixed r,
  tracking_plan p m gain limit st ego shape start T (Some near) (Some fixed) = Some r ->
  exists ds cur, dstate_of ego = Some ds /\ choose_corridor ds shape (Some near) fixed (2 / 10) = Some (Some cur) /\
    (cur = near \/ cur = fixed) /\
    idm_plan p (tracking_trajectory p m gain limit) st ego start T (Some (lc_line fixed, lc_until cur)) (lc_front cur) = Some r.
Proof.
  intros p m gain limit st ego shape start T near fixed r H. destruct (plan_chosen _ _ _ _ _ _ _ _ _ _ _ H) as (ds & cur & D & C & E).
  exists ds, cur. repeat split; auto. destruct (C119_choice _ _ _ _ _ _ C) as (fs & _ & A & B).
  destruct (existsb (lc_within fixed) shape) eqn:X.
  - right. apply touches_iff in X. specialize (A (or_introl X)). congruence.
  - destruct (Rlt_le_dec (Rabs (angle fs)) (2 / 10)) as [L|L].
    + left. assert (N : ~ touches shape fixed) by (rewrite <- touches_iff; congruence). specialize (B N L). congruence.
    + right. specialize (A (or_intror L)). congruence.
Qed.
Print Assumptions C119_tracking.

(** ... the classic model stays on the nearest corridor's center line: every planned point after the first is on it,
    wherever the fixed corridor runs. *)
Theorem C119_classic_stays_on_nearest : forall p st ego shape start T near fixed st' tr,
  classic_plan p st ego shape start T (Some near) (Some fixed) = Some (st', tr) ->
  forall k row, nth_error tr (S k) = Some row ->
  exists t x y th v s, row = [t; x; y; th; v] /\ get_point_at_s (lc_line near) s = Some (x, y).
Proof.
  intros p st ego shape start T near fixed st' tr H k row R.
  destruct (plan_chosen _ _ _ _ _ _ _ _ _ _ _ H) as (ds & cur & _ & _ & E). apply plan_inv in E. destruct E as (rv & v0 & act & _ & _ & G & _).
  apply classic_inv in G. destruct G as (n & x & y & v & s0 & steps & _ & _ & _ & _ & _ & LOOP & -> & _).
  cbn in R. rewrite nth_error_map in R. destruct (nth_error steps k) as [d|] eqn:E; [|discriminate]. cbn in R. injection R as <-.
  destruct (classic_loop_at _ _ _ _ _ _ _ _ _ _ _ _ _ LOOP E) as (s' & v' & _ & _ & q & th & P & _ & ->).
  eexists _, (fst q), (snd q), th, _, _. split; [reflexivity|]. rewrite P. now destruct q.
Qed.
Print Assumptions C119_classic_stays_on_nearest.

(** Commands stay within the limits of the model, whichever corridor is chosen. *)
Theorem C119_command_within_limits : forall p m gain limit st ego shape start T near fixed st' tr,
  acc_lb p <= acc_ub p -> (2 <= num_points p)%nat ->
  (classic_plan p st ego shape start T (Some near) fixed = Some (st', tr) ->
     exists a, i_action st' = Continuous1D a /\ acc_lb p <= a <= acc_ub p) /\
  (tracking_plan p m gain limit st ego shape start T (Some near) fixed = Some (st', tr) ->
     exists a delta, i_action st' = InputAction [a; delta] /\ acc_lb p <= a <= acc_ub p).
Proof.
  intros p m gain limit st ego shape start T near fixed st' tr L N. split; intros H; destruct fixed as [c|].
  - destruct (plan_chosen _ _ _ _ _ _ _ _ _ _ _ H) as (ds & cur & _ & _ & E). eauto using C15_command_within_limits.
  - exact (C15_command_within_limits _ _ _ _ _ _ _ _ _ _ L N H).
  - destruct (plan_chosen _ _ _ _ _ _ _ _ _ _ _ H) as (ds & cur & _ & _ & E). eauto using C15_tracking_command_within_limits.
  - exact (C15_tracking_command_within_limits _ _ _ _ _ _ _ _ _ _ _ _ _ L N H).
Qed.
Print Assumptions C119_command_within_limits.

(** Once a corner is inside the fixed corridor, the traffic and the end of the lane the vehicle is still on have no
    influence ... *)
Theorem C119_own_leader_ignored : forall p m gain limit st ego shape start T near near' fixed,
  touches shape fixed -> other_traffic near near' ->
  classic_plan p st ego shape start T (Some near) (Some fixed) = classic_plan p st ego shape start T (Some near') (Some fixed) /\
  tracking_plan p m gain limit st ego shape start T (Some near) (Some fixed) =
  tracking_plan p m gain limit st ego shape start T (Some near') (Some fixed).
Proof.
  intros p m gain limit st ego shape start T near near' fixed TC [EL _]. apply touches_iff in TC.
  assert (X : forall gen gl, gl near = gl near' -> plan_on p gen gl st ego shape start T (Some near) (Some fixed) = plan_on p gen gl st ego shape start T (Some near') (Some fixed)).
  { intros gen gl E. unfold plan_on. destruct (dstate_of ego) as [ds|]; [|reflexivity]. cbn [bind]. unfold choose_corridor.
    destruct (frenet_state ds (lc_line fixed)) as [fs|]; [|reflexivity]. cbn [bind]. rewrite TC. cbn [bind]. now rewrite E. }
  split; apply X; [now symmetry|reflexivity].
Qed.
Print Assumptions C119_own_leader_ignored.

(** ... and as long as none is and the heading is within 0.2 rad, the traffic of the fixed corridor has none. *)
Theorem C119_target_leader_ignored : forall p m gain limit st ego ds fs shape start T near fixed fixed',
  ~ touches shape fixed -> dstate_of ego = Some ds -> frenet_state ds (lc_line fixed) = Some fs -> Rabs (angle fs) < 2 / 10 ->
  other_traffic fixed fixed' ->
  classic_plan p st ego shape start T (Some near) (Some fixed) = classic_plan p st ego shape start T (Some near) (Some fixed') /\
  tracking_plan p m gain limit st ego shape start T (Some near) (Some fixed) =
  tracking_plan p m gain limit st ego shape start T (Some near) (Some fixed').
Proof.
  intros p m gain limit st ego ds fs shape start T near fixed fixed' N D F A [EL EW].
  assert (N' : existsb (lc_within fixed) shape = false) by (rewrite <- not_true_iff_false, touches_iff; exact N).
  assert (C1 : choose_corridor ds shape (Some near) fixed (2 / 10) = Some (Some near)).
  { unfold choose_corridor. rewrite F. cbn [bind]. rewrite N'. destruct (Rltb_spec (Rabs (angle fs)) (2 / 10)); [reflexivity|lra]. }
  assert (C2 : choose_corridor ds shape (Some near) fixed' (2 / 10) = Some (Some near)).
  { unfold choose_corridor. rewrite EL, F. cbn [bind]. rewrite EW, N'. destruct (Rltb_spec (Rabs (angle fs)) (2 / 10)); [reflexivity|lra]. }
  unfold classic_plan, tracking_plan. rewrite !(plan_eq _ _ _ _ _ _ _ _ _ _ ds near D C1), !(plan_eq _ _ _ _ _ _ _ _ _ _ ds near D C2).
  cbn [tracking_line]. rewrite EL. split; reflexivity.
Qed.
Print Assumptions C119_target_leader_ignored.

(* ------------------------------------------------------------------ *)
(** * Reporting of accelerations *)

(** Reported is exactly what exceeds a limit by 0.1 or more. *)
Theorem C119_reported : forall lon_max lon_min lat_max lat_min acc_lon acc_lat,
  let r := reported lon_max lon_min lat_max lat_min acc_lon acc_lat in
  (In LonMax r <-> 0 <= acc_lon /\ lon_max + 1 / 10 <= acc_lon) /\
  (In LonMin r <-> acc_lon < 0 /\ acc_lon <= lon_min - 1 / 10) /\
  (In LatMin r <-> acc_lat <= 0 /\ acc_lat <= lat_min - 1 / 10) /\
  (In LatMax r <-> 0 < acc_lat /\ lat_max + 1 / 10 <= acc_lat).
Proof.
  intros M m LM Lm a l r.
  assert (S : forall x y, almost_smaller x y = false <-> y + 1 / 10 <= x).
  { intros x y. unfold almost_smaller. destruct (Rleb_spec x y); cbn; [split; [discriminate|lra]|].
    unfold Rabs. destruct (Rcase_abs _); destruct (Rltb_spec (- (x - y)) (1 / 10)) + destruct (Rltb_spec (x - y) (1 / 10)); split; intros; try discriminate; try lra; reflexivity. }
  assert (G : forall x y, almost_larger x y = false <-> x <= y - 1 / 10).
  { intros x y. unfold almost_larger. destruct (Rleb_spec y x); cbn; [split; [discriminate|lra]|].
    unfold Rabs. destruct (Rcase_abs _); destruct (Rltb_spec (- (x - y)) (1 / 10)) + destruct (Rltb_spec (x - y) (1 / 10)); split; intros; try discriminate; try lra; reflexivity. }
  unfold r, reported. rewrite <- !S, <- !G. rewrite !in_app_iff.
  destruct (Rleb_spec 0 a), (Rltb_spec a 0), (Rleb_spec l 0), (Rltb_spec 0 l); try lra;
    destruct (almost_smaller a M), (almost_larger a m), (almost_larger l Lm), (almost_smaller l LM); cbn; intuition (try congruence; try lra; try discriminate).
Qed.
Print Assumptions C119_reported.

(** A car at 10 m/s, one metre behind a standing one, touching the free fixed lane: it accelerates. *)
Example C119_own_leader_ignored_nonvacuous : exists p near fixed st' tr a,
  lc_front near = Some (1, 0, Continuous1D 0) /\ touches [(50, 0)] fixed /\
  classic_plan p (mkIS VALID [] (Continuous1D 0)) [5; 50; 0; 0; 10] [(50, 0)] 5 1 (Some near) (Some fixed) = Some (st', tr) /\
  i_action st' = Continuous1D a /\ 0 < a.
Proof.
  set (p := mkIDM 2 1 1 15 1 0 50 4 8 (-5) false 60 15 2 0).
  assert (S : sane p) by (constructor; cbn; lra).
  set (near := mkLC road (fun _ => true) 50 (Some (1, 0, Continuous1D 0))). set (fixed := mkLC road (fun _ => true) 50 None).
  set (rv := mkRV 0 1000000 0 false).
  destruct (C15_free_road p 10 rv 0 (idm_dt p 1) S eq_refl) as (a & r & E & _ & B).
  specialize (B ltac:(lra) ltac:(cbn; lia) ltac:(cbn; lra)). cbn [desired_vel max_acc p] in B.
  destruct (C15_command_defined p 10 rv 0 (idm_dt p 1) S ltac:(cbn; lra) ltac:(cbn; lra)) as (a' & r' & E' & B').
  assert (a' = a /\ r = Fin r') as [-> ->] by (rewrite E' in E; injection E; intros; split; congruence). clear E'.
  pose proof PI_RGT_0. destruct (road_frenet 0 10) as (f & F & _); [lra|].
  exists p, near, fixed. unfold classic_plan.
  rewrite (plan_eq _ _ _ _ _ _ _ _ _ _ (mkDS 50 0 0 10) fixed); [|reflexivity|unfold choose_corridor; cbn [lc_line fixed]; rewrite F; reflexivity].
  cbn [lc_line lc_until lc_front near fixed].
  unfold idm_plan, calc_relative_values. cbn [coolness p bind lon_acc_of i_action brake_lane_end at_ nth_error]. fold rv.
  unfold classic_trajectory. rewrite road_pts. cbn [num_points p at_ nth_error bind]. rewrite road_nearest by lra. cbn [bind].
  cbn [leading_distance rv].
  assert (DT : idm_dt p 1 = 1) by (unfold idm_dt; cbn; field).
  cbn [acc_lb acc_ub p] in B'.
  rewrite (road_step p (idm_source p 10 rv) (idm_dt p 1) 5 1 50 10 0 0 a r' E) by (rewrite DT; lra).
  cbn [classic_loop bind]. do 3 eexists. split; [reflexivity|]. split; [exists (50, 0); split; [now left|reflexivity]|].
  split; [reflexivity|]. split; [reflexivity|]. cbn [st_acc]. destruct (Rlt_le_dec 0 a) as [L|L]; [exact L|]. apply (proj2 B) in L. lra.
Qed.
