(** C28: vehicle dynamics (bark/models/dynamic) and the behaviour that replays a constant input. *)
From Coq Require Import Reals List Bool ZArith Lra Lia Psatz.
From Verif Require Import Base_Real Base_Geom Model_Angle Spec_Angle Proof_Angle Props_Angle Model_Line Spec_Line Proof_Line Model_Frenet Spec_Frenet Proof_Frenet Model_Dynamic Spec_Dynamic.
Import ListNotations.
Local Open Scope R_scope.

Lemma cons_eq (x y : R) l m : x = y -> l = m -> x :: l = y :: m.
Proof. now intros -> ->. Qed.
(** Componentwise equality of vectors. *)
Ltac vec := apply f_equal; repeat (apply cons_eq; [first [ring | reflexivity | (unfold Rdiv; ring) | field | idtac]|]); try reflexivity.

(** Time and speed of one step, for every input. *)
Theorem C28_step_time_and_speed : forall l t x y th v a d dt,
  (exists x' y' th' v', euler_int (single_track l) [t; x; y; th; v] [a; d] dt = Some [t + dt; x'; y'; th'; v'] /\
     v' = v + dt * a /\ - PI <= th' < PI) /\
  (exists x' y' th' v', rk4 (single_track l) [t; x; y; th; v] [a; d] dt = Some [t + dt; x'; y'; th'; v'] /\ v' = v + dt * a).
Proof.
  intros. split.
  - cbn. do 4 eexists. split; [vec|]. split; [reflexivity|]. apply C20_normtopi, PI_RGT_0.
  - cbn. do 4 eexists. split; [vec|]. field.
Qed.
Print Assumptions C28_step_time_and_speed.

(** The model with steering rate: input 0 changes the speed, input 1 the steering angle, and the heading turns with the
    steering angle of the state. *)
Theorem C28_steering_rate_step : forall l t x y th v d a rate dt,
  (exists th', euler_int (single_track_rate l) [t; x; y; th; v; d] [a; rate] dt =
     Some [t + dt; x + dt * (v * cos th); y + dt * (v * sin th); th'; v + dt * a; d + dt * rate] /\
     same_direction PI th' (th + dt * (v * tan d / l))) /\
  (exists x' y' th', rk4 (single_track_rate l) [t; x; y; th; v; d] [a; rate] dt =
     Some [t + dt; x'; y'; th'; v + dt * a; d + dt * rate]).
Proof.
  intros. split.
  - cbn. eexists. split; [vec|]. apply C20_normtopi, PI_RGT_0.
  - cbn. do 3 eexists. vec; field.
Qed.
Print Assumptions C28_steering_rate_step.

(** Straight driving without input: v*dt along the heading, by both integrators. *)
Theorem C28_straight_no_input : forall l t x y th v dt, - PI <= th < PI ->
  let next := Some [t + dt; x + v * dt * cos th; y + v * dt * sin th; th; v] in
  euler_int (single_track l) [t; x; y; th; v] [0; 0] dt = next /\
  rk4 (single_track l) [t; x; y; th; v] [0; 0] dt = next.
Proof.
  intros l t x y th v dt Hth next. unfold next. split.
  - cbn. rewrite tan_0. vec.
    replace (th + dt * (v * 0 / l)) with th by (unfold Rdiv; ring).
    destruct (C20_normtopi PI th PI_RGT_0) as (_ & _ & U & _). symmetry. apply U; auto. exists 0%Z. lra.
  - cbn. rewrite tan_0.
    assert (Z : forall w, w * 0 / l = 0) by (intros; unfold Rdiv; ring). rewrite !Z.
    replace (th + / 2 * (dt * 0)) with th by ring. replace (v + / 2 * (dt * 0)) with v by ring.
    replace (th + dt * 0) with th by ring. replace (v + dt * 0) with v by ring. vec.
Qed.
Print Assumptions C28_straight_no_input.

(** Straight driving with acceleration: RK4 is exact, Euler ignores the acceleration within the step. *)
Theorem C28_straight_accelerating : forall l t x y th v a dt,
  (exists th', rk4 (single_track l) [t; x; y; th; v] [a; 0] dt =
    Some [t + dt; x + (v * dt + a * dt * dt / 2) * cos th; y + (v * dt + a * dt * dt / 2) * sin th; th'; v + a * dt] /\ th' = th) /\
  (exists th', euler_int (single_track l) [t; x; y; th; v] [a; 0] dt =
    Some [t + dt; x + v * dt * cos th; y + v * dt * sin th; th'; v + a * dt] /\ same_direction PI th' th).
Proof.
  intros l t x y th v a dt. split.
  - exists th. split; [|reflexivity]. cbn. rewrite tan_0.
    assert (Z : forall w, w * 0 / l = 0) by (intros; unfold Rdiv; ring). rewrite !Z.
    replace (th + / 2 * (dt * 0)) with th by ring. replace (th + dt * 0) with th by ring.
    vec.
  - cbn. rewrite tan_0. replace (th + dt * (v * 0 / l)) with th by (unfold Rdiv; ring).
    eexists. split; [vec|]. apply C20_normtopi, PI_RGT_0.
Qed.
Print Assumptions C28_straight_accelerating.

(** [n] Euler steps: time n*dt later; without input the position is n*dt*v ahead. *)
Fixpoint euler_n (m : dyn_model) (x u : vec) (dt : R) (n : nat) : option vec :=
  match n with O => Some x | S k => bind (euler_n m x u dt k) (fun y => euler_int m y u dt) end.
Theorem C28_many_steps : forall l t x y th v a d dt n,
  exists x' y' th', euler_n (single_track l) [t; x; y; th; v] [a; d] dt n = Some [t + INR n * dt; x'; y'; th'; v + INR n * dt * a] /\
    (a = 0 -> d = 0 -> - PI <= th < PI -> x' = x + INR n * dt * v * cos th /\ y' = y + INR n * dt * v * sin th /\ th' = th).
Proof.
  intros l t x y th v a d dt n. induction n as [|n (x' & y' & th' & IH & IH0)].
  - exists x, y, th. cbn. split; [vec|]. intros. repeat split; ring.
  - cbn [euler_n]. rewrite IH. cbn [bind]. destruct (Req_EM_T a 0) as [->|Na].
    + destruct (Req_EM_T d 0) as [->|Nd].
      * destruct (Rle_dec (- PI) th) as [A|A]; [destruct (Rlt_dec th PI) as [B|B]|].
        -- destruct (IH0 eq_refl eq_refl (conj A B)) as (-> & -> & ->).
           rewrite (proj1 (C28_straight_no_input l _ _ _ th _ dt (conj A B))).
           do 3 eexists. split; [rewrite S_INR; vec|]. intros. rewrite S_INR. repeat split; ring.
        -- cbn -[INR]. do 3 eexists. split; [rewrite S_INR; vec|]. intros; lra.
        -- cbn -[INR]. do 3 eexists. split; [rewrite S_INR; vec|]. intros; lra.
      * cbn -[INR]. do 3 eexists. split; [rewrite S_INR; vec|]. intros; lra.
    + cbn -[INR]. do 3 eexists. split; [rewrite S_INR; vec|]. intros; lra.
Qed.
Print Assumptions C28_many_steps.

(** One Euler step against the true motion of the bicycle with the same constant inputs: the position error
    is of second order in dt, the heading error too; the speed is exact. *)
Lemma mvt f f' b : 0 < b -> (forall t, 0 <= t <= b -> derivable_pt_lim f t (f' t)) -> exists c, f b - f 0 = f' c * b /\ 0 < c < b.
Proof.
  intros Hb H. destruct (MVT_cor2 f f' 0 b Hb H) as (c & E & Hc). exists c. rewrite E. split; [ring|exact Hc].
Qed.
Lemma abs_mul_le x y a b : Rabs x <= a -> Rabs y <= b -> Rabs (x * y) <= a * b.
Proof. intros. rewrite Rabs_mult. apply Rmult_le_compat; auto using Rabs_pos. Qed.
Lemma cos_le1 x : Rabs (cos x) <= 1.
Proof. apply Rabs_le. apply COS_bound. Qed.
Lemma sin_le1 x : Rabs (sin x) <= 1.
Proof. apply Rabs_le. apply SIN_bound. Qed.

Section LocalError.
Variables (l d a dt : R) (X Y TH V : R -> R).
Hypothesis Hdt : 0 < dt.
Hypothesis HM : bicycle_motion l d a dt X Y TH V.
Let kappa := tan d / l.
Let vmax := Rabs (V 0) + Rabs a * dt.
Let M := Rabs a + vmax * vmax * Rabs kappa.

Lemma speed_exact t : 0 <= t <= dt -> V t = V 0 + a * t.
Proof.
  intros Ht. destruct (Req_dec t 0) as [->|N]; [ring|].
  destruct (mvt V (fun _ => a) t ltac:(lra)) as (c & E & _); [intros u Hu; apply HM; lra|]. lra.
Qed.
Lemma speed_bound t : 0 <= t <= dt -> Rabs (V t) <= vmax.
Proof.
  intros Ht. rewrite speed_exact by auto. eapply Rle_trans; [apply Rabs_triang|]. unfold vmax.
  apply Rplus_le_compat_l. rewrite Rabs_mult. apply Rmult_le_compat_l; [apply Rabs_pos|]. rewrite Rabs_pos_eq; lra.
Qed.
Lemma vmax_pos : 0 <= vmax.
Proof. unfold vmax. pose proof (Rabs_pos (V 0)). pose proof (Rabs_pos a). nra. Qed.
Lemma x_rate_change t : 0 <= t <= dt -> Rabs (V t * cos (TH t) - V 0 * cos (TH 0)) <= M * t.
Proof.
  intros Ht. destruct (Req_dec t 0) as [->|N]. { rewrite Rminus_diag_eq by reflexivity. rewrite Rabs_R0. lra. }
  destruct (mvt (fun u => V u * cos (TH u)) (fun u => a * cos (TH u) + V u * (- sin (TH u) * (V u * tan d / l))) t ltac:(lra)) as (c & E & Hc).
  { intros u Hu. destruct (HM u ltac:(lra)) as (_ & _ & DT & DV).
    apply (derivable_pt_lim_mult V (fun u => cos (TH u)) u a); auto.
    apply (derivable_pt_lim_comp TH cos u (V u * tan d / l)); auto. apply derivable_pt_lim_cos. }
  cbv beta in E. rewrite E, Rabs_mult, (Rabs_pos_eq t) by lra. apply Rmult_le_compat_r; [lra|].
  eapply Rle_trans; [apply Rabs_triang|]. unfold M. apply Rplus_le_compat.
  - rewrite <- (Rmult_1_r (Rabs a)) at 1. apply abs_mul_le; [lra|apply cos_le1].
  - replace (V c * (- sin (TH c) * (V c * tan d / l))) with (V c * V c * (- sin (TH c) * kappa)) by (unfold kappa, Rdiv; ring).
    apply abs_mul_le; [apply abs_mul_le; apply speed_bound; lra|].
    rewrite <- (Rmult_1_l (Rabs kappa)). apply abs_mul_le; [rewrite Rabs_Ropp; apply sin_le1|lra].
Qed.
Lemma y_rate_change t : 0 <= t <= dt -> Rabs (V t * sin (TH t) - V 0 * sin (TH 0)) <= M * t.
Proof.
  intros Ht. destruct (Req_dec t 0) as [->|N]. { rewrite Rminus_diag_eq by reflexivity. rewrite Rabs_R0. lra. }
  destruct (mvt (fun u => V u * sin (TH u)) (fun u => a * sin (TH u) + V u * (cos (TH u) * (V u * tan d / l))) t ltac:(lra)) as (c & E & Hc).
  { intros u Hu. destruct (HM u ltac:(lra)) as (_ & _ & DT & DV).
    apply (derivable_pt_lim_mult V (fun u => sin (TH u)) u a); auto.
    apply (derivable_pt_lim_comp TH sin u (V u * tan d / l)); auto. apply derivable_pt_lim_sin. }
  cbv beta in E. rewrite E, Rabs_mult, (Rabs_pos_eq t) by lra. apply Rmult_le_compat_r; [lra|].
  eapply Rle_trans; [apply Rabs_triang|]. unfold M. apply Rplus_le_compat.
  - rewrite <- (Rmult_1_r (Rabs a)) at 1. apply abs_mul_le; [lra|apply sin_le1].
  - replace (V c * (cos (TH c) * (V c * tan d / l))) with (V c * V c * (cos (TH c) * kappa)) by (unfold kappa, Rdiv; ring).
    apply abs_mul_le; [apply abs_mul_le; apply speed_bound; lra|].
    rewrite <- (Rmult_1_l (Rabs kappa)). apply abs_mul_le; [apply cos_le1|lra].
Qed.
End LocalError.

Theorem C28_euler_local_error : forall l d a dt X Y TH V, 0 < dt -> bicycle_motion l d a dt X Y TH V ->
  exists t' x' y' th' v', euler_int (single_track l) [0; X 0; Y 0; TH 0; V 0] [a; d] dt = Some [t'; x'; y'; th'; v'] /\
    t' = dt /\ v' = V dt /\
    let vmax := Rabs (V 0) + Rabs a * dt in let M := Rabs a + vmax * vmax * Rabs (tan d / l) in
    Rabs (x' - X dt) <= M * dt * dt /\ Rabs (y' - Y dt) <= M * dt * dt /\
    nearly_same_direction PI (Rabs a * Rabs (tan d / l) * dt * dt) th' (TH dt).
Proof.
  intros l d a dt X Y TH V Hdt HM. cbn. do 5 eexists. split; [reflexivity|]. split; [ring|].
  split; [rewrite (speed_exact l d a dt X Y TH V HM dt) by lra; ring|]. split; [|split].
  - destruct (mvt X (fun t => V t * cos (TH t)) dt Hdt) as (c & E & Hc); [intros t Ht; apply HM; auto|].
    pose proof (x_rate_change l d a dt X Y TH V HM c ltac:(lra)) as B.
    replace (X 0 + dt * (V 0 * cos (TH 0)) - X dt) with (- (V c * cos (TH c) - V 0 * cos (TH 0)) * dt) by lra.
    rewrite Rabs_mult, Rabs_Ropp, (Rabs_pos_eq dt) by lra. apply Rmult_le_compat_r; [lra|]. eapply Rle_trans; [exact B|].
    apply Rmult_le_compat_l; [|lra]. apply Rplus_le_le_0_compat; [apply Rabs_pos|]. apply Rmult_le_pos; [apply (Rle_0_sqr (Rabs (V 0) + Rabs a * dt))|apply Rabs_pos].
  - destruct (mvt Y (fun t => V t * sin (TH t)) dt Hdt) as (c & E & Hc); [intros t Ht; apply HM; auto|].
    pose proof (y_rate_change l d a dt X Y TH V HM c ltac:(lra)) as B.
    replace (Y 0 + dt * (V 0 * sin (TH 0)) - Y dt) with (- (V c * sin (TH c) - V 0 * sin (TH 0)) * dt) by lra.
    rewrite Rabs_mult, Rabs_Ropp, (Rabs_pos_eq dt) by lra. apply Rmult_le_compat_r; [lra|]. eapply Rle_trans; [exact B|].
    apply Rmult_le_compat_l; [|lra]. apply Rplus_le_le_0_compat; [apply Rabs_pos|]. apply Rmult_le_pos; [apply (Rle_0_sqr (Rabs (V 0) + Rabs a * dt))|apply Rabs_pos].
  - destruct (mvt TH (fun t => V t * tan d / l) dt Hdt) as (c & E & Hc); [intros t Ht; apply HM; auto|].
    destruct (C20_normtopi PI (TH 0 + dt * (V 0 * tan d / l)) PI_RGT_0) as (_ & [k Hk] & _). unfold ntp. exists k. rewrite Hk.
    rewrite (speed_exact l d a dt X Y TH V HM c) in E by lra.
    replace (TH 0 + dt * (V 0 * tan d / l) + IZR k * (2 * PI) - (TH dt + IZR k * (2 * PI))) with (- (a * (tan d / l) * c * dt)) by (unfold Rdiv in *; lra).
    rewrite Rabs_Ropp, !Rabs_mult, (Rabs_pos_eq dt), (Rabs_pos_eq c) by lra.
    apply Rmult_le_compat_r; [lra|]. apply Rmult_le_compat_l; [|lra].
    pose proof (Rabs_pos a). pose proof (Rabs_pos (tan d / l)). nra.
Qed.
Print Assumptions C28_euler_local_error.
(** Such motions exist: straight acceleration. *)
Example C28_motion_exists : forall v a th, bicycle_motion 2 0 a 1 (fun t => (v * t + a / 2 * (t * t)) * cos th) (fun t => (v * t + a / 2 * (t * t)) * sin th) (fun _ => th) (fun t => v + a * t).
Proof.
  intros v a th t Ht.
  assert (D1 : derivable_pt_lim (fun t => v * t + a / 2 * (t * t)) t (v + a * t)).
  { replace (v + a * t) with (v * 1 + a / 2 * (1 * t + t * 1)) by field.
    apply derivable_pt_lim_plus; [apply (derivable_pt_lim_scal id), derivable_pt_lim_id|].
    apply (derivable_pt_lim_scal (fun t => t * t)). apply (derivable_pt_lim_mult id id); apply derivable_pt_lim_id. }
  assert (D2 : derivable_pt_lim (fun t => v + a * t) t a).
  { assert (E : 0 + a * 1 = a) by ring. enough (DD : derivable_pt_lim (fun t => v + a * t) t (0 + a * 1)) by (rewrite E in DD; exact DD).
    apply derivable_pt_lim_plus; [apply derivable_pt_lim_const|].
    apply (derivable_pt_lim_scal id), derivable_pt_lim_id. }
  repeat split; auto.
  - replace ((v + a * t) * cos th) with ((v + a * t) * cos th + (v * t + a / 2 * (t * t)) * 0) by ring.
    apply (derivable_pt_lim_mult (fun t => v * t + a / 2 * (t * t)) (fun _ => cos th)); auto. apply derivable_pt_lim_const.
  - replace ((v + a * t) * sin th) with ((v + a * t) * sin th + (v * t + a / 2 * (t * t)) * 0) by ring.
    apply (derivable_pt_lim_mult (fun t => v * t + a / 2 * (t * t)) (fun _ => sin th)); auto. apply derivable_pt_lim_const.
  - rewrite tan_0. replace ((v + a * t) * 0 / 2) with 0 by field. apply derivable_pt_lim_const.
Qed.

(** RK4 does not normalise the heading, Euler does. *)
Theorem C28_rk4_heading_refuted : exists l x u dt x' th', rk4 (single_track l) x u dt = Some x' /\
  nth_error x 3 = Some 0 /\ nth_error x' 3 = Some th' /\ PI <= th'.
Proof.
  exists 1, [0; 0; 0; 0; 4], [0; PI / 4], 1. eexists. eexists. split; [reflexivity|]. split; [reflexivity|]. split; [reflexivity|].
  cbn. rewrite tan_PI4. pose proof PI_4. lra.
Qed.
Print Assumptions C28_rk4_heading_refuted.

(** Steering: the limited steering angle respects the steering limit, and the lateral acceleration it causes
    respects the acceleration limits. *)
Lemma atan2_pos_x y x : 0 < x -> atan2 y x = atan (y / x).
Proof. intros H. unfold atan2. destruct (Rlt_dec 0 x); [reflexivity|lra]. Qed.
Lemma bound_value_in v mn mx : mn <= mx -> mn <= bound_value v mn mx <= mx.
Proof. intros H. unfold bound_value. split; [apply Rmax_r|]. apply Rmax_lub; auto. apply Rmin_r. Qed.
Lemma bound_value_cases v mn mx : mn <= mx -> bound_value v mn mx = v \/ bound_value v mn mx = mn /\ v <= mn \/ bound_value v mn mx = mx /\ mx <= v.
Proof.
  intros H. unfold bound_value. destruct (Rle_dec v mx).
  - rewrite Rmin_left by auto. destruct (Rle_dec v mn); [rewrite Rmax_right|rewrite Rmax_left]; lra.
  - rewrite Rmin_right by lra. rewrite Rmax_left; lra.
Qed.
Lemma atan_mono x y : x <= y -> atan x <= atan y.
Proof. intros [H| ->]; [left; apply atan_increasing, H|lra]. Qed.
Lemma tan_mono x y : - (PI/2) < x -> x <= y -> y < PI/2 -> tan x <= tan y.
Proof. intros H1 [H| ->] H2; [left; apply tan_increasing; lra|lra]. Qed.

Theorem C28_steering_limits : forall m st path gain delta,
  0 < wheel_base m -> 0 <= delta_max m -> lat_acc_min m <= 0 <= lat_acc_max m ->
  calculate_steering_angle m st path gain true = Some delta ->
  - delta_max m <= delta <= delta_max m /\
  lat_acc_min m <= lateral_acceleration m delta (sv st) <= lat_acc_max m.
Proof.
  intros m st path gain delta Hl Hd Ha H. unfold calculate_steering_angle in H.
  destruct (frenet_state (front_axle m st) path) as [f|]; [|discriminate]. inversion H as [E]. clear H.
  unfold limited_steering, steering_angle_of, lateral_acceleration. cbv zeta. set (v := sv st) in *. set (raw := raw_steering f gain v). clearbody raw.
  set (d1 := bound_value raw (- delta_max m) (delta_max m)).
  assert (H1 : - delta_max m <= d1 <= delta_max m) by (apply bound_value_in; lra).
  pose proof PI_RGT_0 as HP.
  destruct (Req_dec v 0) as [Z|NZ].
  - rewrite Z, !Rmult_0_l. split; [|lra].
    assert (S : atan2 (lat_acc_min m * wheel_base m) 0 <= 0 /\ 0 <= atan2 (lat_acc_max m * wheel_base m) 0).
    { unfold atan2. destruct (Rlt_dec 0 0); [lra|]. split.
      - destruct (Rlt_dec 0 (lat_acc_min m * wheel_base m)); [nra|]. destruct (Rlt_dec _ 0); lra.
      - destruct (Rlt_dec 0 (lat_acc_max m * wheel_base m)); [lra|]. destruct (Rlt_dec (lat_acc_max m * wheel_base m) 0); [nra|lra]. }
    destruct (bound_value_cases d1 _ _ (Rle_trans _ _ _ (proj1 S) (proj2 S))) as [ -> |[[ -> ?]|[ -> ?]]]; lra.
  - assert (V2 : 0 < v * v) by nra. rewrite !atan2_pos_x by auto.
    assert (Q1 : lat_acc_min m * wheel_base m / (v * v) <= 0).
    { unfold Rdiv. assert (0 < / (v * v)) by (apply Rinv_0_lt_compat; auto). assert (lat_acc_min m * wheel_base m <= 0) by nra. nra. }
    assert (Q2 : 0 <= lat_acc_max m * wheel_base m / (v * v)).
    { unfold Rdiv. assert (0 < / (v * v)) by (apply Rinv_0_lt_compat; auto). assert (0 <= lat_acc_max m * wheel_base m) by nra. nra. }
    set (q1 := lat_acc_min m * wheel_base m / (v * v)) in *. set (q2 := lat_acc_max m * wheel_base m / (v * v)) in *.
    pose proof (atan_mono q1 0 Q1) as A1. pose proof (atan_mono 0 q2 Q2) as A2. rewrite atan_0 in A1, A2.
    pose proof (atan_bound q1) as B1. pose proof (atan_bound q2) as B2.
    assert (LE : atan q1 <= atan q2) by lra.
    pose proof (bound_value_in d1 (atan q1) (atan q2) LE) as HB.
    split. { destruct (bound_value_cases d1 _ _ LE) as [ -> |[[ -> ?]|[ -> ?]]]; lra. }
    set (dd := bound_value d1 (atan q1) (atan q2)) in *.
    assert (T1 : q1 <= tan dd). { rewrite <- (tan_atan q1). apply tan_mono; lra. }
    assert (T2 : tan dd <= q2). { rewrite <- (tan_atan q2). apply tan_mono; lra. }
    replace (v * (v * tan dd / wheel_base m)) with (tan dd * (v * v / wheel_base m)) by (field; lra).
    assert (K : 0 < v * v / wheel_base m) by (apply Rmult_lt_0_compat; [auto|apply Rinv_0_lt_compat; auto]).
    assert (E1 : q1 * (v * v / wheel_base m) = lat_acc_min m) by (unfold q1; field; lra).
    assert (E2 : q2 * (v * v / wheel_base m) = lat_acc_max m) by (unfold q2; field; lra).
    rewrite <- E1, <- E2. split; apply Rmult_le_compat_r; lra.
Qed.
Print Assumptions C28_steering_limits.

(** Steering towards the line: aligned with the road and on its left, the steering angle is to the right, and
    vice versa; aligned and on the line it is zero. *)
Theorem C28_steers_towards_line : forall m st path gain f delta,
  frenet_state (front_axle m st) path = Some f -> calculate_steering_angle m st path gain false = Some delta ->
  0 < gain -> 0 < sv st -> angle f = 0 ->
  (0 < lat f -> - (PI / 2) < delta < 0) /\ (lat f < 0 -> 0 < delta < PI / 2) /\ (lat f = 0 -> delta = 0).
Proof.
  intros m st path gain f delta HF H Hg Hv HA. unfold calculate_steering_angle in H. rewrite HF in H. inversion H as [E]. clear H.
  unfold raw_steering. rewrite HA. assert (N0 : ntp 0 = 0).
  { destruct (C20_normtopi PI 0 PI_RGT_0) as (_ & _ & U & _). symmetry. apply U; [exists 0%Z; lra|]. pose proof PI_RGT_0. lra. }
  rewrite N0, Rplus_0_l, atan2_pos_x by auto. set (q := - gain * lat f / sv st). pose proof (atan_bound q) as B.
  assert (I : 0 < / sv st) by (apply Rinv_0_lt_compat; auto).
  split; [|split]; intros HL.
  - assert (q < 0). { unfold q, Rdiv. assert (- gain * lat f < 0) by nra. nra. } pose proof (atan_increasing q 0 H). rewrite atan_0 in *. lra.
  - assert (0 < q). { unfold q, Rdiv. assert (0 < - gain * lat f) by nra. nra. } pose proof (atan_increasing 0 q H). rewrite atan_0 in *. lra.
  - unfold q. rewrite HL. replace (- gain * 0 / sv st) with 0 by (unfold Rdiv; ring). apply atan_0.
Qed.
Print Assumptions C28_steers_towards_line.

(** "Do not allow to drive backwards": the minimal acceleration is 0 for a standing vehicle, yet an admissible
    acceleration drives a slow vehicle backwards within one step. *)
Theorem C28_no_reverse_refuted : exists m v a dt v',
  0 < v /\ 0 < dt /\ get_lon_acc_min m v <= a <= get_lon_acc_max m v /\
  (exists t x y th, euler_int (single_track (wheel_base m)) [0; 0; 0; 0; v] [a; 0] dt = Some [t; x; y; th; v']) /\ v' < 0.
Proof.
  exists (mkSTP 1 1 4 (-4) 4 (-8)), 1, (-8), 1, (1 + 1 * -8). cbn. unfold get_lon_acc_min, get_lon_acc_max. cbn.
  split; [lra|]. split; [lra|]. split.
  - rewrite Rabs_R1. destruct (Rltb_spec 1 (1 / 100000)); lra.
  - split; [repeat eexists|lra].
Qed.
Print Assumptions C28_no_reverse_refuted.
Theorem C28_standing_does_not_reverse : forall m v a dt, Rabs v < 1 / 100000 -> 0 <= v -> 0 <= dt ->
  get_lon_acc_min m v <= a -> 0 <= v + dt * a.
Proof. intros m v a dt H Hv Hd Ha. unfold get_lon_acc_min in Ha. destruct (Rltb_spec (Rabs v) (1 / 100000)); [|lra]. nra. Qed.
Print Assumptions C28_standing_does_not_reverse.

(** The evasive lateral acceleration ignores on which side of the lane the vehicle is, and depends on the
    orientation of the road in the world: 0 for a vehicle following a lane heading north-east. *)
Theorem C28_evasive_acceleration_refuted :
  (forall m v theta tangent a b b', lat_acc_max_at_frenet_angle m v theta tangent a b = lat_acc_max_at_frenet_angle m v theta tangent a b') /\
  (exists m v a b, 0 < v /\ lat_acc_max_at_frenet_angle m v 0 0 a b > 0 /\ lat_acc_max_at_frenet_angle m v (PI / 4) (PI / 4) a b = 0).
Proof.
  split.
  - intros. unfold lat_acc_max_at_frenet_angle. cbv zeta. destruct (_ || _)%bool, (_ || _)%bool; reflexivity.
  - exists (mkSTP 1 1 1 (-1) 4 (-8)), 1, 0, true. unfold lat_acc_max_at_frenet_angle. cbv zeta.
    cbn [lat_acc_max wheel_base]. split; [lra|]. rewrite atan2_pos_x by lra. replace (1 * 1 / (1 * 1)) with 1 by field. rewrite atan_1.
    split.
    + match goal with |- context [if ?c then _ else _] => destruct c end;
      replace (0 - 0) with 0 by ring; replace (0 + 0) with 0 by ring; rewrite sin_0, cos_0;
      apply Rabs_pos_lt; assert (0 < sin (PI/4)) by (apply sin_gt_0; pose proof PI_RGT_0; lra); lra.
    + match goal with |- context [if ?c then _ else _] => destruct c end;
      replace (PI / 4 - PI / 4) with 0 by ring; replace (PI / 4 + PI / 4) with (PI / 2) by field; rewrite sin_0, cos_PI2;
      replace (_ - _) with 0 by ring; apply Rabs_R0.
Qed.
Print Assumptions C28_evasive_acceleration_refuted.

(** Triple integrator: RK4 solves each axis exactly, whatever dt. *)
Theorem C28_triple_integrator_exact : forall t a1 a2 a3 a4 a5 x vx ax y vy ay z vz az ux uy uz dt,
  exists t' b1 b2 b3 b4 b5, rk4 triple_integrator [t; a1; a2; a3; a4; a5; x; vx; ax; y; vy; ay; z; vz; az] [ux; uy; uz] dt =
    Some [t'; b1; b2; b3; b4; b5;
          x + vx * dt + ax * dt ^ 2 / 2 + ux * dt ^ 3 / 6; vx + ax * dt + ux * dt ^ 2 / 2; ax + ux * dt;
          y + vy * dt + ay * dt ^ 2 / 2 + uy * dt ^ 3 / 6; vy + ay * dt + uy * dt ^ 2 / 2; ay + uy * dt;
          z + vz * dt + az * dt ^ 2 / 2 + uz * dt ^ 3 / 6; vz + az * dt + uz * dt ^ 2 / 2; az + uz * dt].
Proof. intros. cbn. do 6 eexists. vec. Qed.
Print Assumptions C28_triple_integrator_exact.
(** These are the values at dt of the motion with constant jerk. *)
Theorem C28_triple_integrator_solves_ode : forall x v a j,
  jerk_motion j (fun t => x + v * t + a * t ^ 2 / 2 + j * t ^ 3 / 6) (fun t => v + a * t + j * t ^ 2 / 2) (fun t => a + j * t).
Proof.
  intros x v a j t.
  assert (P2 : derivable_pt_lim (fun t => t ^ 2) t (2 * t)).
  { replace (2 * t) with (INR 2 * t ^ 1) by (cbn; ring). apply derivable_pt_lim_pow. }
  assert (P3 : derivable_pt_lim (fun t => t ^ 3) t (3 * t ^ 2)).
  { replace (3 * t ^ 2) with (INR 3 * t ^ 2) by (cbn; ring). apply derivable_pt_lim_pow. }
  assert (SC : forall k f D, derivable_pt_lim f t D -> derivable_pt_lim (fun u => k * f u) t (k * D)) by (intros; apply (derivable_pt_lim_scal f); auto).
  assert (EQ : forall f g D D', (forall u, f u = g u) -> D = D' -> derivable_pt_lim f t D -> derivable_pt_lim g t D').
  { intros f g D D' E <- H e He. destruct (H e He) as [d Hd]. exists d. intros h A B. rewrite <- !E. auto. }
  repeat split.
  - eapply (EQ (fun t => x + (v * id t + (a / 2 * t ^ 2 + j / 6 * t ^ 3)))); [intros; unfold id; field| |].
    2:{ apply derivable_pt_lim_plus; [apply derivable_pt_lim_const|]. apply derivable_pt_lim_plus; [apply SC, derivable_pt_lim_id|].
        apply derivable_pt_lim_plus; apply SC; eassumption. }
    field.
  - eapply (EQ (fun t => v + (a * id t + j / 2 * t ^ 2))); [intros; unfold id; field| |].
    2:{ apply derivable_pt_lim_plus; [apply derivable_pt_lim_const|]. apply derivable_pt_lim_plus; [apply SC, derivable_pt_lim_id|]. apply SC; eassumption. }
    field.
  - eapply (EQ (fun t => a + j * id t)); [intros; unfold id; reflexivity| |].
    2:{ apply derivable_pt_lim_plus; [apply derivable_pt_lim_const|apply SC, derivable_pt_lim_id]. }
    ring.
Qed.
Print Assumptions C28_triple_integrator_solves_ode.

(** ... but its time does not advance by dt: the model says dt/dt = t. From time 0 it stays 0. *)
Theorem C28_triple_integrator_time_refuted : forall r u dt x', rk4 triple_integrator (0 :: r) u dt = Some x' -> nth_error x' 0 = Some 0.
Proof.
  intros r u dt x' H. unfold rk4, triple_integrator in H. cbn [ssm bind] in H.
  destruct r as [|a1 [|a2 [|a3 [|a4 [|a5 [|x [|vx [|ax [|y [|vy [|ay [|z [|vz [|az [|? ?]]]]]]]]]]]]]]]; try discriminate.
  destruct u as [|ux [|uy [|uz [|? ?]]]]; try discriminate. cbn in H. inversion H. cbn. f_equal. field.
Qed.
Print Assumptions C28_triple_integrator_time_refuted.

(** The behaviour replaying a constant input: time grid, start row, and constant-rate speed. *)
Lemma ceil_spec x : IZR (ceil x) - 1 < x <= IZR (ceil x).
Proof. unfold ceil. destruct (base_Int_part (- x)). rewrite opp_IZR. lra. Qed.

Lemma dm_rows_spec l u a d dt start : u = [a; d] -> forall n i t x y th v,
  exists rows, dm_rows (single_track l) u dt start i [t; x; y; th; v] n = Some rows /\ length rows = n /\
    forall k, (k < n)%nat -> exists x' y' th', nth_error rows k = Some [start + INR (i + k) * dt; x'; y'; th'; v + INR (S k) * dt * a] /\ - PI <= th' < PI.
Proof.
  intros ->. induction n as [|n IH]; intros i t x y th v.
  - exists []. cbn. repeat split. intros k Hk. lia.
  - cbn -[INR euler_int]. destruct (C28_step_time_and_speed l t x y th v a d dt) as [(x' & y' & th' & v' & E & EV & ET) _].
    rewrite E. cbn -[INR euler_int dm_rows].
    destruct (IH (S i) (start + INR i * dt) x' y' th' v') as (rows & ER & LR & HR). rewrite ER. cbn [bind].
    eexists. split; [reflexivity|]. split; [cbn; congruence|]. intros [|k] Hk.
    + exists x', y', th'. cbn [nth_error]. rewrite Nat.add_0_r. split; [|exact ET]. rewrite EV. cbn [INR]. vec.
    + destruct (HR k ltac:(lia)) as (x2 & y2 & th2 & E2 & T2). exists x2, y2, th2. cbn [nth_error]. rewrite E2.
      split; [|exact T2]. replace (S i + k)%nat with (i + S k)%nat by lia. rewrite EV, (S_INR (S k)). vec.
Qed.

Theorem C28_constant_input_plan : forall l a d t x y th v dt start T, 0 < dt -> 0 <= T ->
  exists rows n, dm_plan (single_track l) [a; d] [t; x; y; th; v] dt start T = Some rows /\
    length rows = S n /\ T + dt <= INR n * dt < T + 2 * dt /\
    nth_error rows 0 = Some [t; x; y; th; v] /\
    forall k, (1 <= k <= n)%nat -> exists x' y' th', nth_error rows k = Some [start + INR k * dt; x'; y'; th'; v + INR k * dt * a] /\ - PI <= th' < PI.
Proof.
  intros l a d t x y th v dt start T Hdt HT. unfold dm_plan. cbv zeta.
  pose proof (ceil_spec (T / dt)) as C. set (c := ceil (T / dt)) in *.
  assert (Q : 0 <= T / dt) by (apply Rmult_le_pos; [auto|left; apply Rinv_0_lt_compat; auto]).
  assert (Hc : (0 <= c)%Z). { apply le_IZR. lra. }
  destruct (Z.leb_spec (c + 2) 0); [lia|]. cbn [length state_size single_track Nat.eqb].
  set (n := (Z.to_nat (c + 2) - 1)%nat).
  destruct (dm_rows_spec l [a; d] a d dt start eq_refl n 1%nat t x y th v) as (rows & E & L & HR). change (state_size (single_track l)) with 5%nat. cbn [length Nat.eqb]. rewrite E. cbn [bind].
  exists ([t; x; y; th; v] :: rows), n. split; [reflexivity|]. split; [cbn; congruence|].
  assert (EN : INR n = IZR c + 1). { unfold n. rewrite INR_IZR_INZ. rewrite <- plus_IZR. f_equal. lia. }
  split.
  - rewrite EN. assert (T / dt * dt = T) by (field; lra). nra.
  - split; [reflexivity|]. intros [|k] Hk; [lia|]. destruct (HR k ltac:(lia)) as (x' & y' & th' & E' & T'). exists x', y', th'.
    cbn [nth_error]. split; [exact E'|exact T'].
Qed.
Print Assumptions C28_constant_input_plan.

(** It cannot be used with the triple integrator: its rows have 5 entries, the model needs 15. *)
Theorem C28_constant_input_triple_refuted : forall u x0 dt start T, 0 < dt -> 0 <= T -> dm_plan triple_integrator u x0 dt start T = None.
Proof.
  intros u x0 dt start T Hdt HT. unfold dm_plan. cbv zeta. destruct (_ <=? 0)%Z eqn:EZ; auto. cbn [state_size triple_integrator].
  destruct (Nat.eqb_spec (length x0) 5) as [E|]; auto.
  pose proof (ceil_spec (T / dt)) as C.
  assert (Q : 0 <= T / dt) by (apply Rmult_le_pos; [auto|left; apply Rinv_0_lt_compat; auto]).
  assert (Hc : (0 <= ceil (T / dt))%Z). { apply le_IZR. lra. }
  destruct (Z.to_nat (ceil (T / dt) + 2) - 1)%nat as [|k] eqn:EN; [lia|].
  destruct x0 as [|? [|? [|? [|? [|? [|? ?]]]]]]; try discriminate. reflexivity.
Qed.
Print Assumptions C28_constant_input_triple_refuted.
