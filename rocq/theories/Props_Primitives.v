(** C43: trajectories of motion primitives. *)
From Coq Require Import Reals List Bool ZArith Arith Lra Lia Psatz.
From Verif Require Import Base_Real Base_Ext Base_Geom Model_Line Model_Frenet Model_Dynamic Model_IDM Spec_IDM Proof_IDM
  Props_Angle Props_Dynamic Props_IDM Toy_Road Model_Primitives.
Import ListNotations.
Local Open Scope R_scope.

(** ** Continuous actions *)
Lemma mp_rows_spec l us act a d dt T : mp_input us act = Some [a; d] ->
  forall n i t x y th v, exists rows, mp_rows (single_track l) us act dt T i [t; x; y; th; v] n = Some rows /\ length rows = n /\
    forall k, (k < n)%nat -> exists x' y' th' e, nth_error rows k = Some [t + e; x'; y'; th'; v + e * a] /\ - PI <= th' < PI /\
      e = (if Nat.eqb (S k) n then T - (INR i - 1) * dt else INR (S k) * dt) /\
      (a = 0 -> d = 0 -> - PI <= th < PI -> x' = x + e * v * cos th /\ y' = y + e * v * sin th /\ th' = th).
Proof.
  intros IN. induction n as [|n IH]; intros i t x y th v.
  - exists []. cbn. repeat split. intros k Hk. lia.
  - cbn -[INR euler_int]. rewrite IN. cbn [bind].
    set (st := match n with O => _ | S _ => _ end).
    destruct (C28_step_time_and_speed l t x y th v a d st) as [(x' & y' & th' & v' & E & EV & ET) _].
    assert (ST : a = 0 -> d = 0 -> - PI <= th < PI -> x' = x + st * v * cos th /\ y' = y + st * v * sin th /\ th' = th).
    { intros -> -> H. pose proof (proj1 (C28_straight_no_input l t x y th v st H)) as S. rewrite E in S. inversion S; subst.
      repeat split; ring. }
    rewrite E. cbn [bind length Nat.eqb].
    destruct (IH (S i) (t + st) x' y' th' v') as (rows & ER & LR & HR). rewrite ER. cbn [bind].
    eexists. split; [reflexivity|]. split; [cbn; congruence|]. intros [|k] Hk.
    + exists x', y', th', st. cbn [nth_error]. rewrite EV. split; [vec|]. split; [exact ET|]. split.
      * unfold st. destruct n as [|n]; cbn [Nat.eqb]; [reflexivity|]. cbn [INR]. ring.
      * exact ST.
    + destruct (HR k ltac:(lia)) as (x2 & y2 & th2 & e & E2 & T2 & EE & S2).
      exists x2, y2, th2, (st + e). cbn [nth_error]. rewrite E2. split; [rewrite EV; vec|]. split; [exact T2|].
      destruct n as [|n]; [lia|]. split.
      * unfold st. rewrite EE. cbn [Nat.eqb]. destruct (Nat.eqb k n); rewrite !S_INR; ring.
      * intros Ha Hd Ht. destruct (ST Ha Hd Ht) as (-> & -> & ->). destruct (S2 Ha Hd Ht) as (-> & -> & ->).
        rewrite EV, Ha. repeat split; ring.
Qed.

(** The trajectory of a continuous action: the first row is the current state, times grow by dt except in the last step,
    the last time is exactly the horizon, the speed is exact, and without inputs the motion is straight. *)
Theorem C43_continuous_plan : forall l us i a d t x y th v dt T, 0 < dt -> 0 <= T -> nth_error us i = Some [a; d] ->
  exists rows n, mp_plan (single_track l) us (DiscreteAction i) [t; x; y; th; v] dt T = Some (rows, DiscreteAction i) /\
    length rows = S n /\ (INR n - 1) * dt < T <= INR n * dt /\
    nth_error rows 0 = Some [t; x; y; th; v] /\
    forall k, (1 <= k <= n)%nat -> exists x' y' th' e,
      nth_error rows k = Some [t + e; x'; y'; th'; v + e * a] /\ - PI <= th' < PI /\
      e = (if Nat.eqb k n then T else INR k * dt) /\
      (a = 0 -> d = 0 -> - PI <= th < PI -> x' = x + e * v * cos th /\ y' = y + e * v * sin th /\ th' = th).
Proof.
  intros l us i a d t x y th v dt T Hdt HT HU. unfold mp_plan. cbv zeta.
  pose proof (ceil_spec (T / dt)) as C. set (c := ceil (T / dt)) in *.
  assert (Q : 0 <= T / dt) by (apply Rmult_le_pos; [auto|left; apply Rinv_0_lt_compat; auto]).
  assert (Hc : (0 <= c)%Z). { apply le_IZR. lra. }
  destruct (Z.leb_spec (c + 1) 0); [lia|]. cbn [length Nat.eqb].
  set (n := (Z.to_nat (c + 1) - 1)%nat).
  destruct (mp_rows_spec l us (DiscreteAction i) a d dt T HU n 1%nat t x y th v) as (rows & E & L & HR). rewrite E. cbn [bind].
  exists ([t; x; y; th; v] :: rows), n. split; [reflexivity|]. split; [cbn; congruence|].
  assert (EN : INR n = IZR c). { unfold n. rewrite INR_IZR_INZ. f_equal. lia. }
  split.
  - rewrite EN. assert (T / dt * dt = T) by (field; lra). nra.
  - split; [reflexivity|]. intros [|k] Hk; [lia|]. destruct (HR k ltac:(lia)) as (x' & y' & th' & e & E' & T' & EE & S').
    exists x', y', th', e. cbn [nth_error]. split; [exact E'|]. split; [exact T'|]. split; [|exact S'].
    rewrite EE. destruct (Nat.eqb (S k) n); auto. cbn [INR]. ring.
Qed.
Print Assumptions C43_continuous_plan.

(** Hence: times increase strictly, by at most dt, from the time of the state to that time plus the horizon. *)
Theorem C43_time_grid : forall l us i a d t x y th v dt T tr act, 0 < dt -> 0 <= T -> nth_error us i = Some [a; d] ->
  mp_plan (single_track l) us (DiscreteAction i) [t; x; y; th; v] dt T = Some (tr, act) ->
  (exists row, nth_error tr 0 = Some row /\ at_ row 0 = Some t) /\
  (exists row, nth_error tr (length tr - 1) = Some row /\ at_ row 0 = Some (t + T) /\ at_ row 4 = Some (v + T * a)) /\
  (forall k r1 r2 t1 t2, nth_error tr k = Some r1 -> nth_error tr (S k) = Some r2 -> at_ r1 0 = Some t1 -> at_ r2 0 = Some t2 ->
     0 < t2 - t1 <= dt).
Proof.
  intros l us i a d t x y th v dt T tr act Hdt HT HU P.
  destruct (C43_continuous_plan l us i a d t x y th v dt T Hdt HT HU) as (rows & n & E & L & N & R0 & RK).
  rewrite P in E. inversion E; subst; clear E.
  assert (AT : forall k row, nth_error rows k = Some row -> exists e, at_ row 0 = Some (t + e) /\ at_ row 4 = Some (v + e * a) /\ e = (if Nat.eqb k n then T else INR k * dt)).
  { intros k row H. assert (K : (k < length rows)%nat) by (apply nth_error_Some; congruence).
    destruct k as [|k].
    - rewrite R0 in H. inversion H; subst. exists 0. cbn [at_ nth_error]. split; [f_equal; ring|]. split; [f_equal; ring|].
      destruct n as [|n]; cbn [Nat.eqb INR]; [|ring]. cbn [INR] in N. lra.
    - destruct (RK (S k) ltac:(lia)) as (x' & y' & th' & e & E & _ & EE & _). rewrite E in H. inversion H; subst row. exists e. split; [reflexivity|]. split; [reflexivity|exact EE]. }
  split; [|split].
  - rewrite R0. eexists. split; [reflexivity|]. reflexivity.
  - rewrite L. replace (S n - 1)%nat with n by lia. destruct (nth_error rows n) as [row|] eqn:E.
    + destruct (AT _ _ E) as (e & A & B & C). rewrite Nat.eqb_refl in C. subst e. eauto.
    + apply nth_error_None in E. lia.
  - intros k r1 r2 t1 t2 H1 H2 E1 E2. apply AT in H1. pose proof H2 as H2'. apply AT in H2. destruct H1 as (e1 & A1 & _ & B1). destruct H2 as (e2 & A2 & _ & B2).
    rewrite A1 in E1. rewrite A2 in E2. inversion E1; inversion E2; subst t1 t2.
    assert (K : (S k < length rows)%nat) by (apply nth_error_Some; congruence).
    destruct (Nat.eqb_spec k n); [lia|]. rewrite B1, B2. destruct (Nat.eqb_spec (S k) n) as [S|S].
    + assert (INR n = INR k + 1) by (rewrite <- S; apply S_INR). nra.
    + rewrite S_INR. lra.
Qed.
Print Assumptions C43_time_grid.
Example C43_time_grid_nonvacuous : exists tr, mp_plan (single_track 2) [[0; 0]; [1; 0]] (DiscreteAction 1) [5; 0; 0; 0; 10] (2 / 10) 1 = Some (tr, DiscreteAction 1) /\
  length tr = 6%nat /\ exists row, nth_error tr 5 = Some row /\ at_ row 0 = Some 6 /\ at_ row 4 = Some 11.
Proof.
  destruct (C43_continuous_plan 2 [[0; 0]; [1; 0]] 1 1 0 5 0 0 0 10 (2 / 10) 1 ltac:(lra) ltac:(lra) eq_refl) as (rows & n & E & L & N & _ & RK).
  assert (n = 5)%nat as ->.
  { assert (5 <= INR n < 6) by lra. assert (INR 5 <= INR n) by (cbn [INR]; lra). assert (INR n < INR 6) by (cbn [INR]; lra).
    apply INR_le in H0. apply INR_lt in H1. lia. }
  exists rows. split; [exact E|]. split; [exact L|]. destruct (RK 5%nat ltac:(lia)) as (x' & y' & th' & e & E' & _ & EE & _).
  cbn in EE. eexists. split; [exact E'|]. rewrite EE. cbn. split; f_equal; ring.
Qed.

(** A partial last step, e.g. a horizon of 1 with steps of 0.3. *)
Example C43_partial_step : exists tr r1 r2, mp_plan (single_track 2) [[0; 0]] (DiscreteAction 0) [0; 0; 0; 0; 10] (3 / 10) 1 = Some (tr, DiscreteAction 0) /\
  length tr = 5%nat /\ nth_error tr 3 = Some r1 /\ nth_error tr 4 = Some r2 /\ at_ r1 0 = Some (9 / 10) /\ at_ r2 0 = Some 1.
Proof.
  destruct (C43_continuous_plan 2 [[0; 0]] 0 0 0 0 0 0 0 10 (3 / 10) 1 ltac:(lra) ltac:(lra) eq_refl) as (rows & n & E & L & N & _ & RK).
  assert (n = 4)%nat as ->.
  { assert (3 < INR n < 5) by lra. assert (INR 3 < INR n) by (cbn [INR]; lra). assert (INR n < INR 5) by (cbn [INR]; lra).
    apply INR_lt in H0. apply INR_lt in H1. lia. }
  destruct (RK 3%nat ltac:(lia)) as (x' & y' & th' & e & E' & _ & EE & _). destruct (RK 4%nat ltac:(lia)) as (x2 & y2 & th2 & e2 & E2 & _ & EE2 & _).
  exists rows. do 2 eexists. split; [exact E|]. split; [exact L|]. split; [exact E'|]. split; [exact E2|]. rewrite EE, EE2. cbn. split; f_equal; lra.
Qed.

(** Without a step the input is not read: a horizon of 0 yields the current state alone, whatever the action. *)
Theorem C43_zero_horizon : forall m us act ego dt, 0 < dt -> length ego = 5%nat -> mp_plan m us act ego dt 0 = Some ([ego], act).
Proof.
  intros m us act ego dt H L. unfold mp_plan. cbv zeta.
  replace (0 / dt) with 0 by (unfold Rdiv; ring). pose proof (ceil_spec 0) as C.
  assert (ceil 0 = 0%Z) as ->. { assert (-1 < ceil 0 < 1)%Z; [|lia]. split; apply lt_IZR; lra. }
  cbn. rewrite L. reflexivity.
Qed.
(** Otherwise an unknown index, or an action that is not an index, fails; so do a horizon in the past and models
    with another number of states. *)
Theorem C43_unknown_action : forall m us act ego dt T, 0 < dt -> 0 < T ->
  (forall i, act = DiscreteAction i -> (length us <= i)%nat) -> mp_plan m us act ego dt T = None.
Proof.
  intros m us act ego dt T Hdt HT HA. unfold mp_plan. cbv zeta. pose proof (ceil_spec (T / dt)) as C. set (c := ceil (T / dt)) in *.
  assert (Q : 0 < T / dt) by (apply Rmult_lt_0_compat; [auto|apply Rinv_0_lt_compat; auto]).
  assert (Hc : (0 < c)%Z) by (apply lt_IZR; lra).
  destruct (Z.leb_spec (c + 1) 0); [lia|]. destruct (Nat.eqb (length ego) 5); auto.
  destruct (Z.to_nat (c + 1) - 1)%nat as [|n] eqn:N; [lia|]. cbn [mp_rows].
  assert (mp_input us act = None) as ->; [|reflexivity].
  destruct act; auto. cbn. apply nth_error_None. auto.
Qed.
Theorem C43_past_horizon : forall m us act ego dt T, 0 < dt -> T <= - dt -> mp_plan m us act ego dt T = None.
Proof.
  intros m us act ego dt T Hdt HT. unfold mp_plan. cbv zeta. pose proof (ceil_spec (T / dt)) as C. set (c := ceil (T / dt)) in *.
  assert (Q : T / dt <= -1). { apply Rmult_le_reg_r with dt; auto. unfold Rdiv. rewrite Rmult_assoc, Rinv_l by lra. lra. }
  assert (Hc : (c < 0)%Z) by (apply lt_IZR; lra).
  destruct (Z.leb_spec (c + 1) 0); [reflexivity|lia].
Qed.
Theorem C43_other_models : forall l us act ego dt T, 0 < dt -> 0 < T ->
  mp_plan (single_track_rate l) us act ego dt T = None /\ mp_plan triple_integrator us act ego dt T = None.
Proof.
  intros l us act ego dt T Hdt HT. unfold mp_plan. cbv zeta. pose proof (ceil_spec (T / dt)) as C. set (c := ceil (T / dt)) in *.
  assert (Q : 0 < T / dt) by (apply Rmult_lt_0_compat; [auto|apply Rinv_0_lt_compat; auto]).
  assert (Hc : (0 < c)%Z) by (apply lt_IZR; lra).
  destruct (Z.leb_spec (c + 1) 0); [lia|]. destruct (Nat.eqb_spec (length ego) 5) as [L|L]; auto.
  destruct (Z.to_nat (c + 1) - 1)%nat as [|n] eqn:N; [lia|]. cbn [mp_rows].
  destruct ego as [|e0 [|e1 [|e2 [|e3 [|e4 [|]]]]]]; try discriminate L.
  split; (destruct (mp_input us act) as [u|]; [|reflexivity]); cbn; reflexivity.
Qed.
Example C43_failures_nonvacuous :
  mp_plan (single_track 2) [[0; 0]] (DiscreteAction 1) [0; 0; 0; 0; 10] 1 1 = None /\
  mp_plan (single_track 2) [[0; 0]] (Continuous1D 1) [0; 0; 0; 0; 10] 1 1 = None.
Proof. split; apply C43_unknown_action; try lra; intros i E; inversion E; cbn; lia. Qed.

(** AddMotionPrimitive returns an index that selects the new input and keeps the others. *)
Theorem C43_add_input : forall us u, let '(us', i) := mp_add us u in
  mp_input us' (DiscreteAction i) = Some u /\ forall j, (j < i)%nat -> mp_input us' (DiscreteAction j) = mp_input us (DiscreteAction j).
Proof.
  intros us u. cbn. split.
  - rewrite nth_error_app2, Nat.sub_diag by lia. reflexivity.
  - intros j H. now apply nth_error_app1.
Qed.

(** The last action is the index. A follower that uses the leader's acceleration (coolness factor) cannot read it:
    its planning aborts. *)
Theorem C43_index_action_stops_followers_refuted : forall m us act ego dt T tr la,
  mp_plan m us act ego dt T = Some (tr, la) -> 0 < dt -> 0 < T ->
  forall p gen st ego' start T' ln until dist vel, 0 < coolness p ->
    idm_plan p gen st ego' start T' (Some (ln, until)) (Some (dist, vel, la)) = None.
Proof.
  intros m us act ego dt T tr la P Hdt HT p gen st ego' start T' ln until dist vel C.
  assert (exists i, la = DiscreteAction i) as (i & ->).
  { destruct act as [a|a b|u|i].
    4: { exists i. unfold mp_plan in P. destruct (_ <=? 0)%Z; [discriminate|]. destruct (Nat.eqb _ 5); [|discriminate].
         destruct (mp_rows _ _ _ _ _ _ _ _); cbn in P; [|discriminate]. now inversion P. }
    all: rewrite C43_unknown_action in P; [discriminate|auto|auto|intros ? X; discriminate X]. }
  unfold idm_plan, calc_relative_values. destruct (Rltb_spec 0 (coolness p)); [|lra]. reflexivity.
Qed.
Print Assumptions C43_index_action_stops_followers_refuted.

(** ** The constant acceleration primitives *)
(** Speeds of a lane tracking rollout. *)
Lemma tracking_speeds p m gain limit src ln dt start : forall n i prev rel l v0,
  tracking_loop p m gain limit src ln dt start i prev rel n = Some l -> at_ prev 4 = Some v0 ->
  forall k u row, nth_error l k = Some (u, row) ->
    exists a v v', at_ u 0 = Some a /\ at_ row 4 = Some v' /\ v' = Rmax (v + a * dt) (min_vel p) /\
      match k with O => v = v0 | S k' => exists u' row', nth_error l k' = Some (u', row') /\ at_ row' 4 = Some v end.
Proof.
  induction n as [|n IH]; intros i prev rel l v0 H V0; cbn [bind tracking_loop] in H.
  { inversion H; subst. intros [|k] u row X; discriminate X. }
  destruct (src rel dt) as [[[a| | |] [r| | |]]|] eqn:SR; cbn [bind] in H; try discriminate.
  destruct (dstate_of prev) as [st|] eqn:DS; cbn [bind] in H; [|discriminate].
  destruct (calculate_steering_angle _ _ _ _ _) as [ang|]; cbn [bind] in H; [|discriminate].
  destruct (euler_int _ _ _ _) as [nxt|] eqn:EU; cbn [bind] in H; [|discriminate].
  destruct (at_ nxt 4) as [v|] eqn:V; cbn [bind] in H; [|discriminate].
  destruct (tracking_loop _ _ _ _ _ _ _ _ _ _ _ n) as [l'|] eqn:E; cbn [bind] in H; [|discriminate].
  inversion H; subst; clear H.
  assert (V' : v = v0 + a * dt).
  { unfold at_ in V, V0. unfold euler_int, single_track in EU. cbn [ssm] in EU.
    destruct prev as [|p0 [|p1 [|p2 [|p3 [|p4 w]]]]]; try discriminate V0. cbn in EU, V0. inversion V0; subst.
    destruct w as [|w0 w]; cbn in EU; [|discriminate]. inversion EU; subst. cbn in V. inversion V. ring. }
  assert (R4 : forall x, at_ (set_at (set_at nxt 4 (Rmax v (min_vel p))) 0 x) 4 = Some (Rmax v (min_vel p))).
  { intros x. unfold at_ in V. destruct nxt as [|x0 [|x1 [|x2 [|x3 [|x4 w]]]]]; try discriminate V. reflexivity. }
  intros [|k] u row X.
  - cbn [nth_error] in X. injection X as Eu Er. subst u row. exists a, v0. rewrite R4. eexists. rewrite V'. repeat split; auto.
  - cbn [nth_error] in X. destruct (IH _ _ _ _ _ E (R4 _) k u row X) as (a' & w & w' & A1 & A2 & A3 & A4). exists a', w, w'. repeat split; auto.
    destruct k as [|k]; [|exact A4]. cbn [nth_error]. do 2 eexists. split; [reflexivity|]. rewrite R4. congruence.
Qed.

(** Plan of a constant acceleration primitive with a target corridor: an exact time grid from the world time over the
    horizon, and the speed changes by a per second except that it does not fall below the minimum. *)
Theorem C43_const_acc_plan : forall p a w T c p' tr v0,
  const_acc_plan p a false w T (Some c) = Some (p', tr) -> at_ (pw_ego w) 4 = Some v0 ->
  length tr = num_points (p_par p) /\
  (exists row0, nth_error tr 0 = Some row0 /\ row0 = pw_time w :: tl (firstn 5 (pw_ego w))) /\
  (forall k row, nth_error tr k = Some row -> at_ row 0 = Some (pw_time w + INR k * (T / (INR (num_points (p_par p)) - 1)))) /\
  (forall k r1 r2 v1, nth_error tr k = Some r1 -> nth_error tr (S k) = Some r2 -> at_ r1 4 = Some v1 ->
     at_ r2 4 = Some (Rmax (v1 + a * (T / (INR (num_points (p_par p)) - 1))) (min_vel (p_par p)))) /\
  ((2 <= num_points (p_par p))%nat -> exists steer, p_last p' = InputAction [a; steer]) /\
  i_traj (p_beh p') = tr /\ i_status (p_beh p') = VALID /\ i_action (p_beh p') = p_last p'.
Proof.
  intros p a w T c p' tr v0 H V0. unfold const_acc_plan in H. rewrite V0 in H. cbn [bind] in H.
  bnd H m M. bnd H r RR. inversion H; subst; clear H. destruct r as [tr act]. cbn [fst snd with_beh p_last p_beh i_traj i_status i_action].
  apply tracking_inv in RR. destruct RR as (n & steps & NP & LE & LOOP & -> & ->).
  set (dt := idm_dt (p_par p) T) in *. change (T / (INR (num_points (p_par p)) - 1)) with dt.
  set (row0 := set_at (firstn 5 (pw_ego w)) 0 (pw_time w)) in *.
  assert (R04 : at_ row0 4 = Some v0).
  { unfold row0, at_ in *. destruct (pw_ego w) as [|x0 [|x1 [|x2 [|x3 [|x4 q]]]]]; cbn in LE; try lia. exact V0. }
  assert (SRC : forall rel a' r, prim_source (p_par p) a false v0 (mkRV 0 0 0 false) rel dt = Some (Fin a', r) -> a' = a).
  { intros rel a' r X. cbn in X. now inversion X. }
  pose proof (tracking_speeds _ _ _ _ _ _ _ _ _ _ _ _ _ _ LOOP R04) as SP.
  pose proof LOOP as LOOP'. apply tracking_loop_at in LOOP'. destruct LOOP' as [LEN AT].
  assert (UA : forall k u row, nth_error steps k = Some (u, row) -> exists s, u = [a; s]).
  { intros k u row X. destruct (AT _ _ _ X) as (_ & _ & rel' & a' & r & ang & S & ->). apply SRC in S. subst. eauto. }
  split; [cbn; rewrite map_length; lia|]. split; [|split; [|split; [|split]]].
  - eexists. split; [reflexivity|]. unfold row0. destruct (pw_ego w); [cbn in LE; lia|reflexivity].
  - intros [|k] row X.
    + cbn in X. inversion X; subst row. unfold row0. destruct (pw_ego w); [cbn in LE; lia|]. cbn. f_equal. ring.
    + cbn in X. rewrite nth_error_map in X. destruct (nth_error steps k) as [[u r]|] eqn:E; [|discriminate]. cbn in X. inversion X; subst.
      destruct (AT _ _ _ E) as (A & _). rewrite A. f_equal. cbn [Nat.add]. rewrite Rplus_comm. reflexivity.
  - intros k r1 r2 v1 X1 X2 V1. cbn in X2. rewrite nth_error_map in X2. destruct (nth_error steps k) as [[u r]|] eqn:E; [|discriminate]. cbn in X2. inversion X2; subst.
    destruct (SP _ _ _ E) as (a' & v & v' & A1 & A2 & A3 & A4). destruct (UA _ _ _ E) as (s & ->). cbn in A1. inversion A1; subst a'.
    rewrite A2, A3. assert (v = v1) as ->; [|reflexivity]. destruct k as [|k].
    + cbn [nth_error] in X1. injection X1 as X1. rewrite <- X1, R04 in V1. injection V1 as V1. congruence.
    + destruct A4 as (u' & row' & E' & V'). cbn in X1. rewrite nth_error_map, E' in X1. cbn in X1. inversion X1; subst. congruence.
  - intros N. destruct steps as [|[u row] steps]; [cbn in LEN; lia|]. destruct (UA 0%nat u row eq_refl) as (s & ->). now exists s.
  - repeat split; reflexivity.
Qed.
(** Unless the minimum speed interferes, row k has exactly the speed v0 + a * t. *)
Theorem C43_const_acc_speed : forall p a w T c p' tr v0,
  const_acc_plan p a false w T (Some c) = Some (p', tr) -> at_ (pw_ego w) 4 = Some v0 ->
  0 <= T -> min_vel (p_par p) <= v0 -> min_vel (p_par p) <= v0 + a * T ->
  forall k row, nth_error tr k = Some row -> at_ row 4 = Some (v0 + a * (INR k * (T / (INR (num_points (p_par p)) - 1)))).
Proof.
  intros p a w T c p' tr v0 H V0 HT M0 M1. destruct (C43_const_acc_plan _ _ _ _ _ _ _ _ H V0) as (L & (row0 & R0 & ER) & _ & SP & _).
  assert (LE : (5 <= length (pw_ego w))%nat).
  { unfold const_acc_plan in H. rewrite V0 in H. cbn [bind] in H. bnd H m M. bnd H r RR. destruct r. apply tracking_inv in RR. now destruct RR as (? & ? & ? & ? & _). }
  set (dt := T / (INR (num_points (p_par p)) - 1)) in *.
  induction k as [|k IH]; intros row X.
  - rewrite R0 in X. inversion X; subst. unfold at_ in *. destruct (pw_ego w) as [|x0 [|x1 [|x2 [|x3 [|x4 q]]]]]; cbn in LE; try lia. cbn in *. rewrite V0. f_equal. ring.
  - assert (K : (S k < length tr)%nat) by (apply nth_error_Some; congruence).
    destruct (nth_error tr k) as [r1|] eqn:E; [|apply nth_error_None in E; lia].
    rewrite (SP k r1 row _ E X (IH _ eq_refl)). f_equal. rewrite S_INR.
    replace (v0 + a * (INR k * dt) + a * dt) with (v0 + a * ((INR k + 1) * dt)) by ring.
    apply Rmax_left.
    (* (k+1) dt lies between 0 and T *)
    assert (N : (2 <= num_points (p_par p))%nat) by lia.
    assert (ND : 0 < INR (num_points (p_par p)) - 1). { apply le_INR in N. cbn [INR] in N. lra. }
    assert (B : 0 <= (INR k + 1) * dt <= T).
    { assert (INR (S k) <= INR (num_points (p_par p)) - 1). { replace (INR (num_points (p_par p)) - 1) with (INR (num_points (p_par p) - 1)) by (rewrite minus_INR by lia; reflexivity). apply le_INR. lia. }
      rewrite S_INR in H0. pose proof (pos_INR k). assert (0 <= dt). { unfold dt. apply Rmult_le_pos; auto. left. now apply Rinv_0_lt_compat. }
      assert (dt * (INR (num_points (p_par p)) - 1) = T) by (unfold dt; field; lra). split; nra. }
    destruct (Rle_dec 0 a); nra.
Qed.
Print Assumptions C43_const_acc_speed.

(** With braking for the lane end the acceleration is never above the constant one. *)
Theorem C43_restricted_acc : forall p a w T c p' tr v0,
  const_acc_plan p a true w T (Some c) = Some (p', tr) -> at_ (pw_ego w) 4 = Some v0 -> acc_lb (p_par p) <= acc_ub (p_par p) ->
  (2 <= num_points (p_par p))%nat ->
  exists acc steer, p_last p' = InputAction [acc; steer] /\ acc <= a /\ (acc = a \/ acc_lb (p_par p) <= acc <= acc_ub (p_par p)).
Proof.
  intros p a w T c p' tr v0 H V0 B N. unfold const_acc_plan in H. rewrite V0 in H. cbn [bind] in H.
  bnd H rv RV. bnd H m M. bnd H r RR. inversion H; subst; clear H. destruct r as [tr act]. cbn [fst snd with_beh p_last].
  apply tracking_inv in RR. destruct RR as (n & steps & NP & LE & LOOP & -> & ->).
  apply tracking_loop_at in LOOP. destruct LOOP as [LEN AT]. destruct steps as [|[u row] steps]; [cbn in LEN; lia|].
  destruct (AT 0%nat u row eq_refl) as (_ & _ & rel' & a' & r & ang & S & ->). exists a', ang. split; auto.
  unfold prim_source in S. destruct (total_acc _ _ _ _ _) as [[x y]|] eqn:TA; cbn in S; [|discriminate]. inversion S as [[E1 E2]]. clear S.
  unfold emin in E1. destruct (eltb (Fin a) x) eqn:C.
  - inversion E1. split; [lra|auto].
  - subst x. cbn in C. destruct (Rltb_spec a a'); [discriminate|]. split; auto. right. eapply total_range; eauto.
Qed.
(** The precondition: the constant acceleration is one the vehicle is allowed; standing, it must not be negative. *)
Theorem C43_stay_lane_precondition : forall p a r w adj m v, p_kind p = StayLane a r -> pw_model w = Some m -> at_ (pw_ego w) 4 = Some v ->
  (prim_pre p w adj = Some true <-> get_lon_acc_min m v <= a <= lon_acc_max m) /\
  (prim_pre p w adj = Some true -> Rabs v < 1 / 100000 -> 0 <= a).
Proof.
  intros p a r w adj m v K M V.
  assert (I : prim_pre p w adj = Some true <-> get_lon_acc_min m v <= a <= lon_acc_max m).
  { unfold prim_pre. rewrite K, M. cbn [bind]. rewrite V. cbn [bind]. unfold get_lon_acc_max. split.
    - intros H. inversion H as [H1]. apply andb_true_iff in H1 as [A B]. rewrite Rleb_iff in A, B. auto.
    - intros [A B]. f_equal. apply andb_true_iff. rewrite !Rleb_iff. auto. }
  split; auto. intros H Z. apply I in H. unfold get_lon_acc_min in H. destruct (Rltb_spec (Rabs v) (1 / 100000)); lra.
Qed.
(** A lane change needs a neighbouring corridor that is long enough from here on. *)
Theorem C43_change_precondition : forall p a r ml w adj, p_kind p = ChangeLeft a r ml ->
  prim_pre p w adj = Some true ->
  exists c pos near s, a_left adj = Some c /\ pw_pos w = Some pos /\ get_nearest_point (co_center c) pos = Some near /\
    get_nearest_s (co_center c) near = Some s /\ ml <= line_length (co_center c) - s.
Proof.
  intros p a r ml w adj K H. unfold prim_pre in H. rewrite K in H. unfold side_long_enough in H.
  destruct (a_left adj) as [c|]; [|discriminate]. bnd H pq P. bnd H near NR. bnd H rem RM. inversion H as [H1]. apply Rleb_iff in H1.
  unfold length_until_end in RM. bnd RM s SS. inversion RM; subst. exists c, pq, near, s. repeat split; auto.
Qed.
(** Without a target corridor the primitive expires and repeats its last trajectory. *)
Theorem C43_no_target_expires : forall p a r w T, exists p', const_acc_plan p a r w T None = Some (p', i_traj (p_beh p)) /\
  i_status (p_beh p') = EXPIRED /\ p_last p' = p_last p /\ i_traj (p_beh p') = i_traj (p_beh p).
Proof. intros. eexists. split; [reflexivity|]. repeat split; reflexivity. Qed.
(** A concrete primitive on a straight road, used for the examples. *)
Definition ex_par : idm_params := mkIDM 2 1 1 15 1 0 50 4 8 (-5) false 60 15 2 0.
Definition ex_model : st_params := mkSTP 2 1 4 (-4) 8 (-5).
Definition ex_prim (k : pkind) : prim := mkPrim k ex_par 1 true (4, -4, 8, -5) (DiscreteAction 0) (mkIS VALID [] (InputAction [0; 0])).
Definition ex_lane (i : nat) : corr := mkCo i road.
Definition ex_world (v : R) (sides : corr -> option corr * option corr) : pworld :=
  mkPW [0; 50; 0; 0; v] 0 (Some ex_model) (Some (ex_lane 0)) (Some (ex_lane 0)) sides None.
Lemma ex_plan_rows a v i : exists tr act,
  tracking_trajectory ex_par (with_limits ex_model (4, -4, 8, -5)) 1 true (fun rel _ => Some (Fin a, Fin rel)) (co_center (ex_lane i)) [0; 50; 0; 0; v] 0 0 1 = Some (tr, InputAction [a; act]).
Proof.
  set (m := mkSTP 2 1 4 (-4) 8 (-5)). change (with_limits ex_model (4, -4, 8, -5)) with m.
  assert (FS : exists f, frenet_state (front_axle m (mkDS 50 0 0 v)) road = Some f).
  { unfold frenet_state, front_axle. cbn [sx sy sth sv wheel_base m]. rewrite cos_0, sin_0.
    unfold get_nearest_point_and_s. rewrite road_pts, road_ss. cbn [min_seg Rltb nth_error].
    unfold nearest_on_segment. cbn [fst snd].
    destruct (Reqb_spec (0 * 0 - 2 * 0 * 100 + 0 * 0 - 2 * 0 * 0 + 100 * 100 + 0 * 0) 0); [lra|].
    match goal with |- context [Rltb ?l 0] => replace l with (52 / 100) by field end.
    destruct (Rltb_spec (52 / 100) 0); [lra|]. destruct (Rltb_spec 1 (52 / 100)); [lra|].
    replace ((1 - 52 / 100) * 0 + 52 / 100 * 100) with 52 by field.
    rewrite road_tangent by lra. eauto. }
  destruct FS as [f FS].
  unfold tracking_trajectory. change (co_center (ex_lane i)) with road. rewrite road_pts. cbn [num_points ex_par length Nat.ltb Nat.leb].
  cbn [firstn set_at app skipn tracking_loop bind dstate_of at_ nth_error].
  unfold calculate_steering_angle. rewrite FS. cbn [bind]. unfold euler_int, single_track.
  cbn [ssm at_ nth_error bind vscale map vadd set_at firstn skipn app]. do 2 eexists. reflexivity.
Qed.
Lemma ex_const_acc k a v i sides : exists p' tr, const_acc_plan (ex_prim k) a false (ex_world v sides) 1 (Some (ex_lane i)) = Some (p', tr) /\
  exists s, p_last p' = InputAction [a; s].
Proof.
  unfold const_acc_plan. cbn [at_ pw_ego ex_world nth_error bind pw_model p_par ex_prim pw_time leading_distance].
  assert (idm_dt ex_par 1 = 1) as -> by (unfold idm_dt, ex_par; cbn; field).
  destruct (ex_plan_rows a v i) as (tr & s & E). unfold prim_source. cbn [p_lim p_gain p_limit ex_prim]. rewrite E. cbn [bind fst snd with_beh p_last]. do 2 eexists. split; [reflexivity|]. exists s. reflexivity.
Qed.
Example C43_const_acc_nonvacuous : exists p' tr, const_acc_plan (ex_prim (StayLane 1 false)) 1 false (ex_world 10 (fun _ => (None, None))) 1 (Some (ex_lane 0)) = Some (p', tr) /\
  at_ (pw_ego (ex_world 10 (fun _ => (None, None)))) 4 = Some 10 /\ min_vel ex_par <= 10 + 1 * 1 /\
  exists row, nth_error tr 1 = Some row /\ at_ row 4 = Some 11.
Proof.
  destruct (ex_const_acc (StayLane 1 false) 1 10 0 (fun _ => (None, None))) as (p' & tr & E & _). exists p', tr. split; [exact E|]. split; [reflexivity|]. split; [cbn; lra|].
  pose proof (C43_const_acc_speed _ _ _ _ _ _ _ 10 E eq_refl ltac:(lra) ltac:(cbn; lra) ltac:(cbn; lra)) as S.
  destruct (C43_const_acc_plan _ _ _ _ _ _ _ 10 E eq_refl) as (L & _). cbn in L.
  destruct (nth_error tr 1) as [row|] eqn:E1; [|apply nth_error_None in E1; lia]. exists row. split; auto. rewrite (S _ _ E1). f_equal. cbn. field.
Qed.
Print Assumptions C43_const_acc_plan.
Print Assumptions C43_restricted_acc.
Print Assumptions C43_stay_lane_precondition.
