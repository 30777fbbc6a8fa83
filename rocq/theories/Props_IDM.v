(** C15, C16, C17, C52, C53: the Intelligent Driver Model. *)
From Coq Require Import Reals List Bool Arith Lra Lia Psatz.
From Verif Require Import Base_Real Base_Ext Base_Geom Model_Line Model_Frenet Model_Dynamic Model_IDM Spec_IDM Proof_IDM Toy_Road.
Import ListNotations.
Local Open Scope R_scope.

Lemma clamp_range p x a : acc_lb p <= acc_ub p -> clamp_acc p x = Fin a -> acc_lb p <= a <= acc_ub p.
Proof.
  intros L H. destruct x as [x| | |].
  - rewrite clamp_fin in H. inversion H. exact (limited_range _ _ _ _ L (limited_clamp _ _ x L)).
  - rewrite clamp_pinf in H by auto. inversion H. lra.
  - rewrite clamp_minf in H. inversion H. lra.
  - rewrite clamp_nan in H. discriminate.
Qed.
Lemma total_range p v rv gap dt a r : acc_lb p <= acc_ub p -> total_acc p v rv gap dt = Some (Fin a, r) ->
  acc_lb p <= a <= acc_ub p.
Proof.
  intros L H. unfold total_acc in H. destruct (has_leading rv).
  - destruct (Rltb 0 (coolness p)).
    + unfold acc_acc in H. destruct (Reqb (coolness p) 0).
      * cbn [bind] in H. inversion H. eapply clamp_range; eauto.
      * destruct (is_nan _); [discriminate|]. cbn [bind] in H. inversion H. eapply clamp_range; eauto.
    + cbn [bind] in H. inversion H. eapply clamp_range; eauto.
  - inversion H. eapply clamp_range; eauto.
Qed.

Ltac bnd H x E := match type of H with bind ?o _ = Some _ => destruct o as [x|] eqn:E; [cbn [bind] in H|discriminate H] end.

Lemma classic_inv p src ln ego start rel0 dt tr act :
  classic_trajectory p src ln ego start rel0 dt = Some (tr, act) ->
  exists n x y v s0 steps, num_points p = S n /\ at_ ego 1 = Some x /\ at_ ego 2 = Some y /\ at_ ego 4 = Some v /\
    get_nearest_s ln (x, y) = Some s0 /\
    classic_loop p src ln dt start 1 s0 v rel0 n = Some steps /\ tr = firstn 5 ego :: map st_row steps /\
    act = Continuous1D (match steps with st :: _ => st_acc st | [] => 0 end).
Proof.
  intros H. unfold classic_trajectory in H. destruct (pts ln) as [|q l]; [discriminate|].
  destruct (num_points p) as [|n] eqn:N; [discriminate|].
  bnd H x X. bnd H y Y. bnd H v V. bnd H s0 S0. bnd H steps L. inversion H; subst.
  exists n, x, y, v, s0, steps. repeat split; auto.
Qed.
Lemma tracking_inv p m gain limit src ln ego start rel0 dt tr act :
  tracking_trajectory p m gain limit src ln ego start rel0 dt = Some (tr, act) ->
  exists n steps, num_points p = S n /\ (5 <= length ego)%nat /\
    tracking_loop p m gain limit src ln dt start 1 (set_at (firstn 5 ego) 0 start) rel0 n = Some steps /\
    tr = set_at (firstn 5 ego) 0 start :: map snd steps /\
    act = InputAction (match steps with st :: _ => fst st | [] => [] end).
Proof.
  intros H. unfold tracking_trajectory in H. destruct (pts ln) as [|q l]; [discriminate|].
  destruct (num_points p) as [|n] eqn:N; [discriminate|].
  destruct (Nat.ltb_spec (length ego) 5); [discriminate|]. bnd H steps L. inversion H; subst. exists n, steps. auto.
Qed.
Lemma plan_inv p gen st ego start T ln until front st' tr :
  idm_plan p gen st ego start T (Some (ln, until)) front = Some (st', tr) ->
  exists rv v0 act, calc_relative_values p front until (i_action st) = Some rv /\ at_ ego 4 = Some v0 /\
    gen (idm_source p v0 rv) ln ego start (leading_distance rv) (idm_dt p T) = Some (tr, act) /\
    st' = mkIS VALID tr act.
Proof.
  intros H. unfold idm_plan in H. bnd H rv RV. bnd H v0 V0. bnd H r RR. inversion H; subst.
  destruct r as [tr act]. exists rv, v0, act. auto.
Qed.

(** ** C15 *)
(** Whatever a planning step commands lies within the configured limits (idm_classic and idm_lane_tracking). *)
Theorem C15_command_within_limits : forall p st ego start T ln until front st' tr,
  acc_lb p <= acc_ub p -> (2 <= num_points p)%nat ->
  idm_plan p (classic_trajectory p) st ego start T (Some (ln, until)) front = Some (st', tr) ->
  exists a, i_action st' = Continuous1D a /\ acc_lb p <= a <= acc_ub p.
Proof.
  intros p st ego start T ln until front st' tr L N H.
  apply plan_inv in H. destruct H as (rv & v0 & act & RV & V0 & G & ->).
  apply classic_inv in G. destruct G as (n & x & y & v & s0 & steps & NP & _ & _ & _ & _ & LOOP & -> & ->).
  pose proof (classic_loop_length _ _ _ _ _ _ _ _ _ _ _ LOOP) as LEN.
  destruct steps as [|d steps]; [cbn in LEN; lia|]. exists (st_acc d). split; auto.
  assert (P : forall rel a r, idm_source p v0 rv rel (idm_dt p T) = Some (Fin a, r) -> acc_lb p <= a <= acc_ub p).
  { intros rel a r S. eapply total_range; eauto. }
  exact (classic_loop_acc _ _ _ _ _ _ P _ _ _ _ _ _ LOOP d (or_introl eq_refl)).
Qed.
Theorem C15_tracking_command_within_limits : forall p m gain limit st ego start T ln until front st' tr,
  acc_lb p <= acc_ub p -> (2 <= num_points p)%nat ->
  idm_plan p (tracking_trajectory p m gain limit) st ego start T (Some (ln, until)) front = Some (st', tr) ->
  exists a delta, i_action st' = InputAction [a; delta] /\ acc_lb p <= a <= acc_ub p.
Proof.
  intros p m gain limit st ego start T ln until front st' tr L N H.
  apply plan_inv in H. destruct H as (rv & v0 & act & RV & V0 & G & ->).
  apply tracking_inv in G. destruct G as (n & steps & NP & LE & LOOP & -> & ->).
  apply tracking_loop_at in LOOP. destruct LOOP as [LEN AT].
  destruct steps as [|[u row] steps]; [cbn in LEN; lia|].
  destruct (AT 0%nat u row eq_refl) as (_ & _ & rel' & a & r & ang & S & ->).
  exists a, ang. split; auto. eapply total_range; eauto.
Qed.
(** With sensible parameters the command is always a number. *)
Theorem C15_command_defined : forall p v rv gap dt,
  sane p -> 0 <= coolness p < 1 -> 0 <= v * leading_velocity rv ->
  exists a r, total_acc p v rv gap dt = Some (Fin a, Fin r) /\ acc_lb p <= a <= acc_ub p.
Proof.
  intros p v rv gap dt S C V.
  enough (exists a r, total_acc p v rv gap dt = Some (Fin a, Fin r)) as (a & r & E).
  { exists a, r. split; auto. eapply total_range; eauto. apply S. }
  unfold total_acc. destruct (has_leading rv).
  - destruct (Rltb_spec 0 (coolness p)).
    + destruct (acc_acc_limits p gap v (leading_velocity rv) (leading_acc rv) S C V) as (a & -> & _).
      cbn. eauto.
    + unfold idm_acc. destruct (Rlt_le_dec 0 gap).
      * rewrite raw_pos, clamp_fin by auto. cbn. eauto.
      * rewrite raw_neg, clamp_minf by auto. cbn. eauto.
  - rewrite free_fin by auto. cbn [emul]. rewrite clamp_fin. eauto.
Qed.
(** With coolness factor 1 it is not: whenever the gap is closed the command is NaN (and planning aborts). *)
Theorem C15_coolness_one_is_nan_refuted : forall p v rv gap dt,
  sane p -> coolness p = 1 -> has_leading rv = true -> gap <= 0 -> 0 <= v * leading_velocity rv ->
  exists r, total_acc p v rv gap dt = Some (NaN, r).
Proof.
  intros p v rv gap dt S C H G V. unfold total_acc. rewrite H, C.
  destruct (Rltb_spec 0 1); [|lra]. unfold acc_acc. rewrite C. destruct (Reqb_spec 1 0); [lra|].
  set (net := if Reqb gap 0 then dbl_min else gap).
  assert (N : net <> 0) by (unfold net; pose proof dbl_min_pos; destruct (Reqb_spec gap 0); lra).
  destruct (cah_fin p net v (leading_velocity rv) (leading_acc rv) N V) as [x E]. rewrite E. cbn [is_nan].
  rewrite raw_neg by auto. cbn [egeb eltb negb]. cbn [esub eneg eadd ediv].
  destruct (Rltb_spec (comf_brake p) 0); [destruct S; lra|]. cbn [etanh emul eadd].
  replace (- (1 - 1)) with 0 by ring. rewrite einf_0. cbn [eadd]. rewrite clamp_nan. cbn. eauto.
Qed.
(** Behind a leader the command is the published IDM acceleration limited to the bounds; without a gap it is the
    lower bound. *)
Theorem C15_follows_the_law : forall p v rv gap dt,
  sane p -> coolness p = 0 -> has_leading rv = true ->
  exists a r, total_acc p v rv gap dt = Some (Fin a, r) /\
    (0 < gap -> limited (acc_lb p) (acc_ub p)
       (idm_law (min_spacing p) (time_headway p) (max_acc p) (comf_brake p) (desired_vel p) (exponent p)
                gap v (leading_velocity rv)) a) /\
    (gap <= 0 -> a = acc_lb p).
Proof.
  intros p v rv gap dt S C H. unfold total_acc. rewrite H, C. destruct (Rltb_spec 0 0); [lra|].
  unfold idm_acc. destruct (Rlt_le_dec 0 gap).
  - rewrite raw_pos, clamp_fin by auto. cbn. do 2 eexists. split; [reflexivity|]. split; [|lra].
    intros _. apply limited_clamp. apply S.
  - rewrite raw_neg, clamp_minf by auto. cbn. do 2 eexists. split; [reflexivity|]. split; [lra|auto].
Qed.
(** Without a leader: the limited free-road law; for a forward-driving vehicle non-positive exactly from the
    desired velocity on, and never above the model's maximum acceleration. *)
Theorem C15_free_road : forall p v rv gap dt,
  sane p -> has_leading rv = false ->
  exists a r, total_acc p v rv gap dt = Some (Fin a, r) /\
    limited (acc_lb p) (acc_ub p) (free_law (max_acc p) (desired_vel p) (exponent p) v) a /\
    (0 <= v -> (0 < exponent p)%nat -> acc_lb p <= 0 < acc_ub p ->
       a <= max_acc p /\ (a <= 0 <-> desired_vel p <= v)).
Proof.
  intros p v rv gap dt S H. unfold total_acc. rewrite H. rewrite free_fin by auto. cbn [emul]. rewrite clamp_fin.
  do 2 eexists. split; [reflexivity|]. split; [apply limited_clamp, S|].
  intros V N [B1 B2]. destruct S as [S1 S2 S3 S4].
  set (q := v / desired_vel p).
  assert (Q0 : 0 <= q) by (unfold q; apply Rmult_le_pos; [lra|left; apply Rinv_0_lt_compat; lra]).
  assert (QV : v = q * desired_vel p) by (unfold q; field; lra).
  assert (P0 : 0 <= q ^ exponent p) by (apply pow_le; auto).
  assert (P1 : 1 <= q ^ exponent p <-> 1 <= q).
  { split; intros X.
    - destruct (Rlt_le_dec q 1); auto. exfalso.
      assert (q ^ exponent p < 1); [|lra].
      clear -r Q0 N. destruct (exponent p) as [|n]; [lia|].
      assert (K : q ^ n <= 1).
      { clear N. induction n as [|n IH]; cbn; [lra|]. pose proof (pow_le q n Q0). nra. }
      cbn. pose proof (pow_le q n Q0). nra.
    - apply pow_R1_Rle; auto. }
  assert (P2 : desired_vel p <= v <-> 1 <= q).
  { rewrite QV. split; intros X; [|nra]. destruct (Rlt_le_dec q 1); [nra|auto]. }
  unfold Rmax, Rmin. split.
  - repeat destruct (Rle_dec _ _); nra.
  - rewrite P2, <- P1. repeat destruct (Rle_dec _ _); split; intros; try nra.
Qed.
(** A leader never makes plain IDM accelerate more than on the free road. *)
Theorem C15_leader_never_speeds_up : forall p v rv gap dt a r a' r' rv',
  sane p -> coolness p = 0 -> has_leading rv = true -> has_leading rv' = false ->
  total_acc p v rv gap dt = Some (Fin a, r) -> total_acc p v rv' gap dt = Some (Fin a', r') -> a <= a'.
Proof.
  intros p v rv gap dt a r a' r' rv' S C H H' E E'.
  destruct (C15_free_road p v rv' gap dt S H') as (a2 & r2 & E2 & L2 & _). rewrite E' in E2. inversion E2; subst; clear E2.
  destruct (C15_follows_the_law p v rv gap dt S C H) as (a1 & r1 & E1 & L1 & L0). rewrite E in E1. inversion E1; subst; clear E1.
  destruct (Rlt_le_dec 0 gap) as [G|G].
  - specialize (L1 G). apply (limited_mono _ _ _ _ _ _ (sane_lim _ S) L1 L2).
    unfold idm_law, free_law. destruct S as [S1 S2 S3 S4].
    match goal with |- context [?x ^ 2] => pose proof (pow2_ge_0 x) end. nra.
  - rewrite (L0 G). apply (limited_range _ _ _ _ (sane_lim _ S) L2).
Qed.
(** The closer the leader, the lower the command. *)
Theorem C15_closer_leader_brakes_more : forall p v rv gap gap' dt a r a' r',
  sane p -> coolness p = 0 -> has_leading rv = true -> gap <= gap' ->
  total_acc p v rv gap dt = Some (Fin a, r) -> total_acc p v rv gap' dt = Some (Fin a', r') -> a <= a'.
Proof.
  intros p v rv gap gap' dt a r a' r' S C H G E E'.
  destruct (C15_follows_the_law p v rv gap dt S C H) as (a1 & r1 & E1 & L1 & L0). rewrite E in E1. inversion E1; subst; clear E1.
  destruct (C15_follows_the_law p v rv gap' dt S C H) as (a2 & r2 & E2 & L2 & _). rewrite E' in E2. inversion E2; subst; clear E2.
  destruct (Rlt_le_dec 0 gap) as [P|P].
  - specialize (L1 P). specialize (L2 ltac:(lra)). apply (limited_mono _ _ _ _ _ _ (sane_lim _ S) L1 L2).
    unfold idm_law. set (d := desired_gap _ _ _ _ _ _).
    assert (K : (d / gap') ^ 2 <= (d / gap) ^ 2).
    { unfold Rdiv. rewrite !Rpow_mult_distr. apply Rmult_le_compat_l; [apply pow2_ge_0|].
      apply pow_incr. split; [left; apply Rinv_0_lt_compat; lra|]. apply Rinv_le_contravar; lra. }
    destruct S. nra.
  - rewrite (L0 P). eapply total_range; eauto. apply S.
Qed.
(** A faster leader never makes the command lower, as long as the desired gap stays non-negative ... *)
Theorem C15_faster_leader_brakes_less_partial : forall p v rv rv' gap dt a r a' r',
  sane p -> coolness p = 0 -> has_leading rv = true -> has_leading rv' = true -> 0 <= v ->
  leading_velocity rv <= leading_velocity rv' ->
  0 <= desired_gap (min_spacing p) (time_headway p) (max_acc p) (comf_brake p) v (leading_velocity rv') ->
  total_acc p v rv gap dt = Some (Fin a, r) -> total_acc p v rv' gap dt = Some (Fin a', r') -> a <= a'.
Proof.
  intros p v rv rv' gap dt a r a' r' S C H H' V LV D E E'.
  destruct (C15_follows_the_law p v rv gap dt S C H) as (a1 & r1 & E1 & L1 & L0). rewrite E in E1. inversion E1; subst; clear E1.
  destruct (C15_follows_the_law p v rv' gap dt S C H') as (a2 & r2 & E2 & L2 & _). rewrite E' in E2. inversion E2; subst; clear E2.
  destruct (Rlt_le_dec 0 gap) as [P|P].
  - specialize (L1 P). specialize (L2 P). apply (limited_mono _ _ _ _ _ _ (sane_lim _ S) L1 L2).
    unfold idm_law.
    assert (K : desired_gap (min_spacing p) (time_headway p) (max_acc p) (comf_brake p) v (leading_velocity rv') <=
                desired_gap (min_spacing p) (time_headway p) (max_acc p) (comf_brake p) v (leading_velocity rv)).
    { unfold desired_gap. apply Rplus_le_compat_l. unfold Rdiv. apply Rmult_le_compat_r.
      - left. apply Rinv_0_lt_compat. destruct S. assert (0 < sqrt (max_acc p * comf_brake p)); [|lra].
        apply sqrt_lt_R0. apply Rmult_lt_0_compat; auto.
      - apply Rmult_le_compat_l; lra. }
    set (d := desired_gap _ _ _ _ _ (leading_velocity rv)) in *. set (d' := desired_gap _ _ _ _ _ (leading_velocity rv')) in *.
    assert (K2 : (d' / gap) ^ 2 <= (d / gap) ^ 2).
    { apply pow_incr. assert (0 < / gap) by (apply Rinv_0_lt_compat; lra). unfold Rdiv. split.
      - apply Rmult_le_pos; lra.
      - apply Rmult_le_compat_r; lra. }
    destruct S. nra.
  - rewrite (L0 P). eapply total_range; eauto. apply S.
Qed.
(** ... but it does otherwise: the desired gap is squared without being cut at zero, so a leader driving away fast
    triggers the strongest braking. *)
Theorem C15_faster_leader_brakes_less_refuted : exists p v rv rv' gap dt a r a' r',
  sane p /\ coolness p = 0 /\ has_leading rv = true /\ has_leading rv' = true /\ 0 <= v < leading_velocity rv /\ 0 < gap /\
  leading_velocity rv <= leading_velocity rv' /\
  total_acc p v rv gap dt = Some (Fin a, r) /\ total_acc p v rv' gap dt = Some (Fin a', r') /\
  0 < a /\ a' = acc_lb p /\ a' < 0.
Proof.
  set (p := mkIDM 2 (3/2) 1 15 1 0 50 4 8 (-5) false 60 15 11 0).
  assert (S : sane p) by (constructor; cbn; lra).
  exists p, 10, (mkRV 10 (134/10) 0 true), (mkRV 10 30 0 true), 10, 1.
  destruct (C15_follows_the_law p 10 (mkRV 10 (134/10) 0 true) 10 1 S eq_refl eq_refl) as (a & r & E & L & _).
  destruct (C15_follows_the_law p 10 (mkRV 10 30 0 true) 10 1 S eq_refl eq_refl) as (a' & r' & E' & L' & _).
  exists a, r, a', r'. specialize (L ltac:(lra)). specialize (L' ltac:(lra)).
  assert (SQ : sqrt (1 * 1) = 1) by (apply sqrt_square; lra).
  cbn in L, L'. unfold idm_law, desired_gap in L, L'. rewrite SQ in L, L'.
  destruct L as (_ & _ & LA). destruct L' as (LA' & _ & _). specialize (LA ltac:(lra)). specialize (LA' ltac:(lra)).
  repeat split; auto; cbn; lra.
Qed.
(** The constant acceleration heuristic (0 < coolness < 1) never brakes harder than plain IDM ... *)
Theorem C15_coolness_never_brakes_harder : forall p gap v vo ao i a,
  sane p -> 0 <= coolness p < 1 -> 0 <= v * vo ->
  idm_acc p gap v vo = Fin i -> acc_acc p gap v vo ao = Some (Fin a) -> i <= a.
Proof.
  intros p gap v vo ao i a S C V I A.
  destruct (Rlt_le_dec 0 gap) as [G|G].
  2:{ unfold idm_acc in I. rewrite raw_neg, clamp_minf in I by auto. inversion I; subst.
      destruct (acc_acc_limits p gap v vo ao S C V) as (a' & E & B). rewrite A in E. inversion E; subst. lra. }
  unfold idm_acc in I. rewrite raw_pos, clamp_fin in I by auto. unfold acc_acc in A. rewrite raw_pos in A by auto.
  set (x := idm_law _ _ _ _ _ _ _ _ _) in *. inversion I; subst i; clear I.
  destruct (Reqb_spec (coolness p) 0).
  { rewrite clamp_fin in A. inversion A. lra. }
  destruct (Reqb_spec gap 0); [lra|].
  destruct (cah_fin p gap v vo ao ltac:(lra) V) as [h HC]. rewrite HC in A. cbn [is_nan] in A.
  unfold egeb in A. rewrite eltb_fin in A. destruct (Rltb_spec x h) as [LT|GE]; cbn [negb] in A.
  - cbn [esub eneg eadd] in A. pose proof (sane_brake _ S) as B. rewrite ediv_fin in A by lra.
    cbn [etanh emul eadd] in A. rewrite clamp_fin in A. inversion A; subst a; clear A.
    set (y := (1 - coolness p) * x + coolness p * (h + comf_brake p * tanh ((x + - h) / comf_brake p))).
    apply (limited_mono _ _ x _ y _ (sane_lim _ S)); [apply limited_clamp, S|apply limited_clamp, S|].
    unfold y. replace ((x + - h) / comf_brake p) with (- ((h - x) / comf_brake p)) by (field; lra). rewrite tanh_opp.
    assert (P : 0 <= (h - x) / comf_brake p) by (apply Rmult_le_pos; [lra|left; apply Rinv_0_lt_compat; lra]).
    pose proof (tanh_le _ P) as TL.
    assert (K : comf_brake p * tanh ((h - x) / comf_brake p) <= h - x).
    { replace (h - x) with (comf_brake p * ((h - x) / comf_brake p)) at 2 by (field; lra).
      apply Rmult_le_compat_l; lra. }
    nra.
  - rewrite clamp_fin in A. inversion A. lra.
Qed.
(** ... but it accelerates behind a leader although the ego already drives at its desired velocity. *)
Theorem C15_coolness_exceeds_free_road_refuted : exists p v rv gap dt a r,
  sane p /\ 0 < coolness p < 1 /\ has_leading rv = true /\ v = desired_vel p /\
  total_acc p v rv gap dt = Some (Fin a, r) /\ 0 < a.
Proof.
  (* desired velocity 10, leader at 20 m/s accelerating with 2 m/s^2, gap 1000 *)
  set (p := mkIDM 0 0 2 10 1 0 50 4 8 (-5) false 60 15 11 (99/100)).
  set (rv := mkRV 1000 20 2 true).
  assert (S : sane p) by (constructor; cbn; lra).
  destruct (C15_command_defined p 10 rv 1000 1 S ltac:(cbn; lra) ltac:(cbn; lra)) as (a & r & E & _).
  exists p, 10, rv, 1000, 1, a, (Fin r). repeat split; auto; try (cbn; lra).
  unfold total_acc in E. cbn [has_leading rv coolness p] in E. destruct (Rltb_spec 0 (99/100)); [|lra].
  unfold acc_acc in E. rewrite raw_pos in E by (auto; lra). cbn [coolness p] in E. destruct (Reqb_spec (99/100) 0); [lra|].
  destruct (Reqb_spec 1000 0); [lra|].
  assert (CA : cah_acc p 1000 10 (leading_velocity rv) (leading_acc rv) = Fin 2).
  { unfold cah_acc. cbn [leading_velocity leading_acc rv max_acc p]. rewrite (Rmin_left 2 2) by lra.
    destruct (Rltb_spec (20 * (10 - 20)) (-2 * 1000 * 2)); [lra|].
    destruct (Rleb_spec 0 (10 - 20)); [lra|]. rewrite ediv_fin by lra. cbn. f_equal. lra. }
  rewrite CA in E. cbn [is_nan] in E.
  set (x := idm_law _ _ _ _ _ _ _ _ _) in *.
  assert (X : -1 < x <= 0).
  { unfold x, idm_law, desired_gap. cbn [leading_velocity rv min_spacing time_headway max_acc comf_brake desired_vel exponent p].
    assert (SQ : 0 < sqrt (2 * 1)) by (apply sqrt_lt_R0; lra).
    assert (SQ2 : 1 <= sqrt (2 * 1)). { rewrite <- sqrt_1 at 1. apply sqrt_le_1_alt. lra. }
    set (q := sqrt (2 * 1)) in *.
    replace ((10 / 10) ^ 4) with 1 by field.
    replace (0 + 10 * 0 + 10 * (10 - 20) / (2 * q)) with (-50 * / q) by (field; lra).
    assert (0 < / q <= 1). { split; [apply Rinv_0_lt_compat; lra|]. rewrite <- Rinv_1. apply Rinv_le_contravar; lra. }
    split; nra. }
  unfold egeb in E. rewrite eltb_fin in E. destruct (Rltb_spec x 2); [|lra]. cbn [negb] in E.
  cbn [esub eneg eadd comf_brake p] in E. rewrite ediv_fin in E by lra. cbn [etanh emul eadd bind] in E. rewrite clamp_fin in E.
  inversion E; subst a; clear E. cbn [acc_ub acc_lb p].
  set (th := tanh _). assert (TB : -1 < th < 1) by apply tanh_bound.
  assert (0 < (1 - 99 / 100) * x + 99 / 100 * (2 + 1 * th)) by lra.
  unfold Rmax, Rmin. repeat destruct (Rle_dec _ _); lra.
Qed.
Print Assumptions C15_command_within_limits.
Print Assumptions C15_coolness_never_brakes_harder.

(** ** C16 *)
Lemma horizon n T : (1 <= n)%nat -> INR n * (T / (INR (S n) - 1)) = T.
Proof. intros H. rewrite S_INR. assert (0 < INR n) by (apply lt_0_INR; lia). field. lra. Qed.
Lemma classic_rows p src ln ego start rel0 dt tr act : classic_trajectory p src ln ego start rel0 dt = Some (tr, act) ->
  length tr = num_points p /\ nth_error tr 0 = Some (firstn 5 ego) /\
  forall k row, nth_error tr (S k) = Some row ->
    exists x y th v, row = [start + INR (S k) * dt; x; y; th; v] /\ (min_vel p <= max_vel p -> min_vel p <= v <= max_vel p).
Proof.
  intros H. apply classic_inv in H. destruct H as (n & x & y & v & s0 & steps & NP & _ & _ & _ & _ & LOOP & -> & ->).
  pose proof (classic_loop_length _ _ _ _ _ _ _ _ _ _ _ LOOP) as LEN. repeat split.
  - cbn. rewrite map_length. lia.
  - intros k row R. cbn in R. rewrite nth_error_map in R. destruct (nth_error steps k) as [d|] eqn:E; [|discriminate].
    cbn in R. inversion R; subst; clear R.
    destruct (classic_loop_at _ _ _ _ _ _ _ _ _ _ _ _ _ LOOP E) as (s' & v' & A & B & q & th & _ & _ & ->).
    exists (fst q), (snd q), th, (st_vel d). split; [cbn -[INR]; f_equal; rewrite Rplus_comm; reflexivity|].
    intros M. rewrite B. split; [apply Rmax_r|]. apply Rmax_lub; auto. apply Rmin_r.
Qed.
(** The rollout has the configured number of points, starts with the current state, has uniform time stamps, the last
    one being the horizon, and limited velocities. *)
Theorem C16_rollout : forall p st ego start T ln until front st' tr,
  idm_plan p (classic_trajectory p) st ego start T (Some (ln, until)) front = Some (st', tr) ->
  length tr = num_points p /\ nth_error tr 0 = Some (firstn 5 ego) /\
  (forall k row, nth_error tr (S k) = Some row ->
    exists x y th v, row = [start + INR (S k) * (T / (INR (num_points p) - 1)); x; y; th; v] /\
      (min_vel p <= max_vel p -> min_vel p <= v <= max_vel p)) /\
  ((2 <= num_points p)%nat -> exists x y th v, nth_error tr (num_points p - 1) = Some [start + T; x; y; th; v]).
Proof.
  intros p st ego start T ln until front st' tr H.
  apply plan_inv in H. destruct H as (rv & v0 & act & RV & V0 & G & ->).
  apply classic_rows in G. destruct G as (L & R0 & R). repeat split; auto.
  intros N. destruct (num_points p) as [|[|n]] eqn:NP; try lia.
  cbn [Nat.sub]. destruct (nth_error tr (S n)) as [row|] eqn:E.
  - destruct (R _ _ E) as (x & y & th & v & -> & _). exists x, y, th, v.
    repeat f_equal. unfold idm_dt. rewrite NP. apply horizon. lia.
  - apply nth_error_None in E. lia.
Qed.
(** The same for a constant-acceleration behavior, whose command is exactly the configured one. *)
Theorem C16_constant_acceleration : forall p c st ego start T ln st' tr,
  const_plan p c st ego start T (Some ln) = Some (st', tr) -> (2 <= num_points p)%nat ->
  length tr = num_points p /\ nth_error tr 0 = Some (firstn 5 ego) /\ i_action st' = Continuous1D c /\
  (forall k row, nth_error tr (S k) = Some row ->
    exists x y th v, row = [start + INR (S k) * (T / (INR (num_points p) - 1)); x; y; th; v] /\
      (min_vel p <= max_vel p -> min_vel p <= v <= max_vel p)).
Proof.
  intros p c st ego start T ln st' tr H N. unfold const_plan in H. bnd H r RR. inversion H; subst; clear H.
  destruct r as [tr act]. cbn [fst snd i_action] in *. pose proof (classic_rows _ _ _ _ _ _ _ _ _ RR) as (A & B & C).
  repeat split; auto.
  apply classic_inv in RR. destruct RR as (n & x & y & v & s0 & steps & NP & _ & _ & _ & _ & LOOP & -> & ->).
  pose proof (classic_loop_length _ _ _ _ _ _ _ _ _ _ _ LOOP) as LEN.
  destruct steps as [|d steps]; [cbn in LEN; lia|]. f_equal.
  refine (classic_loop_acc _ _ _ _ _ (fun a => a = c) _ _ _ _ _ _ _ LOOP d (or_introl eq_refl)).
  intros rel a r X. unfold const_source in X. now inversion X.
Qed.
(** Lane tracking: the same times; velocities are limited from below only ... *)
Theorem C16_lane_tracking_partial : forall p m gain limit st ego start T ln until front st' tr,
  idm_plan p (tracking_trajectory p m gain limit) st ego start T (Some (ln, until)) front = Some (st', tr) ->
  length tr = num_points p /\ nth_error tr 0 = Some (start :: tl (firstn 5 ego)) /\
  (forall k row, nth_error tr (S k) = Some row ->
    at_ row 0 = Some (start + INR (S k) * (T / (INR (num_points p) - 1))) /\ exists v, at_ row 4 = Some v /\ min_vel p <= v) /\
  ((2 <= num_points p)%nat -> exists row, nth_error tr (num_points p - 1) = Some row /\ at_ row 0 = Some (start + T)).
Proof.
  intros p m gain limit st ego start T ln until front st' tr H.
  apply plan_inv in H. destruct H as (rv & v0 & act & RV & V0 & G & ->).
  apply tracking_inv in G. destruct G as (n & steps & NP & LE & LOOP & -> & ->).
  apply tracking_loop_at in LOOP. destruct LOOP as [LEN AT].
  assert (ROW : forall k row, nth_error (set_at (firstn 5 ego) 0 start :: map snd steps) (S k) = Some row ->
    at_ row 0 = Some (start + INR (S k) * (T / (INR (num_points p) - 1))) /\ exists v, at_ row 4 = Some v /\ min_vel p <= v).
  { intros k row R. cbn in R. rewrite nth_error_map in R. destruct (nth_error steps k) as [[u r]|] eqn:E; [|discriminate].
    cbn in R. inversion R; subst; clear R. destruct (AT _ _ _ E) as (A & B & _). split; auto. rewrite A. f_equal.
    rewrite Rplus_comm. reflexivity. }
  repeat split.
  - cbn. rewrite map_length. lia.
  - apply (ROW _ _ H).
  - apply (ROW _ _ H).
  - intros N. destruct (nth_error (set_at (firstn 5 ego) 0 start :: map snd steps) (num_points p - 1)) as [row|] eqn:E.
    + exists row. split; auto. destruct n as [|n]; [lia|]. replace (num_points p - 1)%nat with (S n) in E by lia.
      destruct (ROW _ _ E) as [A _]. rewrite A. f_equal. f_equal. rewrite NP. apply horizon. lia.
    + apply nth_error_None in E. cbn in E. rewrite map_length in E. lia.
Qed.

(** Evaluation of the rollout on a straight road. *)
Lemma road_step p src dt start i s vel rel n a r :
  src rel dt = Some (Fin a, Fin r) -> 0 < s + (1 / 2 * a * dt * dt + vel * dt) < 100 ->
  classic_loop p src road dt start i s vel rel (S n) =
  let s' := s + (1 / 2 * a * dt * dt + vel * dt) in
  let v' := Rmax (Rmin (vel + a * dt) (max_vel p)) (min_vel p) in
  bind (classic_loop p src road dt start (S i) s' v' r n) (fun l =>
    Some (mkStep a s' v' [INR i * dt + start; s'; 0; 0; v'] :: l)).
Proof. intros S B. cbn [classic_loop]. rewrite S. cbn [bind]. rewrite road_point, road_tangent by auto. reflexivity. Qed.

Example C16_nonvacuous : exists p st ego front st' tr,
  sane p /\ (2 <= num_points p)%nat /\ coolness p = 0 /\ front <> None /\
  idm_plan p (classic_trajectory p) st ego 5 1 (Some (road, 50)) front = Some (st', tr).
Proof.
  set (p := mkIDM 2 1 1 15 1 0 50 4 8 (-5) false 60 15 2 0).
  assert (S : sane p) by (constructor; cbn; lra).
  exists p, (mkIS VALID [] (Continuous1D 0)), [5; 50; 0; 0; 10], (Some (20, 10, Continuous1D 0)).
  unfold idm_plan, calc_relative_values. cbn [coolness p bind]. destruct (Rltb_spec 0 0); [lra|]. cbn [bind lon_acc_of i_action brake_lane_end p at_ nth_error].
  unfold classic_trajectory. rewrite road_pts. cbn [num_points p at_ nth_error bind]. rewrite road_nearest by lra. cbn [bind].
  set (rv := mkRV 20 10 0 true). cbn [leading_distance rv].
  destruct (C15_command_defined p 10 rv 20 (idm_dt p 1) S ltac:(cbn; lra) ltac:(cbn; lra)) as (a & r & E & B).
  assert (DT : idm_dt p 1 = 1) by (unfold idm_dt; cbn; field).
  cbn [acc_lb acc_ub p] in B.
  rewrite (road_step p (idm_source p 10 rv) (idm_dt p 1) 5 1 50 10 20 0 a r E) by (rewrite DT; lra).
  cbn [classic_loop bind]. do 2 eexists. repeat split; try lra; try discriminate; cbn; lia || lra || auto.
Qed.

(** ... so a lane-tracking plan can exceed the maximum velocity. *)
Theorem C16_lane_tracking_max_velocity_refuted : exists p m src ln ego start tr act row v,
  min_vel p <= max_vel p /\ src = const_source 1 /\
  tracking_trajectory p m 1 true src ln ego start 0 1 = Some (tr, act) /\
  nth_error tr 1 = Some row /\ at_ row 4 = Some v /\ max_vel p < v.
Proof.
  set (p := mkIDM 2 1 1 15 1 0 50 4 8 (-5) false 60 15 2 0).
  set (m := mkSTP 2 1 4 (-4) 8 (-5)).
  assert (FS : exists f, frenet_state (front_axle m (mkDS 50 0 0 50)) road = Some f).
  { unfold frenet_state, front_axle. cbn [sx sy sth sv wheel_base m]. rewrite cos_0, sin_0.
    unfold get_nearest_point_and_s. rewrite road_pts, road_ss. cbn [min_seg Rltb nth_error].
    unfold nearest_on_segment. cbn [fst snd].
    destruct (Reqb_spec (0 * 0 - 2 * 0 * 100 + 0 * 0 - 2 * 0 * 0 + 100 * 100 + 0 * 0) 0); [lra|].
    match goal with |- context [Rltb ?l 0] => replace l with (52 / 100) by field end.
    destruct (Rltb_spec (52 / 100) 0); [lra|]. destruct (Rltb_spec 1 (52 / 100)); [lra|].
    replace ((1 - 52 / 100) * 0 + 52 / 100 * 100) with 52 by field.
    rewrite road_tangent by lra. eauto. }
  destruct FS as [f FS].
  exists p, m, (const_source 1), road, [0; 50; 0; 0; 50], 0.
  unfold tracking_trajectory. rewrite road_pts. cbn [num_points p length Nat.ltb Nat.leb].
  cbn [firstn set_at app skipn tracking_loop const_source bind dstate_of at_ nth_error].
  unfold calculate_steering_angle. rewrite FS. cbn [bind]. unfold euler_int, single_track.
  cbn [ssm at_ nth_error bind vscale map vadd set_at firstn skipn app].
  do 4 eexists. split; [cbn; lra|]. split; [reflexivity|]. split; [reflexivity|]. split; [reflexivity|].
  split; [reflexivity|]. cbn [max_vel min_vel p]. unfold Rmax. destruct (Rle_dec _ _); lra.
Qed.
Print Assumptions C16_rollout.

(** ** C17 *)
(** The arc lengths of the planned points: row k is the point of the center line at the k-th of them. They increase as long as the
    planned velocity does not hit the minimum velocity. *)
Theorem C17_forward_partial : forall p st ego start T ln until front st' tr,
  idm_plan p (classic_trajectory p) st ego start T (Some (ln, until)) front = Some (st', tr) ->
  exists arcs, length arcs = length tr /\
    (forall x y, at_ ego 1 = Some x -> at_ ego 2 = Some y -> nth_error arcs 0 = get_nearest_s ln (x, y)) /\
    (forall k s row, nth_error arcs (S k) = Some s -> nth_error tr (S k) = Some row ->
       exists q, get_point_at_s ln s = Some q /\ at_ row 1 = Some (fst q) /\ at_ row 2 = Some (snd q)) /\
    (0 <= T -> (2 <= num_points p)%nat -> 0 <= min_vel p -> (forall v, at_ ego 4 = Some v -> 0 <= v) ->
     (forall k row v, nth_error tr (S k) = Some row -> at_ row 4 = Some v -> min_vel p < v) ->
     consecutive Rle arcs).
Proof.
  intros p st ego start T ln until front st' tr H.
  apply plan_inv in H. destruct H as (rv & v0 & act & RV & V0 & G & ->).
  apply classic_inv in G. destruct G as (n & x & y & v & s0 & steps & NP & X & Y & V & S0 & LOOP & -> & ->).
  exists (s0 :: map st_s steps). split; [cbn; now rewrite !map_length|].
  split; [intros x' y' X' Y'; rewrite X in X'; rewrite Y in Y'; inversion X'; inversion Y'; subst; cbn; congruence|].
  set (dt := idm_dt p T) in *.
  split.
  - intros k s row A B. cbn in A, B. rewrite nth_error_map in A, B. destruct (nth_error steps k) as [d|] eqn:E; [|discriminate].
    cbn in A, B. inversion A; inversion B; subst.
    destruct (classic_loop_at _ _ _ _ _ _ _ _ _ _ _ _ _ LOOP E) as (s' & v' & _ & _ & q & th & Q & _ & ->).
    exists q. auto.
  - intros T0 N MV V1 VR.
    assert (DT : 0 <= dt).
    { unfold dt, idm_dt. rewrite NP, S_INR. assert (0 < INR n) by (apply lt_0_INR; lia).
      apply Rmult_le_pos; auto. left. apply Rinv_0_lt_compat. lra. }
    specialize (V1 v V).
    apply classic_loop_steps in LOOP. destruct LOOP as [L0 L1].
    assert (VD : forall k d, nth_error steps k = Some d -> min_vel p < st_vel d).
    { intros k d E. apply (VR k (st_row d)); [cbn; now rewrite nth_error_map, E|].
      destruct k as [|k].
      - destruct (L0 d E) as (_ & _ & q & th & _ & _ & ->). reflexivity.
      - destruct (nth_error steps k) as [d0|] eqn:E0.
        + destruct (L1 _ _ _ E0 E) as (_ & _ & q & th & _ & _ & ->). reflexivity.
        + apply nth_error_None in E0. assert (nth_error steps (S k) = None) by (apply nth_error_None; lia). congruence. }
    assert (STEP : forall i s w d, step_ok p ln dt start i s w d -> 0 <= w -> min_vel p < st_vel d -> s <= st_s d).
    { intros i s w d (A & B & _) W C. rewrite A. rewrite B in C.
      assert (D : 0 <= w + st_acc d * dt).
      { unfold Rmax, Rmin in C. repeat destruct (Rle_dec _ _) in C; lra. }
      assert (0 <= (w + (w + st_acc d * dt)) / 2 * dt) by (apply Rmult_le_pos; lra). lra. }
    intros [|k] a b A B.
    + cbn in A. inversion A; subst. change (nth_error (map st_s steps) 0 = Some b) in B. rewrite nth_error_map in B. destruct (nth_error steps 0) as [d|] eqn:E; [|discriminate].
      cbn in B. inversion B; subst. eapply STEP; [apply (L0 d); congruence|auto|eapply VD; eauto].
    + change (nth_error (map st_s steps) k = Some a) in A. change (nth_error (map st_s steps) (Datatypes.S k) = Some b) in B. rewrite nth_error_map in A, B.
      destruct (nth_error steps k) as [d|] eqn:E; [|discriminate]. destruct (nth_error steps (S k)) as [d'|] eqn:E'; [|discriminate].
      cbn in A, B. inversion A; inversion B; subst. eapply STEP; [eapply L1; eauto| |eapply VD; eauto].
      pose proof (VD _ _ E). lra.
Qed.
(** Otherwise a vehicle standing at its minimum velocity 0 moves backwards although all velocities are 0. *)
Theorem C17_backwards_refuted : exists p st ego front st' tr x1,
  sane p /\ min_vel p = 0 /\ ego = [0; 50; 0; 0; 0] /\
  idm_plan p (classic_trajectory p) st ego 0 1 (Some (road, 50)) front = Some (st', tr) /\
  tr = [ego; [1; x1; 0; 0; 0]] /\ x1 = 50 - 5 / 2.
Proof.
  set (p := mkIDM 2 1 1 15 1 0 50 4 8 (-5) false 60 15 2 0).
  assert (S : sane p) by (constructor; cbn; lra).
  set (rv := mkRV 0 0 0 true).
  exists p, (mkIS VALID [] (Continuous1D 0)), [0; 50; 0; 0; 0], (Some (0, 0, Continuous1D 0)).
  unfold idm_plan, calc_relative_values. cbn [coolness p bind]. destruct (Rltb_spec 0 0); [lra|]. cbn [bind lon_acc_of i_action brake_lane_end p at_ nth_error].
  unfold classic_trajectory. rewrite road_pts. cbn [num_points p at_ nth_error bind]. rewrite road_nearest by lra. cbn [bind].
  fold rv. cbn [leading_distance rv].
  assert (DT : idm_dt p 1 = 1) by (unfold idm_dt; cbn; field). rewrite DT.
  destruct (C15_follows_the_law p 0 rv 0 1 S eq_refl eq_refl) as (a & r & E & _ & A). specialize (A ltac:(lra)).
  cbn [acc_lb p] in A. subst a.
  destruct r as [r| | |];
    try (exfalso; destruct (C15_command_defined p 0 rv 0 1 S ltac:(cbn; lra) ltac:(cbn; lra)) as (? & ? & E2 & _); rewrite E in E2; discriminate).
  rewrite (road_step p (idm_source p 0 rv) 1 0 1 50 0 0 0 (-5) r E) by lra.
  cbn [classic_loop bind]. do 3 eexists. split; [auto|]. split; [reflexivity|]. split; [reflexivity|]. split; [reflexivity|].
  split; [|reflexivity]. cbn [map st_row firstn max_vel min_vel p INR].
  replace (Rmax (Rmin (0 + -5 * 1) 50) 0) with 0 by (unfold Rmax, Rmin; repeat destruct (Rle_dec _ _); lra).
  replace (1 * 1 + 0) with 1 by ring. replace (50 + (1 / 2 * -5 * 1 * 1 + 0 * 1)) with (50 - 5 / 2) by lra. reflexivity.
Qed.
(** It never moves back by more than half the strongest braking times the squared step. *)
Theorem C17_backwards_bounded : forall p st ego start T ln until front st' tr,
  idm_plan p (classic_trajectory p) st ego start T (Some (ln, until)) front = Some (st', tr) ->
  acc_lb p <= acc_ub p -> 0 <= T -> (2 <= num_points p)%nat -> 0 <= min_vel p -> (forall v, at_ ego 4 = Some v -> 0 <= v) ->
  exists arcs, length arcs = length tr /\
    (forall x y, at_ ego 1 = Some x -> at_ ego 2 = Some y -> nth_error arcs 0 = get_nearest_s ln (x, y)) /\
    (forall k s row, nth_error arcs (S k) = Some s -> nth_error tr (S k) = Some row ->
       exists q, get_point_at_s ln s = Some q /\ at_ row 1 = Some (fst q) /\ at_ row 2 = Some (snd q)) /\
    consecutive (fun s s' => s + 1 / 2 * acc_lb p * (T / (INR (num_points p) - 1)) ^ 2 <= s') arcs.
Proof.
  intros p st ego start T ln until front st' tr H LIM T0 N MV V1.
  apply plan_inv in H. destruct H as (rv & v0 & act & RV & V0 & G & ->).
  apply classic_inv in G. destruct G as (n & x & y & v & s0 & steps & NP & X & Y & V & S0 & LOOP & -> & ->).
  exists (s0 :: map st_s steps). split; [cbn; now rewrite !map_length|].
  split; [intros x' y' X' Y'; rewrite X in X'; rewrite Y in Y'; inversion X'; inversion Y'; subst; cbn; congruence|].
  fold (idm_dt p T). set (dt := idm_dt p T) in *.
  split.
  - intros k s row A B. cbn in A, B. rewrite nth_error_map in A, B. destruct (nth_error steps k) as [d|] eqn:E; [|discriminate].
    cbn in A, B. inversion A; inversion B; subst.
    destruct (classic_loop_at _ _ _ _ _ _ _ _ _ _ _ _ _ LOOP E) as (s' & v' & _ & _ & q & th & Q & _ & ->).
    exists q. auto.
  - assert (DT : 0 <= dt).
    { unfold dt, idm_dt. rewrite NP, S_INR. assert (0 < INR n) by (apply lt_0_INR; lia).
      apply Rmult_le_pos; auto. left. apply Rinv_0_lt_compat. lra. }
    specialize (V1 v V).
    assert (AC : forall d, In d steps -> acc_lb p <= st_acc d).
    { refine (classic_loop_acc _ _ _ _ _ _ _ _ _ _ _ _ _ LOOP). intros rel a r SR. eapply total_range in SR; auto. lra. }
    assert (VD : forall k d, nth_error steps k = Some d -> 0 <= st_vel d).
    { intros k d E. destruct (classic_loop_at _ _ _ _ _ _ _ _ _ _ _ _ _ LOOP E) as (s' & v' & _ & B & _).
      rewrite B. apply (Rle_trans _ (min_vel p)); auto. apply Rmax_r. }
    apply classic_loop_steps in LOOP. destruct LOOP as [L0 L1].
    assert (STEP : forall i s w d, step_ok p ln dt start i s w d -> 0 <= w -> acc_lb p <= st_acc d -> s + 1 / 2 * acc_lb p * dt ^ 2 <= st_s d).
    { intros i s w d (A & _) W L. rewrite A.
      assert (0 <= w * dt) by (apply Rmult_le_pos; auto).
      assert (0 <= (st_acc d - acc_lb p) * (dt * dt)) by (apply Rmult_le_pos; [lra|apply Rmult_le_pos; auto]). lra. }
    intros [|k] a b A B.
    + cbn in A. inversion A; subst. change (nth_error (map st_s steps) 0 = Some b) in B. rewrite nth_error_map in B.
      destruct (nth_error steps 0) as [d|] eqn:E; [|discriminate].
      cbn in B. inversion B; subst. eapply STEP; [apply (L0 d); congruence|auto|apply AC; eapply nth_error_In; eauto].
    + change (nth_error (map st_s steps) k = Some a) in A. change (nth_error (map st_s steps) (Datatypes.S k) = Some b) in B. rewrite nth_error_map in A, B.
      destruct (nth_error steps k) as [d|] eqn:E; [|discriminate]. destruct (nth_error steps (S k)) as [d'|] eqn:E'; [|discriminate].
      cbn in A, B. inversion A; inversion B; subst. eapply STEP; [eapply L1; eauto|eapply VD; eauto|apply AC; eapply nth_error_In; eauto].
Qed.
Print Assumptions C17_forward_partial.

(** ** C52 *)
(** Without a leader every step of the rollout uses the acceleration of the first one: the law is evaluated at the ego's
    current speed only. *)
Theorem C52_free_road_rollout_uses_initial_speed : forall p st ego v0 start T ln until st' tr,
  sane p -> brake_lane_end p = false -> at_ ego 4 = Some v0 ->
  idm_plan p (classic_trajectory p) st ego start T (Some (ln, until)) None = Some (st', tr) ->
  exists a, limited (acc_lb p) (acc_ub p) (free_law (max_acc p) (desired_vel p) (exponent p) v0) a /\
    consecutive (fun r r' => forall v v', at_ r 4 = Some v -> at_ r' 4 = Some v' ->
      v' = Rmax (Rmin (v + a * (T / (INR (num_points p) - 1))) (max_vel p)) (min_vel p)) tr.
Proof.
  intros p st ego v0 start T ln until st' tr S BL EV H.
  apply plan_inv in H. destruct H as (rv & v0' & act & RV & V0 & G & ->). rewrite EV in V0. inversion V0; subst v0'; clear V0.
  assert (HL : has_leading rv = false).
  { unfold calc_relative_values in RV. rewrite BL in RV. cbn [bind] in RV. bnd RV ea EA. inversion RV. reflexivity. }
  apply classic_inv in G. destruct G as (n & x & y & v & s0 & steps & NP & X & Y & V & S0 & LOOP & -> & ->).
  rewrite EV in V. inversion V; subst v; clear V.
  destruct (C15_free_road p v0 rv 0 0 S HL) as (a & r & E & L & _).
  exists a. split; auto.
  assert (AC : forall d, In d steps -> st_acc d = a).
  { refine (classic_loop_acc _ _ _ _ _ (fun b => b = a) _ _ _ _ _ _ _ LOOP).
    intros rel b r' SR. unfold idm_source, total_acc in SR, E. rewrite HL in SR, E. inversion E. inversion SR. congruence. }
  apply classic_loop_steps in LOOP. destruct LOOP as [L0 L1].
  intros [|k] row row' A B w w' W W'.
  - cbn in A. inversion A; subst. change (nth_error (map st_row steps) 0 = Some row') in B. rewrite nth_error_map in B. destruct (nth_error steps 0) as [d|] eqn:E0; [|discriminate].
    cbn in B. inversion B; subst. destruct (L0 d ltac:(congruence)) as (_ & VV & q & th & _ & _ & R). rewrite R in W'. cbn in W'. inversion W'; subst.
    assert (w = v0).
    { unfold at_ in *. clear - W EV. destruct ego as [|e0 [|e1 [|e2 [|e3 [|e4 w']]]]]; cbn in *; congruence. }
    subst w. rewrite VV, (AC d (nth_error_In _ _ E0)). reflexivity.
  - change (nth_error (map st_row steps) k = Some row) in A. change (nth_error (map st_row steps) (Datatypes.S k) = Some row') in B. rewrite nth_error_map in A, B.
    destruct (nth_error steps k) as [d|] eqn:E0; [|discriminate]. destruct (nth_error steps (Datatypes.S k)) as [d'|] eqn:E1; [|discriminate].
    cbn in A, B. inversion A; inversion B; subst.
    destruct (L1 _ _ _ E0 E1) as (_ & VV & q & th & _ & _ & R). rewrite R in W'. cbn in W'. inversion W'; subst.
    assert (WD : w = st_vel d).
    { destruct k as [|k].
      - destruct (L0 d ltac:(congruence)) as (_ & _ & q' & th' & _ & _ & R'). rewrite R' in W. cbn in W. congruence.
      - destruct (nth_error steps k) as [d0|] eqn:E2.
        + destruct (L1 _ _ _ E2 E0) as (_ & _ & q' & th' & _ & _ & R'). rewrite R' in W. cbn in W. congruence.
        + apply nth_error_None in E2. assert (nth_error steps (Datatypes.S k) = None) by (apply nth_error_None; lia). congruence. }
    subst w. rewrite VV, (AC d' (nth_error_In _ _ E1)). reflexivity.
Qed.
(** So from the second step on the plan does not obey the law at the planned speed. *)
Theorem C52_law_at_planned_speed_refuted : exists p st ego st' tr r1 r2 v1 v2 a1,
  sane p /\ idm_plan p (classic_trajectory p) st ego 0 2 (Some (road, 50)) None = Some (st', tr) /\
  nth_error tr 1 = Some r1 /\ nth_error tr 2 = Some r2 /\ at_ r1 4 = Some v1 /\ at_ r2 4 = Some v2 /\
  limited (acc_lb p) (acc_ub p) (free_law (max_acc p) (desired_vel p) (exponent p) v1) a1 /\
  min_vel p < v2 < max_vel p /\ v2 <> v1 + a1 * 1.
Proof.
  set (p := mkIDM 2 1 1 10 1 0 50 1 8 (-5) false 60 15 3 0).
  assert (S : sane p) by (constructor; cbn; lra).
  set (rv := mkRV 0 1000000 0 false).
  exists p, (mkIS VALID [] (Continuous1D 0)), [0; 50; 0; 0; 0].
  unfold idm_plan, calc_relative_values. cbn [bind lon_acc_of i_action brake_lane_end p at_ nth_error].
  unfold classic_trajectory. rewrite road_pts. cbn [num_points p at_ nth_error bind]. rewrite road_nearest by lra. cbn [bind].
  fold rv. cbn [leading_distance rv].
  assert (DT : idm_dt p 2 = 1) by (unfold idm_dt; cbn; field). rewrite DT.
  assert (E : forall rel, idm_source p 0 rv rel 1 = Some (Fin 1, Fin rel)).
  { intros rel. unfold idm_source, total_acc. cbn [has_leading rv]. rewrite free_fin by auto. cbn [emul]. rewrite clamp_fin.
    cbn [max_acc exponent desired_vel acc_ub acc_lb p pow].
    replace (1 * (1 - 0 / 10 * 1)) with 1 by field.
    replace (Rmax (Rmin 1 8) (-5)) with 1 by (unfold Rmax, Rmin; repeat destruct (Rle_dec _ _); lra). reflexivity. }
  rewrite (road_step p _ 1 0 1 50 0 0 1 1 0 (E 0)) by lra. cbv zeta. cbn [max_vel min_vel p].
  replace (Rmax (Rmin (0 + 1 * 1) 50) 0) with 1 by (unfold Rmax, Rmin; repeat destruct (Rle_dec _ _); lra).
  rewrite (road_step p _ 1 0 2 _ 1 0 0 1 0 (E 0)) by lra. cbv zeta. cbn [max_vel min_vel p].
  replace (Rmax (Rmin (1 + 1 * 1) 50) 0) with 2 by (unfold Rmax, Rmin; repeat destruct (Rle_dec _ _); lra).
  cbn [classic_loop bind map st_row firstn]. do 6 eexists. exists (9 / 10).
  split; [auto|]. split; [reflexivity|]. split; [reflexivity|]. split; [reflexivity|]. split; [reflexivity|]. split; [reflexivity|].
  cbn [acc_lb acc_ub max_acc desired_vel exponent min_vel max_vel p]. split; [|lra].
  unfold free_law, limited. cbn [pow]. repeat split; intros; lra.
Qed.
Print Assumptions C52_free_road_rollout_uses_initial_speed.

(** ** C53 *)
(** The obstacle IDM reacts to: the leader if only it counts, the lane end (standing) if only it counts, otherwise the nearer one (the
    lane end when equally far); none if neither counts. *)
Theorem C53_nearest_obstacle : forall p front until ego_action rv,
  calc_relative_values p front until ego_action = Some rv ->
  let end_counts := brake_lane_end p = true /\ until - lane_end_offset p <= lane_end_enabled p in
  let end_dist := until - lane_end_offset p in
  (has_leading rv = true <-> front <> None \/ end_counts) /\
  (forall d v a, front = Some (d, v, a) ->
     (~ end_counts \/ d < end_dist -> leading_distance rv = d /\ leading_velocity rv = v) /\
     (end_counts -> end_dist <= d -> leading_distance rv = end_dist /\ leading_velocity rv = 0) /\
     (0 < coolness p -> lon_acc_of a = Some (leading_acc rv))) /\
  (front = None -> end_counts -> leading_distance rv = end_dist /\ leading_velocity rv = 0).
Proof.
  intros p front until ea rv H. cbv zeta. unfold calc_relative_values in H. bnd H la LA.
  unfold distance_to_lane_ending in H.
  destruct front as [[[d v] a]|].
  - assert (AC : 0 < coolness p -> lon_acc_of a = Some la).
    { intros C. destruct (Rltb_spec 0 (coolness p)); [exact LA|lra]. }
    destruct (brake_lane_end p) eqn:B; cbv zeta in H;
      [destruct (Rleb_spec (until - lane_end_offset p) (lane_end_enabled p))|];
      bnd H x X; inversion H; subst; clear H; cbn [has_leading leading_distance leading_velocity leading_acc].
    + split; [split; auto; intros _; left; discriminate|]. split; [|discriminate].
      intros d' v' a' F. inversion F; subst. split; [intros [N|N]|split; [intros EC ED|auto]].
      * exfalso; apply N; auto.
      * rewrite Rmin_left by lra. split; auto. destruct (Reqb_spec d' (until - lane_end_offset p)); [lra|auto].
      * rewrite Rmin_right by auto. split; auto. destruct (Reqb_spec (until - lane_end_offset p) (until - lane_end_offset p)); [auto|congruence].
    + split; [split; auto; intros _; left; discriminate|]. split; [|discriminate].
      intros d' v' a' F. inversion F; subst. split; [auto|split; [intros [_ EC] ED; lra|auto]].
    + split; [split; auto; intros _; left; discriminate|]. split; [|discriminate].
      intros d' v' a' F. inversion F; subst. split; [auto|split; [intros [EC _] ED; discriminate|auto]].
  - destruct (brake_lane_end p) eqn:B; cbv zeta in H;
      [destruct (Rleb_spec (until - lane_end_offset p) (lane_end_enabled p))|];
      bnd H x X; inversion H; subst; clear H; cbn [has_leading leading_distance leading_velocity leading_acc].
    + split; [split; auto|]. split; [discriminate|auto].
    + split; [split; [discriminate|intros [N|[_ N]]; [congruence|lra]]|]. split; [discriminate|intros _ [_ N]; lra].
    + split; [split; [discriminate|intros [N|[N _]]; congruence]|]. split; [discriminate|intros _ [N _]; discriminate].
Qed.
(** Without a lane corridor the plan expires and repeats the last trajectory. *)
Theorem C53_no_corridor_expires : forall p gen st ego start T front,
  idm_plan p gen st ego start T None front = Some (mkIS EXPIRED (i_traj st) (i_action st), i_traj st).
Proof. reflexivity. Qed.
Example C53_nonvacuous : exists p, brake_lane_end p = true /\
  calc_relative_values p (Some (20, 5, Continuous1D 1)) 30 (Continuous1D 0) = Some (mkRV 15 0 0 true).
Proof.
  exists (mkIDM 2 1 1 15 1 0 50 4 8 (-5) true 60 15 2 0). split; [reflexivity|].
  unfold calc_relative_values, distance_to_lane_ending. cbn [coolness brake_lane_end lane_end_offset lane_end_enabled].
  destruct (Rltb_spec 0 0); [lra|]. cbn [bind]. destruct (Rleb_spec (30 - 15) 60); [|lra].
  replace (30 - 15) with 15 by ring. rewrite Rmin_right by lra. destruct (Reqb_spec 15 15); [reflexivity|congruence].
Qed.
Print Assumptions C53_nearest_obstacle.
