(** C52 with a leader: which law the plan of BehaviorIDMClassic obeys. *)
From Coq Require Import Reals List Bool Arith Lra Lia Psatz.
From Verif Require Import Base_Real Base_Ext Base_Geom Model_Line Model_Frenet Model_Dynamic Model_IDM Spec_IDM Proof_IDM Props_IDM Toy_Road.
Import ListNotations.
Local Open Scope R_scope.

(** A point of the plan: the gap to the leader the planner assumes, position along the
    center line, speed. *)
Record ppoint : Type := mkPP { pp_gap : R; pp_s : R; pp_v : R }.

(** The constant-acceleration heuristic for gap [g] > 0 (Treiber, Kesting: eq. 11.25), and the
    mixture with coolness [c] (eq. 11.26); [c] = 0 is the plain law. *)
Definition cah_law (a g v vl al : R) : R :=
  let e := Rmin al a in
  if Rlt_dec (vl * (v - vl)) (-2 * g * e) then v ^ 2 * e / (vl ^ 2 - 2 * g * e)
  else e - (if Rle_dec vl v then (v - vl) ^ 2 else 0) / (2 * g).
Definition cool_law (c b cah idm : R) : R :=
  if Rle_dec cah idm then idm else (1 - c) * idm + c * (cah + b * tanh ((idm - cah) / b)).

(** From one point to the next: an acceleration the limited law gives for the assumed gap
    and the vehicle's current speed [v0] (not the planned one); uniformly accelerated
    motion; but the gap shrinks as if the vehicle still had the speed [v0]. *)
Definition leader_step (p : idm_params) (v0 vl al dt : R) (x y : ppoint) : Prop :=
  exists a,
    (0 < pp_gap x -> limited (acc_lb p) (acc_ub p)
       (cool_law (coolness p) (comf_brake p) (cah_law (max_acc p) (pp_gap x) v0 vl al)
          (idm_law (min_spacing p) (time_headway p) (max_acc p) (comf_brake p) (desired_vel p) (exponent p) (pp_gap x) v0 vl)) a) /\
    (pp_gap x <= 0 -> a = acc_lb p) /\
    pp_s y = pp_s x + pp_v x * dt + a * dt ^ 2 / 2 /\
    pp_v y = Rmax (Rmin (pp_v x + a * dt) (max_vel p)) (min_vel p) /\
    pp_gap y = pp_gap x + vl * dt - (v0 * dt + a * dt ^ 2 / 2).

Lemma cah_pos p g v vl al : 0 < g -> 0 <= v * vl -> cah_acc p g v vl al = Fin (cah_law (max_acc p) g v vl al).
Proof.
  intros G V. unfold cah_acc, cah_law. set (e := Rmin al (max_acc p)). clearbody e.
  destruct (Rltb_spec (vl * (v - vl)) (-2 * g * e)); destruct (Rlt_dec (vl * (v - vl)) (-2 * g * e)); try lra.
  - rewrite ediv_fin by nra. f_equal. replace (vl ^ 2) with (vl * vl) by ring. replace (v ^ 2) with (v * v) by ring. reflexivity.
  - rewrite ediv_fin by lra. cbn [esub eneg eadd]. f_equal.
    destruct (Rleb_spec 0 (v - vl)); destruct (Rle_dec vl v); try lra; unfold Rminus, Rdiv; rewrite ?Rmult_0_r; try ring.
Qed.
Lemma leader_acc p v rv gap dt : sane p -> 0 <= coolness p < 1 -> 0 <= v * leading_velocity rv -> has_leading rv = true ->
  exists a, total_acc p v rv gap dt = Some (Fin a, Fin (gap + leading_velocity rv * dt - (v * dt + a * dt ^ 2 / 2))) /\
    (0 < gap -> limited (acc_lb p) (acc_ub p) (cool_law (coolness p) (comf_brake p) (cah_law (max_acc p) gap v (leading_velocity rv) (leading_acc rv))
       (idm_law (min_spacing p) (time_headway p) (max_acc p) (comf_brake p) (desired_vel p) (exponent p) gap v (leading_velocity rv))) a) /\
    (gap <= 0 -> a = acc_lb p).
Proof.
  intros S [C1 C2] V HL. unfold total_acc. rewrite HL. set (vl := leading_velocity rv) in *. set (al := leading_acc rv).
  pose proof (sane_lim _ S) as L. pose proof (sane_brake _ S) as BR.
  assert (F : forall a, Some (Fin a, Fin gap +! (Fin (vl * dt) -! (Fin (1 / 2) *! Fin a *! Fin dt *! Fin dt +! Fin (v * dt)))) =
    Some (Fin a, Fin (gap + vl * dt - (v * dt + a * dt ^ 2 / 2)))).
  { intros a. cbn [emul eadd esub eneg]. do 3 f_equal. field. }
  destruct (Rltb_spec 0 (coolness p)) as [CP|CP].
  - unfold acc_acc. destruct (Reqb_spec (coolness p) 0) as [|NZ]; [lra|].
    set (net := if Reqb gap 0 then dbl_min else gap).
    destruct (Rlt_le_dec 0 gap) as [G|G].
    + assert (N : net = gap) by (unfold net; destruct (Reqb_spec gap 0); lra). rewrite N, cah_pos by auto. cbn [is_nan].
      rewrite raw_pos by auto. set (i := idm_law _ _ _ _ _ _ _ _ _). set (x := cah_law _ _ _ _ _). unfold egeb. rewrite eltb_fin.
      unfold cool_law. destruct (Rle_dec x i) as [LE|LE]; destruct (Rltb_spec i x); try lra; cbn [negb].
      * rewrite clamp_fin. cbn [bind]. rewrite F. eexists. split; [reflexivity|]. split; [intros _; apply limited_clamp; exact L|lra].
      * cbn [esub eneg eadd]. rewrite ediv_fin by lra. cbn [etanh emul eadd]. rewrite clamp_fin. cbn [bind]. rewrite F.
        eexists. split; [reflexivity|]. split; [intros _; apply limited_clamp; exact L|lra].
    + assert (N : net <> 0) by (unfold net; pose proof dbl_min_pos; destruct (Reqb_spec gap 0); lra).
      destruct (cah_fin p net v vl al N V) as [x E]. rewrite E. cbn [is_nan]. rewrite raw_neg by auto.
      cbn [egeb eltb negb]. cbn [esub eneg eadd ediv]. destruct (Rltb_spec (comf_brake p) 0); [lra|]. cbn [etanh emul eadd].
      rewrite einf_neg by lra. cbn [eadd]. rewrite clamp_minf. cbn [bind]. rewrite F. eexists. split; [reflexivity|]. split; [lra|auto].
  - assert (C0 : coolness p = 0) by lra. unfold idm_acc. destruct (Rlt_le_dec 0 gap) as [G|G].
    + rewrite raw_pos, clamp_fin by auto. cbn [bind]. rewrite F. eexists. split; [reflexivity|]. split; [|lra]. intros _.
      unfold cool_law. rewrite C0. destruct (Rle_dec _ _).
      * apply limited_clamp; exact L.
      * rewrite Rmult_0_l, Rplus_0_r, Rminus_0_r, Rmult_1_l. apply limited_clamp; exact L.
    + rewrite raw_neg, clamp_minf by auto. cbn [bind]. rewrite F. eexists. split; [reflexivity|]. split; [lra|auto].
Qed.

Lemma loop_leader p v0 rv ln dt start : sane p -> 0 <= coolness p < 1 -> 0 <= v0 * leading_velocity rv -> has_leading rv = true ->
  forall n i s vel rel steps, classic_loop p (idm_source p v0 rv) ln dt start i s vel rel n = Some steps ->
  exists gaps, length gaps = length steps /\
    consecutive (leader_step p v0 (leading_velocity rv) (leading_acc rv) dt)
      (mkPP rel s vel :: map (fun x => mkPP (fst x) (st_s (snd x)) (st_vel (snd x))) (combine gaps steps)).
Proof.
  intros S C V HL. induction n as [|n IH]; intros i s vel rel steps H; cbn [classic_loop] in H.
  - inversion H; subst. exists []. split; [reflexivity|]. intros [|k] x y A B; cbn in B; [discriminate|destruct k; discriminate].
  - bnd H ar AR. destruct ar as [[acc| | |] [rel'| | |]]; try discriminate.
    bnd H q Q. bnd H th TH. bnd H r0 L. inversion H; subst; clear H.
    destruct (IH _ _ _ _ _ L) as (gaps & LG & CO). exists (rel' :: gaps). split; [cbn; lia|].
    assert (STEP : leader_step p v0 (leading_velocity rv) (leading_acc rv) dt (mkPP rel s vel)
        (mkPP rel' (s + (1 / 2 * acc * dt * dt + vel * dt)) (Rmax (Rmin (vel + acc * dt) (max_vel p)) (min_vel p)))).
    { destruct (leader_acc p v0 rv rel dt S C V HL) as (a & E & A1 & A2). unfold idm_source in AR. rewrite E in AR. inversion AR; subst.
      exists acc. cbn [pp_gap pp_s pp_v]. split; [exact A1|]. split; [exact A2|]. split; [field|]. split; reflexivity. }
    intros [|k] x y A B.
    + cbn in A, B. inversion A; inversion B; subst. exact STEP.
    + cbn [combine map st_s st_vel fst snd] in *. apply (CO k); [exact A|exact B].
Qed.

Definition true_gap (d s0 vl dt : R) (k : nat) (s : R) : R := d + vl * (INR k * dt) - (s - s0).
Fixpoint sum_v (l : list ppoint) : R := match l with [] => 0 | x :: r => pp_v x + sum_v r end.

(** Planning behind a vehicle (no braking for the lane end; both driving the same way): the rows are on
    the center line at the positions and with the speeds of points linked by [leader_step],
    starting from the measured gap and the current speed. *)
Theorem C52_leader_rollout : forall p st ego v0 start T ln until d vl act st' tr,
  sane p -> brake_lane_end p = false -> 0 <= coolness p < 1 -> 0 <= v0 * vl -> at_ ego 4 = Some v0 ->
  idm_plan p (classic_trajectory p) st ego start T (Some (ln, until)) (Some (d, vl, act)) = Some (st', tr) ->
  exists pl s0 al, (0 < coolness p -> lon_acc_of act = Some al) /\ length pl = length tr /\ hd_error pl = Some (mkPP d s0 v0) /\
    consecutive (leader_step p v0 vl al (T / (INR (num_points p) - 1))) pl /\
    (forall k x row, nth_error pl k = Some x -> nth_error tr k = Some row -> at_ row 4 = Some (pp_v x) /\
       (0 < k -> exists q, get_point_at_s ln (pp_s x) = Some q /\ at_ row 1 = Some (fst q) /\ at_ row 2 = Some (snd q))%nat).
Proof.
  intros p st ego v0 start T ln until d vl act0 st' tr S BL C VV EV H.
  apply plan_inv in H. destruct H as (rv & v0' & act & RV & V0 & G & ->). rewrite EV in V0. inversion V0; subst v0'; clear V0.
  assert (RE : has_leading rv = true /\ leading_distance rv = d /\ leading_velocity rv = vl /\ (0 < coolness p -> lon_acc_of act0 = Some (leading_acc rv))).
  { unfold calc_relative_values in RV. rewrite BL in RV. destruct (Rltb_spec 0 (coolness p)).
    - bnd RV la LA. bnd RV ea EA. inversion RV; subst. cbn. auto.
    - cbn [bind] in RV. bnd RV ea EA. inversion RV; subst. cbn. repeat split; auto. lra. }
  destruct RE as (HL & <- & <- & LA).
  apply classic_inv in G. destruct G as (n & x & y & v & s0 & steps & NP & X & Y & V & S0 & LOOP & -> & ->).
  rewrite EV in V. inversion V; subst v; clear V. fold (idm_dt p T).
  destruct (loop_leader p v0 rv ln (idm_dt p T) start S C VV HL _ _ _ _ _ _ LOOP) as (gaps & LG & CO).
  exists (mkPP (leading_distance rv) s0 v0 :: map (fun x => mkPP (fst x) (st_s (snd x)) (st_vel (snd x))) (combine gaps steps)), s0, (leading_acc rv). split; [exact LA|]. split; [|split; [reflexivity|split; [exact CO|]]].
  { cbn [length]. rewrite !map_length, combine_length. lia. }
  intros [|k] z row A B.
  - cbn in A, B. inversion A; inversion B; subst. cbn [pp_v]. split; [|lia].
    unfold at_ in *. clear - EV. destruct ego as [|e0 [|e1 [|e2 [|e3 [|e4 w']]]]]; cbn in *; congruence.
  - change (nth_error (map st_row steps) k = Some row) in B.
    change (nth_error (map (fun x => mkPP (fst x) (st_s (snd x)) (st_vel (snd x))) (combine gaps steps)) k = Some z) in A.
    rewrite nth_error_map in A, B. destruct (nth_error steps k) as [sd|] eqn:E; [|discriminate].
    assert (EC : exists g, nth_error (combine gaps steps) k = Some (g, sd)).
    { clear - E LG. revert gaps k LG E. induction steps as [|a l IH]; intros [|g gaps] [|k] LG E; cbn in *; try discriminate.
      - inversion E. eauto.
      - eapply IH; [lia|exact E]. }
    destruct EC as [g EC]. rewrite EC in A. cbn in A, B. inversion A; inversion B; subst. cbn [pp_v pp_s].
    destruct (classic_loop_at _ _ _ _ _ _ _ _ _ _ _ _ _ LOOP E) as (s' & v' & _ & _ & q & th & Q & _ & R0).
    rewrite R0. cbn. split; [reflexivity|]. intros _. exists q. auto.
Qed.

(** The gap the planner assumes at the k-th point is the gap to a leader of constant speed
    plus the time step times the sum of the differences of the earlier planned speeds to
    the current speed. *)
Theorem C52_assumed_gap : forall p v0 vl al dt d s0 pl k x,
  hd_error pl = Some (mkPP d s0 v0) -> consecutive (leader_step p v0 vl al dt) pl -> nth_error pl k = Some x ->
  pp_gap x = true_gap d s0 vl dt k (pp_s x) + dt * (sum_v (firstn k pl) - INR k * v0).
Proof.
  intros p v0 vl al dt d s0 pl k. induction k as [|k IH]; intros x HD CO E.
  - destruct pl; [discriminate|]. cbn in *. inversion HD; inversion E; subst. unfold true_gap. cbn. ring.
  - destruct (nth_error pl k) as [y|] eqn:Y.
    2:{ apply nth_error_None in Y. assert (nth_error pl (S k) = None) by (apply nth_error_None; lia). congruence. }
    specialize (IH y HD CO eq_refl). destruct (CO k y x Y E) as (a & _ & _ & B1 & _ & B2).
    assert (F : sum_v (firstn (S k) pl) = sum_v (firstn k pl) + pp_v y).
    { clear - Y. revert k Y. induction pl as [|z pl IH]; intros [|k] Y; cbn in *; try discriminate; [inversion Y; subst; ring|].
      rewrite (IH k Y). ring. }
    rewrite F, S_INR. unfold true_gap in *. rewrite S_INR. rewrite B2, B1. rewrite IH. field.
Qed.

(** So a plan that speeds up assumes at least the true gap, one that slows down at most. *)
Theorem C52_gap_optimism : forall p v0 vl al dt d s0 pl k x, 0 <= dt ->
  hd_error pl = Some (mkPP d s0 v0) -> consecutive (leader_step p v0 vl al dt) pl -> nth_error pl k = Some x ->
  ((forall y, In y pl -> v0 <= pp_v y) -> true_gap d s0 vl dt k (pp_s x) <= pp_gap x) /\
  ((forall y, In y pl -> pp_v y <= v0) -> pp_gap x <= true_gap d s0 vl dt k (pp_s x)).
Proof.
  intros p v0 vl al dt d s0 pl k x DT HD CO E. rewrite (C52_assumed_gap p v0 vl al dt d s0 pl k x HD CO E).
  assert (LE : (k <= length pl)%nat) by (assert (k < length pl)%nat by (apply nth_error_Some; congruence); lia).
  assert (A : (forall y, In y pl -> v0 <= pp_v y) -> INR k * v0 <= sum_v (firstn k pl)).
  { clear - LE. revert k LE. induction pl as [|z pl IH]; intros [|k] LE F; cbn [firstn sum_v]; try (cbn in LE; lia); try (cbn; lra).
    rewrite S_INR. pose proof (F z (or_introl eq_refl)). cbn in LE. assert (INR k * v0 <= sum_v (firstn k pl)) by (apply IH; [lia|intros; apply F; now right]). lra. }
  assert (B : (forall y, In y pl -> pp_v y <= v0) -> sum_v (firstn k pl) <= INR k * v0).
  { clear - LE. revert k LE. induction pl as [|z pl IH]; intros [|k] LE F; cbn [firstn sum_v]; try (cbn in LE; lia); try (cbn; lra).
    rewrite S_INR. pose proof (F z (or_introl eq_refl)). cbn in LE. assert (sum_v (firstn k pl) <= INR k * v0) by (apply IH; [lia|intros; apply F; now right]). lra. }
  split; intros F; [specialize (A F)|specialize (B F)]; nra.
Qed.
Print Assumptions C52_leader_rollout. Print Assumptions C52_assumed_gap. Print Assumptions C52_gap_optimism.

(** A plan speeding up from standstill behind a slow leader: it takes the gap for 4 while
    it is 3.25. *)
Theorem C52_gap_optimism_refuted : exists p st ego st' tr pl,
  sane p /\ brake_lane_end p = false /\ coolness p = 0 /\ at_ ego 4 = Some 0 /\
  idm_plan p (classic_trajectory p) st ego 0 2 (Some (road, 50)) (Some (4, 3 / 8, Continuous1D 0)) = Some (st', tr) /\
  hd_error pl = Some (mkPP 4 50 0) /\ consecutive (leader_step p 0 (3 / 8) 0 (2 / (INR (num_points p) - 1))) pl /\
  map (fun r => at_ r 4) tr = map (fun x => Some (pp_v x)) pl /\ map (fun r => at_ r 1) tr = map (fun x => Some (pp_s x)) pl /\
  exists x, nth_error pl 2 = Some x /\ pp_gap x = 4 /\ true_gap 4 50 (3 / 8) 1 2 (pp_s x) = 3 + 1 / 4.
Proof.
  set (p := mkIDM 2 1 1 10 1 0 50 1 8 (-5) false 60 15 3 0).
  assert (S : sane p) by (constructor; cbn; lra).
  set (rv := mkRV 4 (3 / 8) 0 true).
  exists p, (mkIS VALID [] (Continuous1D 0)), [0; 50; 0; 0; 0].
  unfold idm_plan, calc_relative_values. cbn [coolness p bind]. destruct (Rltb_spec 0 0); [lra|]. cbn [bind lon_acc_of i_action brake_lane_end p at_ nth_error].
  unfold classic_trajectory. rewrite road_pts. cbn [num_points p at_ nth_error bind]. rewrite road_nearest by lra. cbn [bind].
  fold rv. cbn [leading_distance rv].
  assert (DT : idm_dt p 2 = 1) by (unfold idm_dt; cbn; field). rewrite DT.
  assert (DL : idm_law 2 1 1 1 10 1 4 0 (3 / 8) = 3 / 4).
  { unfold idm_law, desired_gap. replace (1 * 1) with 1 by ring. rewrite sqrt_1. field. }
  assert (E : idm_source p 0 rv 4 1 = Some (Fin (3 / 4), Fin 4)).
  { destruct (C15_follows_the_law p 0 rv 4 1 S eq_refl eq_refl) as (a & r & E & A & _). specialize (A ltac:(lra)).
    cbn [acc_lb acc_ub min_spacing time_headway max_acc comf_brake desired_vel exponent leading_velocity p rv] in A. rewrite DL in A.
    destruct A as (_ & _ & A). specialize (A ltac:(lra)). subst a. unfold idm_source. rewrite E.
    unfold total_acc in E. cbn [has_leading rv coolness p] in E. destruct (Rltb_spec 0 0); [lra|]. cbn [bind] in E.
    assert (E2 : idm_acc p 4 0 (leading_velocity rv) = Fin (3 / 4)) by congruence.
    rewrite E2 in E. cbn in E. inversion E. do 3 f_equal. field. }
  rewrite (road_step p _ 1 0 1 50 0 4 1 (3 / 4) 4 E) by lra. cbv zeta. cbn [max_vel min_vel p].
  replace (Rmax (Rmin (0 + 3 / 4 * 1) 50) 0) with (3 / 4) by (unfold Rmax, Rmin; repeat destruct (Rle_dec _ _); lra).
  rewrite (road_step p _ 1 0 2 _ (3 / 4) 4 0 (3 / 4) 4 E) by lra. cbv zeta. cbn [max_vel min_vel p].
  replace (Rmax (Rmin (3 / 4 + 3 / 4 * 1) 50) 0) with (3 / 2) by (unfold Rmax, Rmin; repeat destruct (Rle_dec _ _); lra).
  cbn [classic_loop bind map st_row firstn].
  do 2 eexists. exists [mkPP 4 50 0; mkPP 4 (50 + (1 / 2 * (3 / 4) * 1 * 1 + 0 * 1)) (3 / 4);
                        mkPP 4 (50 + (1 / 2 * (3 / 4) * 1 * 1 + 0 * 1) + (1 / 2 * (3 / 4) * 1 * 1 + 3 / 4 * 1)) (3 / 2)].
  split; [auto|]. split; [reflexivity|]. split; [reflexivity|]. split; [reflexivity|]. split; [reflexivity|]. split; [reflexivity|]. split.
  - assert (ST : forall s v s' v', s' = s + v * 1 + 3 / 4 * 1 ^ 2 / 2 -> v' = Rmax (Rmin (v + 3 / 4 * 1) 50) 0 ->
      leader_step p 0 (3 / 8) 0 (2 / (INR (num_points p) - 1)) (mkPP 4 s v) (mkPP 4 s' v')).
    { intros s v s' v' H1 H2. cbn [num_points p]. replace (2 / (INR 3 - 1)) with 1 by (cbn; field). exists (3 / 4). cbn [pp_gap pp_s pp_v].
      cbn [acc_lb acc_ub min_spacing time_headway max_acc comf_brake desired_vel exponent max_vel min_vel coolness p]. rewrite DL.
      assert (CL : forall x, cool_law 0 1 x (3 / 4) = 3 / 4) by (intros x; unfold cool_law; destruct (Rle_dec _ _); lra). rewrite CL.
      split; [intros _; unfold limited; lra|]. split; [lra|]. split; [exact H1|]. split; [exact H2|]. field. }
    intros [|[|k]] x y A B; cbn in A, B.
    + inversion A; inversion B; subst. apply ST; [field|]. unfold Rmax, Rmin; repeat destruct (Rle_dec _ _); lra.
    + inversion A; inversion B; subst. apply ST; [field|]. unfold Rmax, Rmin; repeat destruct (Rle_dec _ _); lra.
    + destruct k as [|[|k]]; discriminate.
  - split; [reflexivity|]. split; [reflexivity|]. eexists. split; [reflexivity|]. split; [reflexivity|]. unfold true_gap. cbn. field.
Qed.
Print Assumptions C52_gap_optimism_refuted.
