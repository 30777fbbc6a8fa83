(** Lemmas about Model_IDM. *)
From Coq Require Import Reals List Bool Arith Lra Lia Psatz.
From Verif Require Import Base_Real Base_Ext Base_Geom Model_Line Model_Frenet Model_Dynamic Model_IDM Spec_IDM.
Import ListNotations.
Local Open Scope R_scope.

(** Sensible parameters. *)
Record sane (p : idm_params) : Prop := mkSane {
  sane_acc : 0 < max_acc p; sane_brake : 0 < comf_brake p; sane_vel : 0 < desired_vel p; sane_lim : acc_lb p <= acc_ub p }.

Lemma limited_clamp lo hi x : lo <= hi -> limited lo hi x (Rmax (Rmin x hi) lo).
Proof.
  intros H. unfold limited, Rmax, Rmin. destruct (Rle_dec x hi).
  - destruct (Rle_dec x lo); repeat split; intros; lra.
  - destruct (Rle_dec hi lo); repeat split; intros; lra.
Qed.
Lemma limited_range lo hi x y : lo <= hi -> limited lo hi x y -> lo <= y <= hi.
Proof.
  intros H (A & B & C). destruct (Rlt_le_dec x lo); [rewrite (A r); lra|].
  destruct (Rlt_le_dec hi x); [rewrite (B r0); lra|]. rewrite C; lra.
Qed.
Lemma limited_mono lo hi x y x' y' : lo <= hi -> limited lo hi x y -> limited lo hi x' y' -> x <= x' -> y <= y'.
Proof.
  intros H (A & B & C) (A' & B' & C') L.
  destruct (Rlt_le_dec x lo); [rewrite (A r)|]; (destruct (Rlt_le_dec x' lo); [rewrite (A' r0)|]).
  - lra.
  - destruct (Rlt_le_dec hi x'); [rewrite (B' r1); lra|rewrite C'; lra].
  - lra.
  - destruct (Rlt_le_dec hi x); [rewrite (B r1)|rewrite C by lra]; (destruct (Rlt_le_dec hi x'); [rewrite (B' r2)|rewrite C' by lra]); lra.
Qed.
Lemma limited_unique lo hi x y y' : limited lo hi x y -> limited lo hi x y' -> y = y'.
Proof.
  intros (A & B & C) (A' & B' & C').
  destruct (Rlt_le_dec x lo); [rewrite A, A'; auto|]. destruct (Rlt_le_dec hi x); [rewrite B, B'; auto|].
  rewrite C, C'; auto.
Qed.

Lemma clamp_fin p x : clamp_acc p (Fin x) = Fin (Rmax (Rmin x (acc_ub p)) (acc_lb p)).
Proof. unfold clamp_acc. now rewrite emin_fin, emax_fin. Qed.
Lemma clamp_minf p : clamp_acc p MInf = Fin (acc_lb p).
Proof. reflexivity. Qed.
Lemma clamp_pinf p : acc_lb p <= acc_ub p -> clamp_acc p PInf = Fin (acc_ub p).
Proof. intros H. unfold clamp_acc. change (emin PInf (Fin (acc_ub p))) with (Fin (acc_ub p)). rewrite emax_fin. f_equal. now apply Rmax_left. Qed.
Lemma clamp_nan p : clamp_acc p NaN = NaN.
Proof. reflexivity. Qed.
Lemma einf_pos x : 0 < x -> einf x = PInf.
Proof. intros H. unfold einf. destruct (Rltb_spec 0 x); [reflexivity|lra]. Qed.
Lemma einf_neg x : x < 0 -> einf x = MInf.
Proof. intros H. unfold einf. destruct (Rltb_spec 0 x); [lra|]. destruct (Rltb_spec x 0); [reflexivity|lra]. Qed.
Lemma einf_0 : einf 0 = NaN.
Proof. unfold einf. destruct (Rltb_spec 0 0); [lra|reflexivity]. Qed.

Lemma free_fin p v : sane p -> free_road_term p v = Fin (1 - (v / desired_vel p) ^ exponent p).
Proof. intros [A B C D]. unfold free_road_term. rewrite ediv_fin by lra. rewrite epow_fin. reflexivity. Qed.
Lemma helper_fin p v vo : sane p ->
  helper_state p v vo = Fin (desired_gap (min_spacing p) (time_headway p) (max_acc p) (comf_brake p) v vo).
Proof.
  intros [A B C D]. unfold helper_state, desired_gap.
  assert (H : 0 < max_acc p * comf_brake p) by (apply Rmult_lt_0_compat; auto).
  cbn [esqrt]. destruct (Rltb_spec (max_acc p * comf_brake p) 0); [lra|].
  cbn [emul]. pose proof (sqrt_lt_R0 _ H) as S. rewrite ediv_fin by lra. reflexivity.
Qed.
Lemma inter_pos p gap v vo : sane p -> 0 < gap ->
  interaction_term p gap v vo = Fin ((desired_gap (min_spacing p) (time_headway p) (max_acc p) (comf_brake p) v vo / gap) ^ 2).
Proof.
  intros S G. unfold interaction_term. rewrite (helper_fin _ _ _ S), (Rmax_left gap 0) by lra.
  rewrite ediv_fin by lra. cbn. f_equal. ring.
Qed.
Lemma inter_neg p gap v vo : sane p -> gap <= 0 -> interaction_term p gap v vo = PInf.
Proof.
  intros S G. unfold interaction_term. rewrite (helper_fin _ _ _ S), (Rmax_right gap 0) by lra.
  cbn [ediv]. destruct (Reqb_spec 0 0); [|lra]. unfold einf.
  destruct (Rltb_spec 0 (desired_gap (min_spacing p) (time_headway p) (max_acc p) (comf_brake p) v vo)); [reflexivity|].
  destruct (Rltb_spec (desired_gap (min_spacing p) (time_headway p) (max_acc p) (comf_brake p) v vo) 0); reflexivity.
Qed.
Lemma raw_pos p gap v vo : sane p -> 0 < gap ->
  raw_idm_acc p gap v vo =
  Fin (idm_law (min_spacing p) (time_headway p) (max_acc p) (comf_brake p) (desired_vel p) (exponent p) gap v vo).
Proof. intros S G. unfold raw_idm_acc. rewrite free_fin, inter_pos by auto. cbn. unfold idm_law. f_equal. Qed.
Lemma raw_neg p gap v vo : sane p -> gap <= 0 -> raw_idm_acc p gap v vo = MInf.
Proof.
  intros S G. unfold raw_idm_acc. rewrite free_fin, inter_neg by auto. cbn.
  destruct S. apply einf_neg. lra.
Qed.

(** The constant acceleration heuristic is a finite number when both vehicles drive forwards. *)
Lemma cah_fin p gap v vo ao : gap <> 0 -> 0 <= v * vo -> exists x, cah_acc p gap v vo ao = Fin x.
Proof.
  intros G V. unfold cah_acc. set (e := Rmin ao (max_acc p)). clearbody e.
  destruct (Rltb_spec (vo * (v - vo)) (-2 * gap * e)).
  - rewrite ediv_fin by nra. eauto.
  - rewrite ediv_fin by lra. cbn. eauto.
Qed.
Lemma dbl_min_pos : 0 < dbl_min.
Proof. unfold dbl_min. apply Rinv_0_lt_compat. apply pow_lt. lra. Qed.

Lemma acc_acc_limits p gap v vo ao : sane p -> 0 <= coolness p < 1 -> 0 <= v * vo ->
  exists a, acc_acc p gap v vo ao = Some (Fin a) /\ acc_lb p <= a <= acc_ub p.
Proof.
  intros S [C1 C2] V. unfold acc_acc. pose proof (sane_lim _ S) as L.
  assert (K : forall x, acc_lb p <= Rmax (Rmin x (acc_ub p)) (acc_lb p) <= acc_ub p)
    by (intros x; exact (limited_range _ _ _ _ L (limited_clamp _ _ x L))).
  destruct (Reqb_spec (coolness p) 0).
  { destruct (Rlt_le_dec 0 gap).
    - rewrite raw_pos, clamp_fin by auto. eexists; split; [reflexivity|apply K].
    - rewrite raw_neg, clamp_minf by auto. eexists; split; [reflexivity|lra]. }
  set (net := if Reqb gap 0 then dbl_min else gap).
  assert (N : net <> 0) by (unfold net; pose proof dbl_min_pos; destruct (Reqb_spec gap 0); lra).
  destruct (cah_fin p net v vo ao N V) as [x E]. rewrite E. cbn [is_nan].
  pose proof (sane_brake _ S) as B.
  destruct (Rlt_le_dec 0 gap).
  - rewrite raw_pos by auto. set (i := idm_law _ _ _ _ _ _ _ _ _). unfold egeb. rewrite eltb_fin.
    destruct (negb (Rltb i x)).
    + rewrite clamp_fin. eexists; split; [reflexivity|apply K].
    + cbn [esub eneg eadd]. rewrite ediv_fin by lra. cbn [etanh emul eadd]. rewrite clamp_fin.
      eexists; split; [reflexivity|apply K].
  - rewrite raw_neg by auto. cbn [egeb eltb negb]. cbn [esub eneg eadd ediv].
    destruct (Rltb_spec (comf_brake p) 0); [lra|]. cbn [etanh emul eadd].
    rewrite einf_neg by lra. cbn [eadd]. rewrite clamp_minf. eexists; split; [reflexivity|lra].
Qed.

(** tanh x <= x for x >= 0. *)
Lemma cosh_pos x : 0 < cosh x.
Proof. unfold cosh. pose proof (exp_pos x). pose proof (exp_pos (- x)). lra. Qed.
Lemma sinh_nonneg x : 0 <= x -> 0 <= sinh x.
Proof.
  intros H. unfold sinh. assert (exp (- x) <= exp x); [|lra].
  destruct (Req_dec x 0) as [->|]; [rewrite Ropp_0; lra|]. left. apply exp_increasing. lra.
Qed.
Lemma tanh_le x : 0 <= x -> tanh x <= x.
Proof.
  intros H. unfold tanh. apply (Rmult_le_reg_r (cosh x)); [apply cosh_pos|].
  unfold Rdiv. rewrite Rmult_assoc, Rinv_l, Rmult_1_r by (pose proof (cosh_pos x); lra).
  set (f := fun y => y * cosh y - sinh y).
  assert (D : forall y, derivable_pt_lim f y (y * sinh y)).
  { intros y. unfold f.
    enough (DD : derivable_pt_lim (fun y => y * cosh y - sinh y) y ((1 * cosh y + y * sinh y) - cosh y))
      by (replace (y * sinh y) with ((1 * cosh y + y * sinh y) - cosh y) by ring; exact DD).
    apply (derivable_pt_lim_minus (fun y => y * cosh y) sinh).
    - apply (derivable_pt_lim_mult (fun y => y) cosh); [apply derivable_pt_lim_id|apply derivable_pt_lim_cosh].
    - apply derivable_pt_lim_sinh. }
  destruct (Req_dec x 0) as [->|N].
  { unfold sinh, cosh. rewrite Ropp_0, exp_0. lra. }
  assert (P : 0 < x) by lra.
  assert (pr : forall y, 0 < y < x -> derivable_pt f y) by (intros y _; exists (y * sinh y); apply D).
  assert (pr' : forall y, derivable_pt f y) by (intros y; exists (y * sinh y); apply D).
  destruct (MVT_cor2 f (fun y => y * sinh y) 0 x P (fun y _ => D y)) as (c & E & C1 & C2).
  assert (F0 : f 0 = 0). { unfold f. rewrite Rmult_0_l. unfold sinh. rewrite Ropp_0, exp_0. lra. }
  rewrite F0 in E. pose proof (sinh_nonneg c ltac:(lra)) as SN.
  assert (0 <= c * sinh c * (x - 0)) by (apply Rmult_le_pos; [apply Rmult_le_pos|]; lra).
  unfold f in E. lra.
Qed.
Lemma tanh_bound x : -1 < tanh x < 1.
Proof.
  unfold tanh. pose proof (cosh_pos x) as C. pose proof (exp_pos x). pose proof (exp_pos (- x)).
  split; apply (Rmult_lt_reg_r (cosh x)); auto; unfold Rdiv; rewrite Rmult_assoc, Rinv_l, Rmult_1_r by lra;
    unfold sinh, cosh; lra.
Qed.
Lemma tanh_opp x : tanh (- x) = - tanh x.
Proof. unfold tanh, sinh, cosh. rewrite Ropp_involutive. replace (exp (- x) + exp x) with (exp x + exp (- x)) by ring.
  pose proof (exp_pos x). pose proof (exp_pos (- x)). field. lra. Qed.

(** The loop of idm_classic. *)
Lemma classic_loop_length p src ln dt start : forall n i s vel rel l,
  classic_loop p src ln dt start i s vel rel n = Some l -> length l = n.
Proof.
  induction n as [|n IH]; intros i s vel rel l H; cbn in H; [now inversion H|].
  destruct (src rel dt) as [[[a| | |] [r| | |]]|]; cbn in H; try discriminate.
  destruct (get_point_at_s _ _) as [q|]; cbn in H; [|discriminate].
  destruct (get_tangent_angle_at_s _ _) as [th|]; cbn in H; [|discriminate].
  destruct (classic_loop p src ln dt start (S i) _ _ _ n) as [l'|] eqn:E; cbn in H; [|discriminate].
  inversion H; subst. cbn. f_equal. eapply IH; eauto.
Qed.
(** What one step does, given the distance and velocity before it. *)
Definition step_ok (p : idm_params) (ln : line) (dt start : R) (i : nat) (s vel : R) (d : step_data) : Prop :=
  st_s d = s + (1 / 2 * st_acc d * dt * dt + vel * dt) /\
  st_vel d = Rmax (Rmin (vel + st_acc d * dt) (max_vel p)) (min_vel p) /\
  exists q th, get_point_at_s ln (st_s d) = Some q /\ get_tangent_angle_at_s ln (st_s d) = Some th /\
    st_row d = [INR i * dt + start; fst q; snd q; th; st_vel d].
Lemma classic_loop_steps p src ln dt start : forall n i s vel rel l,
  classic_loop p src ln dt start i s vel rel n = Some l ->
  (forall d, nth_error l 0 = Some d -> step_ok p ln dt start i s vel d) /\
  (forall k d d', nth_error l k = Some d -> nth_error l (S k) = Some d' ->
     step_ok p ln dt start (i + S k) (st_s d) (st_vel d) d').
Proof.
  induction n as [|n IH]; intros i s vel rel l H; cbn in H.
  { inversion H; subst. split; [intros d X|intros k d d' X]; destruct k || idtac; discriminate. }
  destruct (src rel dt) as [[[a| | |] [r| | |]]|]; cbn in H; try discriminate.
  destruct (get_point_at_s _ _) as [q|] eqn:Q; cbn in H; [|discriminate].
  destruct (get_tangent_angle_at_s _ _) as [th|] eqn:T; cbn in H; [|discriminate].
  destruct (classic_loop p src ln dt start (S i) _ _ _ n) as [l'|] eqn:E; cbn in H; [|discriminate].
  inversion H; subst; clear H. apply IH in E. destruct E as [E0 E1]. split.
  - intros d X. cbn in X. inversion X; subst. unfold step_ok; cbn. repeat split. exists q, th. auto.
  - intros [|k] d d' X Y.
    + cbn in X. inversion X; subst. cbn in Y. cbn [st_s st_vel].
      replace (i + 1)%nat with (S i) by lia. apply E0. exact Y.
    + cbn in X, Y. replace (i + S (S k))%nat with (S i + S k)%nat by lia. eapply E1; eauto.
Qed.
Lemma classic_loop_at p src ln dt start : forall n i s vel rel l k d,
  classic_loop p src ln dt start i s vel rel n = Some l -> nth_error l k = Some d ->
  exists s' v', step_ok p ln dt start (i + k) s' v' d.
Proof.
  intros n i s vel rel l k d H X. apply classic_loop_steps in H. destruct H as [H0 H1].
  destruct k as [|k].
  - replace (i + 0)%nat with i by lia. eauto.
  - destruct (nth_error l k) as [d0|] eqn:E.
    + eauto.
    + apply nth_error_None in E. assert (nth_error l (S k) = None) by (apply nth_error_None; lia). congruence.
Qed.
(** Every acceleration in the loop comes from the source. *)
Lemma classic_loop_acc p src ln dt start (P : R -> Prop) : (forall rel a r, src rel dt = Some (Fin a, r) -> P a) ->
  forall n i s vel rel l, classic_loop p src ln dt start i s vel rel n = Some l -> forall d, In d l -> P (st_acc d).
Proof.
  intros HP. induction n as [|n IH]; intros i s vel rel l H d I; cbn in H; [inversion H; subst; contradiction|].
  destruct (src rel dt) as [[[a| | |] [r| | |]]|] eqn:SR; cbn in H; try discriminate.
  destruct (get_point_at_s _ _) as [q|] eqn:Q; cbn in H; [|discriminate].
  destruct (get_tangent_angle_at_s _ _) as [th|] eqn:T; cbn in H; [|discriminate].
  destruct (classic_loop p src ln dt start (S i) _ _ _ n) as [l'|] eqn:E; cbn in H; [|discriminate].
  inversion H; subst; clear H. destruct I as [<-|I]; [cbn; eapply HP; eauto|eauto].
Qed.

(** The loop of idm_lane_tracking. *)
Lemma tracking_loop_at p m gain limit src ln dt start : forall n i prev rel l,
  tracking_loop p m gain limit src ln dt start i prev rel n = Some l ->
  length l = n /\
  forall k u row, nth_error l k = Some (u, row) ->
    at_ row 0 = Some (INR (i + k) * dt + start) /\ (exists v, at_ row 4 = Some v /\ min_vel p <= v) /\
    (exists rel' a r ang, src rel' dt = Some (Fin a, r) /\ u = [a; ang]).
Proof.
  induction n as [|n IH]; intros i prev rel l H; cbn [bind tracking_loop] in H.
  { inversion H; subst. split; auto. intros [|k] u row X; discriminate X. }
  destruct (src rel dt) as [[[a| | |] [r| | |]]|] eqn:SR; cbn [bind tracking_loop] in H; try discriminate.
  destruct (dstate_of prev) as [st|]; cbn [bind tracking_loop] in H; [|discriminate].
  destruct (calculate_steering_angle _ _ _ _ _) as [ang|]; cbn [bind tracking_loop] in H; [|discriminate].
  destruct (euler_int _ _ _ _) as [nxt|]; cbn [bind tracking_loop] in H; [|discriminate].
  destruct (at_ nxt 4) as [v|] eqn:V; cbn [bind tracking_loop] in H; [|discriminate].
  destruct (tracking_loop _ _ _ _ _ _ _ _ _ _ _ n) as [l'|] eqn:E; cbn [bind tracking_loop] in H; [|discriminate].
  inversion H; subst; clear H. apply IH in E. destruct E as [L E]. split; [cbn; f_equal; auto|].
  intros [|k] u row X.
  - cbn in X. inversion X; subst; clear X. replace (i + 0)%nat with i by lia.
    unfold at_ in V.
    destruct nxt as [|x0 [|x1 [|x2 [|x3 [|x4 w]]]]]; try discriminate V.
    split; [reflexivity|]. split; [eexists; split; [reflexivity|apply Rmax_r]|].
    exists rel, a, (Fin r), ang. auto.
  - cbn in X. replace (i + S k)%nat with (S i + k)%nat by lia. eauto.
Qed.
