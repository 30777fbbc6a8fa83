(** C122. The Fresnel integrals and the standard spiral of OpenDRIVE. *)
From Coq Require Import Reals List Bool QArith Qreals Qabs Lra Lia Psatz.
From Verif Require Import Base_Real Base_Geom Model_PlanView Spec_PlanView Props_PlanView Proof_Frenet Example_Fresnel.
From Verif Require Import Model_Fresnel Proof_Fresnel Proof_Fresnel2 Proof_Fresnel3 Proof_Fresnel4 Proof_Fresnel5 Proof_Fresnel6 Proof_Fresnel7.
Import ListNotations.
Local Open Scope R_scope.

(** The Fresnel integrals themselves: the antiderivatives of cos (pi/2 t^2) and sin (pi/2 t^2) that are 0 at 0. *)
Definition fresnel_from_0 (FC FS : R -> R) : Prop := fresnel_integrals FC FS /\ FC 0 = 0 /\ FS 0 = 0.
Example fresnel_from_0_exists : exists FC FS, fresnel_from_0 FC FS.
Proof.
  destruct fresnel_integrals_exist as (FC & FS & H). exists (fun x => FC x - FC 0), (fun x => FS x - FS 0). split; [|split; lra].
  intros x. destruct (H x) as [A B]. split.
  - rewrite <- (Rminus_0_r (cos _)). apply (derivable_pt_lim_minus FC (fun _ => FC 0)); [exact A|apply derivable_pt_lim_const].
  - rewrite <- (Rminus_0_r (sin _)). apply (derivable_pt_lim_minus FS (fun _ => FS 0)); [exact B|apply derivable_pt_lim_const].
Qed.

(** ** The code computes the three formulas *)
Definition pos_part (x : R) : R * R :=
  if Rltb (x * x) (41 / 16) then (small_s x, small_c x) else if Rltb 36974 x then (/ 2, / 2) else (large_s x, large_c x).
Lemma fresnel_eq y : fresnel y = (if Rltb y 0 then (- fst (pos_part (Rabs y)), - snd (pos_part (Rabs y))) else pos_part (Rabs y)).
Proof.
  unfold fresnel. cbv zeta. set (x := Rabs y). unfold pos_part.
  rewrite !(polevl_pe _ _ 5), !(polevl_pe _ _ 9), !(polevl_pe _ _ 10), (polevl_pe _ _ 6) by reflexivity.
  rewrite (p1evl_pe _ _ 6), (p1evl_pe _ _ 10), (p1evl_pe _ _ 11) by (reflexivity || lia).
  change (rev tab_cd) with cD. change (rev tab_cn) with cN.
  reflexivity.
Qed.
Lemma large_close FC FS x : fresnel_from_0 FC FS -> 0 < x -> 41 / 16 <= x * x ->
  Rabs (large_c x - FC x) <= 8e-9 /\ Rabs (large_s x - FS x) <= 8e-9.
Proof.
  intros (F & C & S) X L. set (x0 := sqrt (41 / 16)). assert (X0 : 0 < x0) by (apply sqrt_lt_R0; lra). assert (E : x0 * x0 = 41 / 16) by (apply sqrt_sqrt; lra).
  assert (LE : x0 <= x) by (apply Rnot_lt_le; intros H; assert (x * x < x0 * x0) by (apply Rmult_le_0_lt_compat; lra); lra).
  destruct (large_drift FC FS x0 x F (conj X0 LE) ltac:(lra)) as [D1 D2]. destruct (meet x0 X0 E) as [M1 M2]. destruct (small_accuracy FC FS x0 F C S ltac:(lra) ltac:(lra)) as [A1 A2].
  assert (B : 2.2e-8 / (PI * x0) <= 4.5e-9).
  { pose proof pi_bounds. assert (1.6 <= x0) by (apply Rnot_lt_le; intros H1; assert (x0 * x0 < 1.6 * 1.6) by (apply Rmult_le_0_lt_compat; lra); lra).
    assert (5 <= PI * x0) by nra. apply Rle_trans with (2.2e-8 / 5); [|lra]. apply Rmult_le_compat_l; [lra|]. apply Rinv_le_contravar; lra. }
  apply Rabs_inv in D1, D2, M1, M2, A1, A2. split; apply Rabs_le; lra.
Qed.
Lemma pos_part_close FC FS x : fresnel_from_0 FC FS -> 0 <= x <= 36974 ->
  Rabs (snd (pos_part x) - FC x) <= 8e-9 /\ Rabs (fst (pos_part x) - FS x) <= 8e-9.
Proof.
  intros F X. unfold pos_part. destruct (Rltb_spec (x * x) (41 / 16)) as [A|A]; cbn [fst snd].
  - destruct F as (F & C & S). destruct (small_accuracy FC FS x F C S (proj1 X) ltac:(lra)). split; lra.
  - destruct (Rltb_spec 36974 x) as [B|B]; [lra|]. cbn [fst snd]. apply large_close; auto. destruct X as [[X|<-] _]; [assumption|lra].
Qed.
Lemma far_fg x : 36974 <= x -> Rabs (lf x - 1) <= 1e-9 /\ Rabs (lg x) <= 1e-9.
Proof.
  intros L. assert (X : 0 < x) by lra. destruct (U_small x X ltac:(nra)) as [T HU]. pose proof pi_bounds as PB.
  assert (TT : T1 x <= 2.4e-10).
  { assert (4.2e9 <= PI * (x * x)) by nra. unfold T1, Rdiv. rewrite Rmult_1_l. apply Rle_trans with (/ 4.2e9); [apply Rinv_le_contravar; lra|lra]. }
  assert (HU' : 0 <= U x <= Q2R U0) by lra.
  pose proof (ratio_bound _ _ _ _ (fD_pos _ (proj1 HU')) (fN_le _ HU')) as A.
  pose proof (ratio_bound _ _ _ _ (gD_pos _ (proj1 HU')) (gN_le _ HU')) as B. split.
  - unfold lf. replace (1 - U x * pe fN (U x) / pe fD (U x) - 1) with (- (U x * (pe fN (U x) / pe fD (U x)))) by (unfold Rdiv; ring).
    rewrite Rabs_Ropp, Rabs_mult, (Rabs_pos_eq (U x)) by lra. rewrite (UT x X) at 1. set (r := Rabs _) in *. assert (0 <= r) by apply Rabs_pos.
    assert (T1 x * T1 x <= 1 * 2.4e-10) by (apply Rmult_le_compat; lra). assert (T1 x * T1 x * r <= 2.4e-10 * 4) by (apply Rmult_le_compat; try lra; nra). lra.
  - unfold lg. replace (T1 x * pe gN (U x) / pe gD (U x)) with (T1 x * (pe gN (U x) / pe gD (U x))) by (unfold Rdiv; ring).
    rewrite Rabs_mult, (Rabs_pos_eq (T1 x)) by lra. set (r := Rabs (pe gN _ / _)) in *. assert (0 <= r) by apply Rabs_pos. assert (T1 x * r <= 2.4e-10 * 2) by (apply Rmult_le_compat; lra). lra.
Qed.
Lemma far_half x : 36974 <= x -> Rabs (large_c x - / 2) <= 9e-6 /\ Rabs (large_s x - / 2) <= 9e-6.
Proof.
  intros L. destruct (far_fg x L) as [F G]. pose proof pi_bounds as PB. assert (PX : 116150 <= PI * x) by nra.
  assert (K : forall a b, Rabs a <= 1 -> Rabs b <= 1 -> Rabs ((lf x * a + lg x * b) / (PI * x)) <= 9e-6).
  { intros a b A B. unfold Rdiv. rewrite Rabs_mult, (Rabs_pos_eq (/ _)) by (left; apply Rinv_0_lt_compat; lra).
    assert (N : Rabs (lf x * a + lg x * b) <= 1.00001).
    { eapply Rle_trans; [apply Rabs_triang|]. rewrite !Rabs_mult. apply Rabs_inv in F, G. assert (Rabs (lf x) <= 1.000001) by (apply Rabs_le; lra). assert (Rabs (lg x) <= 1e-9) by (apply Rabs_le; lra).
      pose proof (Rabs_pos a). pose proof (Rabs_pos b). pose proof (Rabs_pos (lf x)). pose proof (Rabs_pos (lg x)).
      assert (Rabs (lf x) * Rabs a <= 1.000001 * 1) by (apply Rmult_le_compat; lra). assert (Rabs (lg x) * Rabs b <= 1e-9 * 1) by (apply Rmult_le_compat; lra). lra. }
    apply Rle_trans with (1.00001 * / 116150); [|lra]. apply Rmult_le_compat; [apply Rabs_pos|left; apply Rinv_0_lt_compat; lra|exact N|]. apply Rinv_le_contravar; lra. }
  destruct (trig_abs (th x)) as [C S]. split.
  - unfold large_c. replace (/ 2 + (lf x * sin (th x) - lg x * cos (th x)) / (PI * x) - / 2) with ((lf x * sin (th x) + lg x * - cos (th x)) / (PI * x)) by (unfold Rdiv; ring).
    apply K; [assumption|now rewrite Rabs_Ropp].
  - unfold large_s. replace (/ 2 - (lf x * cos (th x) + lg x * sin (th x)) / (PI * x) - / 2) with (- ((lf x * cos (th x) + lg x * sin (th x)) / (PI * x))) by ring.
    rewrite Rabs_Ropp. now apply K.
Qed.
Lemma pos_part_all FC FS x : fresnel_from_0 FC FS -> 0 <= x ->
  Rabs (snd (pos_part x) - FC x) <= 1e-5 /\ Rabs (fst (pos_part x) - FS x) <= 1e-5.
Proof.
  intros F X. destruct (Rle_lt_dec x 36974) as [L|L].
  - destruct (pos_part_close FC FS x F (conj X L)). split; lra.
  - unfold pos_part. destruct (Rltb_spec (x * x) (41 / 16)) as [A|A]; [nra|]. destruct (Rltb_spec 36974 x) as [_|B]; [|lra]. cbn [fst snd].
    destruct (far_half x ltac:(lra)) as [H1 H2]. destruct (large_close FC FS x F ltac:(lra) ltac:(lra)) as [G1 G2]. apply Rabs_inv in H1, H2, G1, G2. split; apply Rabs_le; lra.
Qed.
Lemma FC_odd FC FS x : fresnel_from_0 FC FS -> FC (- x) = - FC x /\ FS (- x) = - FS x.
Proof.
  intros (F & C & S). assert (K : forall (H h : R -> R), (forall z, derivable_pt_lim H z (h (PI / 2 * z * z))) -> H 0 = 0 -> H (- x) = - H x).
  { intros H h D Z. assert (E : (H (- x) + H x) = (H (- 0) + H 0)).
    { apply (deriv_zero_const (fun y => H (- y) + H y)). intros z. replace 0 with (h (PI / 2 * - z * - z) * - 1 + h (PI / 2 * z * z)).
      2:{ replace (PI / 2 * - z * - z) with (PI / 2 * z * z) by ring. ring. }
      apply (derivable_pt_lim_plus (fun y => H (- y)) H); [|apply D].
      apply (derivable_pt_lim_comp (fun y => - y) H); [|apply D]. replace (- 1) with (Ropp 1) by ring. apply (derivable_pt_lim_opp id). apply derivable_pt_lim_id. }
    rewrite Ropp_0, Z in E. lra. }
  split; [apply (K FC cos)|apply (K FS sin)]; auto; intros z; apply F.
Qed.

(** ** Accuracy: at most 1e-8 off up to 36974, at most 1e-5 off everywhere. *)
Theorem C122_accuracy : forall FC FS x, fresnel_from_0 FC FS ->
  (Rabs x <= 36974 -> Rabs (FresnelCos x - FC x) <= 1e-8 /\ Rabs (FresnelSin x - FS x) <= 1e-8) /\
  Rabs (FresnelCos x - FC x) <= 1e-5 /\ Rabs (FresnelSin x - FS x) <= 1e-5.
Proof.
  intros FC FS x F.
  assert (K : forall e, Rabs (snd (pos_part (Rabs x)) - FC (Rabs x)) <= e /\ Rabs (fst (pos_part (Rabs x)) - FS (Rabs x)) <= e ->
    Rabs (FresnelCos x - FC x) <= e /\ Rabs (FresnelSin x - FS x) <= e).
  { intros e [A B]. unfold FresnelCos, FresnelSin. rewrite fresnel_eq. destruct (Rltb_spec x 0) as [N|N]; cbn [fst snd].
    - rewrite (Rabs_left x) in * by assumption. destruct (FC_odd FC FS x F) as [O1 O2]. rewrite O1 in A. rewrite O2 in B. rewrite <- Rabs_Ropp in A, B.
      split; [eapply Rle_trans; [|exact A]|eapply Rle_trans; [|exact B]]; right; f_equal; ring.
    - rewrite (Rabs_pos_eq x) in * by lra. auto. }
  split.
  - intros L. apply K. destruct (pos_part_close FC FS (Rabs x) F (conj (Rabs_pos x) L)). split; lra.
  - apply K. apply pos_part_all; [assumption|apply Rabs_pos].
Qed.
Print Assumptions C122_accuracy.
(** Beyond 36974 the results are 1/2 or -1/2, and the error does exceed 8e-6. *)
Theorem C122_far : forall x, 36974 < Rabs x -> Rabs (FresnelCos x) = / 2 /\ Rabs (FresnelSin x) = / 2 /\ 0 < FresnelCos x * x /\ 0 < FresnelSin x * x.
Proof.
  intros x L. unfold FresnelCos, FresnelSin. rewrite fresnel_eq. unfold pos_part. destruct (Rltb_spec (Rabs x * Rabs x) (41 / 16)) as [A|A]; [nra|].
  destruct (Rltb_spec 36974 (Rabs x)) as [_|B]; [|lra]. destruct (Rltb_spec x 0) as [N|N]; cbn [fst snd].
  - rewrite Rabs_Ropp, Rabs_pos_eq by lra. repeat split; try reflexivity; nra.
  - rewrite Rabs_pos_eq by lra. rewrite Rabs_pos_eq in L by lra. repeat split; try reflexivity; nra.
Qed.
Print Assumptions C122_far.
Theorem C122_far_accuracy_refuted : forall FC FS, fresnel_from_0 FC FS -> exists x, 36974 < x /\ 8e-6 <= Rabs (FresnelCos x - FC x).
Proof.
  intros FC FS F. set (x := sqrt 1367077001). exists x. assert (E : x * x = 1367077001) by (apply sqrt_sqrt; lra). assert (X0 : 0 <= x) by apply sqrt_pos.
  assert (X : 36974 < x < 36975).
  { split; apply Rnot_le_lt; intros H; [assert (x * x <= 36974 * 36974) by (apply Rmult_le_compat; lra)|assert (36975 * 36975 <= x * x) by (apply Rmult_le_compat; lra)]; lra. }
  split; [apply X|]. unfold FresnelCos. rewrite fresnel_eq, (Rabs_pos_eq x) by assumption. destruct (Rltb_spec x 0) as [N|_]; [lra|]. unfold pos_part.
  destruct (Rltb_spec (x * x) (41 / 16)) as [A|A]; [lra|]. destruct (Rltb_spec 36974 x) as [_|B]; [|lra]. cbn [snd].
  destruct (large_close FC FS x F ltac:(lra) ltac:(lra)) as [G _]. destruct (far_fg x ltac:(lra)) as [FF _].
  assert (TH : th x = PI / 2 + IZR 341769250 * (2 * PI)) by (unfold th; rewrite E; lra).
  assert (LC : large_c x = / 2 + lf x / (PI * x)).
  { unfold large_c. rewrite TH, sin_Zperiod, cos_Zperiod, sin_PI2, cos_PI2. unfold Rdiv. ring. }
  assert (D : 8.5e-6 <= lf x / (PI * x)).
  { pose proof pi_bounds. apply Rabs_inv in FF. assert (PX : 0 < PI * x <= 116162) by (split; nra). unfold Rdiv. apply Rle_trans with (0.999 * / 116162); [lra|].
    apply Rmult_le_compat; [lra|lra|lra|apply Rinv_le_contravar; lra]. }
  rewrite LC in G. apply Rabs_inv in G. rewrite <- Rabs_Ropp. eapply Rle_trans; [|apply Rle_abs]. lra.
Qed.
Print Assumptions C122_far_accuracy_refuted.
(** Odd functions, 0 at 0. *)
Theorem C122_odd : forall x, FresnelCos (- x) = - FresnelCos x /\ FresnelSin (- x) = - FresnelSin x.
Proof.
  intros x. unfold FresnelCos, FresnelSin. rewrite !fresnel_eq, Rabs_Ropp. destruct (Rltb_spec (- x) 0) as [A|A], (Rltb_spec x 0) as [B|B]; cbn [fst snd]; try lra.
  replace x with 0 by lra. rewrite Rabs_R0. unfold pos_part. destruct (Rltb_spec (0 * 0) (41 / 16)) as [D|D]; [|lra]. cbn [fst snd]. unfold small_s, small_c, Rdiv. split; ring.
Qed.
Print Assumptions C122_odd.
(** No division by 0 and no access outside the tables. *)
Theorem C122_defined : forall t, 0 <= t ->
  0 < p1evl t (reals tab_sd) 6 /\ 0 < polevl t (reals tab_cd) 6 /\ 0 < p1evl t (reals tab_fd) 10 /\ 0 < p1evl t (reals tab_gd) 11 /\
  map (@length Q) [tab_sn; tab_cn; tab_cd; tab_fn; tab_gn] = map S [5; 5; 6; 9; 10]%nat /\ map (@length Q) [tab_sd; tab_fd; tab_gd] = [6; 10; 11]%nat.
Proof.
  intros t T. rewrite (polevl_pe _ _ 6) by reflexivity. rewrite (p1evl_pe _ _ 6), (p1evl_pe _ _ 10), (p1evl_pe _ _ 11) by (reflexivity || lia).
  split; [exact (sD_pos t T)|]. split; [exact (cD_pos t T)|]. split; [exact (fD_pos t T)|]. split; [exact (gD_pos t T)|]. split; reflexivity.
Qed.
Print Assumptions C122_defined.

(** ** The standard spiral: curvature 0 at the start, cDot per unit of length *)
Definition spiral_of (FC FS : R -> R) (cDot s : R) : pt := match std_spiral FC FS s cDot with Some (x, y, _) => (x, y) | None => (0, 0) end.
Lemma scaled_deriv (H h : R -> R) a s : a <> 0 -> (forall z, derivable_pt_lim H z (h (PI / 2 * z * z))) ->
  derivable_pt_lim (fun s => H (s / a) * a) s (h (PI / 2 * (s / a) * (s / a))).
Proof.
  intros A D. apply (deriv_ext (fun s => a * H (/ a * s)) _ s (a * (h (PI / 2 * (/ a * s) * (/ a * s)) * / a))).
  - intros x. unfold Rdiv. rewrite (Rmult_comm x). ring.
  - unfold Rdiv. rewrite (Rmult_comm s). field. assumption.
  - apply (derivable_pt_lim_scal (fun s => H (/ a * s))). apply (derivable_pt_lim_comp (fun s => / a * s) H); [|apply D].
    pose proof (derivable_pt_lim_scal id (/ a) s 1 (derivable_pt_lim_id s)) as E. rewrite Rmult_1_r in E. exact E.
Qed.
Definition unit_a (cDot : R) : R := 1 / sqrt (Rabs cDot) * sqrt PI.
Lemma unit_a_pos c : c <> 0 -> 0 < unit_a c /\ unit_a c * unit_a c = PI / Rabs c.
Proof.
  intros C. pose proof PI_RGT_0. pose proof (Rabs_pos_lt c C) as P. pose proof (sqrt_lt_R0 _ P). pose proof (sqrt_lt_R0 _ PI_RGT_0).
  assert (0 < / sqrt (Rabs c)) by (now apply Rinv_0_lt_compat). split; [unfold unit_a, Rdiv; rewrite Rmult_1_l; now apply Rmult_lt_0_compat|].
  unfold unit_a. replace (1 / sqrt (Rabs c) * sqrt PI * (1 / sqrt (Rabs c) * sqrt PI)) with ((sqrt PI * sqrt PI) / (sqrt (Rabs c) * sqrt (Rabs c))) by (field; lra).
  rewrite !sqrt_sqrt by lra. reflexivity.
Qed.
(** With the exact integrals: the result is the unit-speed curve from the origin with the direction cDot s^2 / 2, which is returned too; a curvature that
    does not change is a division by zero. *)
Theorem C122_standard_spiral : forall FC FS cDot, fresnel_from_0 FC FS ->
  (cDot <> 0 -> unit_curve (spiral_of FC FS cDot) (0, 0) (fun s => cDot * s * s / 2) /\
     forall s, exists x y, std_spiral FC FS s cDot = Some (x, y, cDot * s * s / 2)) /\
  (cDot = 0 -> forall s, std_spiral FC FS s cDot = None).
Proof.
  intros FC FS c (F & C0 & S0). split.
  2:{ intros -> s. unfold std_spiral. destruct (Reqb_spec 0 0); [reflexivity|tauto]. }
  intros C. destruct (unit_a_pos c C) as [AP AA]. pose proof (Rabs_pos_lt c C) as P. pose proof PI_RGT_0.
  assert (EQ : forall s, std_spiral FC FS s c = Some (FC (s / unit_a c) * unit_a c, (if Rltb c 0 then FS (s / unit_a c) * unit_a c * -1 else FS (s / unit_a c) * unit_a c), c * s * s / 2)).
  { intros s. unfold std_spiral. destruct (Reqb_spec c 0); [tauto|]. cbv zeta. fold (unit_a c). do 2 f_equal. field. }
  split; [|intros s; rewrite EQ; eauto].
  assert (ARG : forall s, PI / 2 * (s / unit_a c) * (s / unit_a c) = Rabs c * s * s / 2).
  { intros s. replace (PI / 2 * (s / unit_a c) * (s / unit_a c)) with (PI * s * s / 2 / (unit_a c * unit_a c)) by (field; lra). rewrite AA. field. lra. }
  unfold spiral_of. split.
  - rewrite EQ. unfold Rdiv. rewrite !Rmult_0_l, C0, S0, !Rmult_0_l. destruct (Rltb c 0); reflexivity.
  - intros s. split.
    + apply (deriv_ext (fun s => FC (s / unit_a c) * unit_a c) _ s (cos (PI / 2 * (s / unit_a c) * (s / unit_a c)))).
      * intros x. now rewrite EQ.
      * rewrite ARG. unfold Rabs. destruct (Rcase_abs c); [|reflexivity]. rewrite <- cos_neg. f_equal. field.
      * apply (scaled_deriv FC cos); [lra|]. intros z. apply F.
    + assert (DS : derivable_pt_lim (fun s => FS (s / unit_a c) * unit_a c) s (sin (PI / 2 * (s / unit_a c) * (s / unit_a c)))).
      { apply (scaled_deriv FS sin); [lra|]. intros z. apply F. }
      rewrite ARG in DS. destruct (Rltb_spec c 0) as [N|N].
      * apply (deriv_ext (fun s => -1 * (FS (s / unit_a c) * unit_a c)) _ s (-1 * sin (Rabs c * s * s / 2))).
        -- intros x. rewrite EQ. cbn [snd]. ring.
        -- rewrite Rabs_left by assumption. replace (- c * s * s / 2) with (- (c * s * s / 2)) by field. rewrite sin_neg. ring.
        -- now apply (derivable_pt_lim_scal (fun s => FS (s / unit_a c) * unit_a c)).
      * apply (deriv_ext (fun s => FS (s / unit_a c) * unit_a c) _ s (sin (Rabs c * s * s / 2))).
        -- intros x. rewrite EQ. reflexivity.
        -- now rewrite Rabs_pos_eq by lra.
        -- exact DS.
Qed.
Print Assumptions C122_standard_spiral.
Lemma dist_le a b e : 0 <= e -> Rabs (fst a - fst b) <= e -> Rabs (snd a - snd b) <= e -> dist a b <= 3 / 2 * e.
Proof.
  intros E A B. unfold dist. rewrite <- (sqrt_square (3 / 2 * e)) by lra. apply sqrt_le_1_alt. apply Rabs_inv in A, B.
  assert ((fst a - fst b) * (fst a - fst b) <= e * e) by nra. assert ((snd a - snd b) * (snd a - snd b) <= e * e) by nra. nra.
Qed.
(** With the code's integrals: at most 1.5e-8 times the size sqrt (pi / |cDot|) of the spiral away from that curve. *)
Theorem C122_standard_spiral_accuracy : forall c cDot s, cDot <> 0 -> unit_curve c (0, 0) (fun s => cDot * s * s / 2) ->
  Rabs s <= 36974 * sqrt (PI / Rabs cDot) ->
  exists x y, std_spiral FresnelCos FresnelSin s cDot = Some (x, y, cDot * s * s / 2) /\ dist (x, y) (c s) <= 1.5e-8 * sqrt (PI / Rabs cDot).
Proof.
  intros g c s C U L. destruct fresnel_from_0_exists as (FC & FS & F). destruct (unit_a_pos c C) as [AP AA].
  assert (EA : sqrt (PI / Rabs c) = unit_a c) by (rewrite <- AA; apply sqrt_square; lra). rewrite EA in *.
  destruct (C122_standard_spiral FC FS c F) as [H _]. destruct (H C) as [UC _]. rewrite (unit_curve_unique _ _ _ _ s U UC).
  assert (SA : Rabs (s / unit_a c) <= 36974).
  { unfold Rdiv. rewrite Rabs_mult, (Rabs_pos_eq (/ _)) by (left; now apply Rinv_0_lt_compat). apply Rmult_le_reg_r with (unit_a c); [assumption|]. rewrite Rmult_assoc, Rinv_l by lra. lra. }
  destruct (C122_accuracy FC FS (s / unit_a c) F) as [K _]. destruct (K SA) as [K1 K2].
  unfold spiral_of, std_spiral. destruct (Reqb_spec c 0); [tauto|]. cbv zeta. fold (unit_a c). set (a := unit_a c) in *.
  eexists. eexists. split; [replace (s * s * c * (1 / 2)) with (c * s * s / 2) by field; reflexivity|].
  replace (1.5e-8 * a) with (3 / 2 * (1e-8 * a)) by lra. apply dist_le; [lra| |]; cbn [fst snd].
  - rewrite <- Rmult_minus_distr_r, Rabs_mult, (Rabs_pos_eq a) by lra. apply Rmult_le_compat_r; lra.
  - assert (B : Rabs (FresnelSin (s / a) * a - FS (s / a) * a) <= 1e-8 * a) by (rewrite <- Rmult_minus_distr_r, Rabs_mult, (Rabs_pos_eq a) by lra; apply Rmult_le_compat_r; lra).
    destruct (Rltb c 0); [|exact B]. replace (FresnelSin (s / a) * a * -1 - FS (s / a) * a * -1) with (- (FresnelSin (s / a) * a - FS (s / a) * a)) by ring. now rewrite Rabs_Ropp.
Qed.
Print Assumptions C122_standard_spiral_accuracy.

(** ** The spirals of roads (C54 assumes exact integrals): with the code's integrals, every sampled position is at most 3e-8 times the size
    sqrt (pi / |cDot|) away from the curve whose direction is the one the code returns. *)
Lemma cmul_dist p k phi a b e : 0 <= k -> 0 <= e -> Rabs (fst a - fst b) <= e -> Rabs (snd a - snd b) <= e ->
  dist (cadd p (cmul (cmul (creal k) (cexp_i phi)) a)) (cadd p (cmul (cmul (creal k) (cexp_i phi)) b)) <= 3 / 2 * (k * e).
Proof.
  intros K E A B. destruct a as [a1 a2], b as [b1 b2], p as [p1 p2]. unfold cadd, cmul, creal, cexp_i, dist. cbn [fst snd] in *.
  rewrite <- (sqrt_square (3 / 2 * (k * e))) by nra. apply sqrt_le_1_alt. pose proof (sin2_cos2 phi) as SC. unfold Rsqr in SC.
  set (c := cos phi) in *. set (s := sin phi) in *. set (u := a1 - b1) in *. set (v := a2 - b2) in *.
  match goal with |- ?l <= _ => replace l with (k * k * (s * s + c * c) * (u * u + v * v)) by (unfold u, v; ring) end. rewrite SC, Rmult_1_r.
  apply Rabs_inv in A, B. assert (u * u <= e * e) by nra. assert (v * v <= e * e) by nra.
  replace (3 / 2 * (k * e) * (3 / 2 * (k * e))) with (k * k * (9 / 4 * (e * e))) by field. apply Rmult_le_compat_l; nra.
Qed.
Theorem C122_road_spiral_accuracy : forall g x0 y0 cdot k0 th s, cdot <> 0 ->
  unit_curve g (x0, y0) (fun s => spiral_tangent s cdot k0 th) ->
  Rabs k0 <= 36974 * sqrt (PI * Rabs cdot) -> Rabs (k0 + cdot * s) <= 36974 * sqrt (PI * Rabs cdot) ->
  dist (odr_spiral FresnelCos FresnelSin s x0 y0 cdot k0 th) (g s) <= 3e-8 * sqrt (PI / Rabs cdot).
Proof.
  intros g x0 y0 c k0 th s C U B1 B2. destruct fresnel_from_0_exists as (FC & FS & F).
  assert (U2 : unit_curve (fun s => odr_spiral FC FS s x0 y0 c k0 th) (x0, y0) (fun s => spiral_tangent s c k0 th)).
  { destruct (spiral_curve FC FS x0 y0 c k0 th (proj1 F) C) as [S0 D]. split; [exact S0|]. intros z. specialize (D z). unfold spiral_tangent.
    replace (c * z * z * (1 / 2) + k0 * z + th) with (th + k0 * z + c * z * z / 2) by field. exact D. }
  rewrite (unit_curve_unique _ _ _ _ s U U2). unfold odr_spiral. destruct (Reqb_spec c 0); [tauto|]. cbn [andb]. cbv zeta.
  pose proof PI_RGT_0. pose proof (Rabs_pos_lt c C) as P. assert (Q : 0 < sqrt (PI * Rabs c)) by (apply sqrt_lt_R0, Rmult_lt_0_compat; lra).
  assert (ARG : forall z, Rabs z <= 36974 * sqrt (PI * Rabs c) -> Rabs (FresnelCos (z / sqrt (PI * Rabs c)) - FC (z / sqrt (PI * Rabs c))) <= 1e-8 /\ Rabs (FresnelSin (z / sqrt (PI * Rabs c)) - FS (z / sqrt (PI * Rabs c))) <= 1e-8).
  { intros z L. destruct (C122_accuracy FC FS (z / sqrt (PI * Rabs c)) F) as [K _]. apply K.
    unfold Rdiv. rewrite Rabs_mult, (Rabs_pos_eq (/ _)) by (left; now apply Rinv_0_lt_compat). apply Rmult_le_reg_r with (sqrt (PI * Rabs c)); [assumption|]. rewrite Rmult_assoc, Rinv_l by lra. lra. }
  destruct (ARG _ B1) as [A1 A2]. destruct (ARG _ B2) as [A3 A4]. apply Rabs_inv in A1, A2, A3, A4.
  replace (3e-8 * sqrt (PI / Rabs c)) with (3 / 2 * (sqrt (PI / Rabs c) * 2e-8)) by lra.
  apply cmul_dist; [apply sqrt_pos|lra| |]; destruct (Rltb c 0); cbn [fst snd]; apply Rabs_le; lra.
Qed.
Print Assumptions C122_road_spiral_accuracy.
Example C122_nonvacuous : (exists FC FS, fresnel_from_0 FC FS) /\
  (exists g, unit_curve g (1, 2) (fun s => spiral_tangent s (-1) (1 / 10) 0)) /\ (exists g, unit_curve g (0, 0) (fun s => 2 * s * s / 2)) /\
  Rabs 3 <= 36974 * sqrt (PI / Rabs 2) /\ Rabs (1 / 10) <= 36974 * sqrt (PI * Rabs (-1)).
Proof.
  split; [exact fresnel_from_0_exists|]. destruct fresnel_from_0_exists as (FC & FS & F). pose proof pi_bounds.
  assert (SQ : forall z, 1 <= z -> 1 <= sqrt z) by (intros z Z; rewrite <- sqrt_1; apply sqrt_le_1_alt; lra). split.
  - exists (fun s => odr_spiral FC FS s 1 2 (-1) (1 / 10) 0). destruct (spiral_curve FC FS 1 2 (-1) (1 / 10) 0 (proj1 F) ltac:(lra)) as [S0 D]. split; [exact S0|]. intros z. specialize (D z).
    unfold spiral_tangent. replace (-1 * z * z * (1 / 2) + 1 / 10 * z + 0) with (0 + 1 / 10 * z + -1 * z * z / 2) by field. exact D.
  - split; [|split].
    + exists (spiral_of FC FS 2). destruct (C122_standard_spiral FC FS 2 F) as [H1 _]. apply H1. lra.
    + rewrite !Rabs_pos_eq by lra. pose proof (SQ (PI / 2) ltac:(lra)). lra.
    + rewrite (Rabs_pos_eq (1 / 10)), (Rabs_left (-1)) by lra. pose proof (SQ (PI * - -1) ltac:(lra)). lra.
Qed.
