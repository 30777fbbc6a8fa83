(** Plane geometry over the real numbers: points, Euclidean distance, atan2. *)
From Coq Require Import Reals Lra Lia Psatz List.
Import ListNotations.
Local Open Scope R_scope.

(** Modelled code: bark/geometry/commons.hpp:33-35, Point2d (two doubles). *)
Definition pt : Type := (R * R)%type.

(** bark/geometry/commons.hpp:43-63, the point operators. *)
Definition padd (p q : pt) : pt := (fst p + fst q, snd p + snd q).
Definition psub (p q : pt) : pt := (fst p - fst q, snd p - snd q).
Definition pscale (p : pt) (f : R) : pt := (fst p * f, snd p * f).
Definition pdiv (p : pt) (d : R) : pt := (fst p / d, snd p / d).

(** bark/geometry/commons.hpp:74-78, Distance(Point2d, Point2d); also boost::geometry::distance of two
    cartesian points. *)
Definition dist (p q : pt) : R :=
  sqrt ((fst p - fst q) * (fst p - fst q) + (snd p - snd q) * (snd p - snd q)).
(** boost::geometry::comparable_distance of two cartesian points: the squared distance. *)
Definition dist2 (p q : pt) : R :=
  (fst p - fst q) * (fst p - fst q) + (snd p - snd q) * (snd p - snd q).

(** The point at parameter [t] of the segment [p]-[q]. *)
Definition lerp (t : R) (p q : pt) : pt := (fst p + t * (fst q - fst p), snd p + t * (snd q - snd p)).

Lemma dist2_nonneg p q : 0 <= dist2 p q.
Proof. unfold dist2. pose proof (Rle_0_sqr (fst p - fst q)). pose proof (Rle_0_sqr (snd p - snd q)). unfold Rsqr in *. lra. Qed.
Lemma dist_sqrt p q : dist p q = sqrt (dist2 p q).
Proof. reflexivity. Qed.
Lemma dist_nonneg p q : 0 <= dist p q.
Proof. apply sqrt_pos. Qed.
Lemma dist_sq p q : dist p q * dist p q = dist2 p q.
Proof. rewrite dist_sqrt. apply sqrt_sqrt, dist2_nonneg. Qed.
Lemma dist_le_iff p q r s : dist p q <= dist r s <-> dist2 p q <= dist2 r s.
Proof.
  rewrite !dist_sqrt. split; intros H.
  - apply sqrt_le_0; auto using dist2_nonneg.
  - apply sqrt_le_1_alt, H.
Qed.
Lemma dist_refl p : dist p p = 0.
Proof. unfold dist. replace (_ + _) with 0 by ring. apply sqrt_0. Qed.
Lemma dist_zero p q : dist p q = 0 -> p = q.
Proof.
  intros H. pose proof (dist_sq p q) as E. rewrite H in E. unfold dist2 in E.
  destruct p as [a b], q as [c d]. cbn in E. rewrite Rmult_0_l in E. symmetry in E. apply Rplus_sqr_eq_0 in E. f_equal; lra.
Qed.
Lemma dist2_zero p q : dist2 p q = 0 -> p = q.
Proof. intros H. apply dist_zero. rewrite dist_sqrt, H. apply sqrt_0. Qed.
Lemma dist_pos p q : p <> q -> 0 < dist p q.
Proof. intros H. destruct (dist_nonneg p q) as [X|X]; auto. symmetry in X. apply dist_zero in X. tauto. Qed.
Lemma dist_sym p q : dist p q = dist q p.
Proof. unfold dist. f_equal. ring. Qed.
Lemma dist_tri p q r : dist p r <= dist p q + dist q r.
Proof.
  destruct p as [a b], q as [c d], r as [e f]. unfold dist. cbn.
  pose proof (triangle a b e f c d) as T. unfold dist_euc, Rsqr in T. exact T.
Qed.
Lemma pt_eq_dec (p q : pt) : {p = q} + {p <> q}.
Proof.
  destruct p as [a b], q as [c d].
  destruct (Req_EM_T a c) as [->|], (Req_EM_T b d) as [->|]; auto; right; congruence.
Qed.
Lemma lerp0 p q : lerp 0 p q = p.
Proof. unfold lerp. destruct p; cbn. f_equal; ring. Qed.
Lemma lerp1 p q : lerp 1 p q = q.
Proof. unfold lerp. destruct q; cbn. f_equal; ring. Qed.
Lemma lerp_same t p : lerp t p p = p.
Proof. unfold lerp. destruct p; cbn. f_equal; ring. Qed.
Lemma dist_scale a p q p' q' : 0 <= a -> dist2 p' q' = a * a * dist2 p q -> dist p' q' = a * dist p q.
Proof.
  intros Ha H. rewrite !dist_sqrt, H, sqrt_mult_alt by nra. rewrite sqrt_square by auto. reflexivity.
Qed.
Lemma dist_lerp s t p q : dist (lerp s p q) (lerp t p q) = Rabs (s - t) * dist p q.
Proof.
  apply dist_scale. apply Rabs_pos.
  rewrite <- Rabs_mult, Rabs_pos_eq by apply (Rle_0_sqr (s - t)). unfold lerp, dist2. cbn. ring.
Qed.
Lemma dist_lerp_l t p q : 0 <= t -> dist p (lerp t p q) = t * dist p q.
Proof.
  intros H. rewrite <- (lerp0 p q) at 1. rewrite dist_lerp.
  replace (0 - t) with (- t) by ring. rewrite Rabs_Ropp, Rabs_pos_eq; auto.
Qed.
Lemma dist_lerp_r t p q : t <= 1 -> dist (lerp t p q) q = (1 - t) * dist p q.
Proof.
  intros H. rewrite <- (lerp1 p q) at 2. rewrite dist_lerp.
  rewrite Rabs_minus_sym, Rabs_pos_eq by lra. reflexivity.
Qed.

(** C math library: atan2 (y first). *)
Definition atan2 (y x : R) : R :=
  if Rlt_dec 0 x then atan (y / x)
  else if Rlt_dec x 0 then (if Rle_dec 0 y then atan (y / x) + PI else atan (y / x) - PI)
  else if Rlt_dec 0 y then PI / 2 else if Rlt_dec y 0 then - (PI / 2) else 0.

Lemma sqrt_ratio x y : x <> 0 -> sqrt (x * x + y * y) = Rabs x * sqrt (1 + (y / x)²).
Proof.
  intros H. rewrite <- (sqrt_Rsqr_abs x), <- sqrt_mult_alt.
  - f_equal. unfold Rsqr. field. auto.
  - apply Rle_0_sqr.
Qed.
Lemma atan2_polar x y : let r := sqrt (x * x + y * y) in
  r * cos (atan2 y x) = x /\ r * sin (atan2 y x) = y.
Proof.
  intros r. unfold r, atan2.
  assert (HS : forall u, 0 < sqrt (1 + u²)).
  { intros u. apply sqrt_lt_R0. pose proof (Rle_0_sqr u). lra. }
  destruct (Rlt_dec 0 x) as [H|H].
  - rewrite cos_atan, sin_atan, sqrt_ratio, Rabs_pos_eq by lra.
    pose proof (HS (y/x)). split; field; repeat split; lra.
  - destruct (Rlt_dec x 0) as [H'|H'].
    + rewrite sqrt_ratio, Rabs_left by lra. pose proof (HS (y/x)).
      destruct (Rle_dec 0 y).
      * rewrite neg_cos, neg_sin, cos_atan, sin_atan. split; field; repeat split; lra.
      * replace (atan (y / x) - PI) with (atan (y/x) + PI - 2 * PI) by ring.
        replace (cos (atan (y/x) + PI - 2 * PI)) with (cos (atan (y/x) + PI)).
        2:{ rewrite <- (cos_period (atan (y/x) + PI - 2*PI) 1). f_equal. cbn. ring. }
        replace (sin (atan (y/x) + PI - 2 * PI)) with (sin (atan (y/x) + PI)).
        2:{ rewrite <- (sin_period (atan (y/x) + PI - 2*PI) 1). f_equal. cbn. ring. }
        rewrite neg_cos, neg_sin, cos_atan, sin_atan. split; field; repeat split; lra.
    + assert (x = 0) by lra. subst x.
      replace (0 * 0 + y * y) with (y²) by (unfold Rsqr; ring). rewrite sqrt_Rsqr_abs.
      destruct (Rlt_dec 0 y); [|destruct (Rlt_dec y 0)].
      * rewrite cos_PI2, sin_PI2, Rabs_pos_eq; lra.
      * rewrite cos_neg, sin_neg, cos_PI2, sin_PI2, Rabs_left; lra.
      * assert (y = 0) by lra. subst. rewrite Rabs_R0. lra.
Qed.
Lemma atan2_range y x : - PI <= atan2 y x <= PI.
Proof.
  unfold atan2. pose proof PI_RGT_0. pose proof (atan_bound (y/x)) as B.
  destruct (Rlt_dec 0 x); [lra|]. destruct (Rlt_dec x 0).
  - destruct (Rle_dec 0 y).
    + assert (atan (y/x) <= 0); [|lra].
      destruct (Req_dec y 0) as [->|]; [unfold Rdiv; rewrite Rmult_0_l, atan_0; lra|].
      rewrite <- atan_0. left. apply atan_increasing.
      apply Ropp_lt_cancel. rewrite Ropp_0. replace (- (y/x)) with (y * / - x) by (field; lra).
      apply Rmult_lt_0_compat; [lra|apply Rinv_0_lt_compat; lra].
    + assert (0 <= atan (y/x)); [|lra]. rewrite <- atan_0. left. apply atan_increasing.
      replace (y/x) with (- y * / - x) by (field; lra).
      apply Rmult_lt_0_compat; [lra|apply Rinv_0_lt_compat; lra].
  - destruct (Rlt_dec 0 y); [lra|]. destruct (Rlt_dec y 0); lra.
Qed.
