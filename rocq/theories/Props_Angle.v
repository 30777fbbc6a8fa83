(** C20, C21, C22: angles. *)
From Coq Require Import Reals ZArith Lra Lia.
From Flocq Require Import Core.
From Verif Require Import Model_Angle Spec_Angle Proof_Angle.
Local Open Scope R_scope.

(** C20. Norm0To2PI picks the unique representative in [0, 2pi). *)
Theorem C20_norm0to2pi :
  forall p a, 0 < p ->
    0 <= Norm0To2PI p a < 2 * p /\
    same_direction p (Norm0To2PI p a) a /\
    (forall b, same_direction p b a -> 0 <= b < 2 * p -> b = Norm0To2PI p a) /\
    Norm0To2PI p (Norm0To2PI p a) = Norm0To2PI p a.
Proof.
  intros p a Hp. destruct (norm0_spec p a Hp) as [A B].
  assert (U : forall b, same_direction p b a -> 0 <= b < 2 * p -> b = Norm0To2PI p a).
  { intros b S R. apply (congr_unique p 0); auto; try lra.
    eapply same_trans; [exact S|apply same_sym; exact B]. }
  split; [exact A|]. split; [exact B|]. split; [exact U|].
  destruct (norm0_spec p (Norm0To2PI p a) Hp) as [C E].
  apply U; [|exact C]. eapply same_trans; eauto.
Qed.
Print Assumptions C20_norm0to2pi.

(** NormToPI, in exact arithmetic, picks the unique representative in [-pi, pi). *)
Theorem C20_normtopi :
  forall p a, 0 < p ->
    - p <= NormToPI p exact a < p /\
    same_direction p (NormToPI p exact a) a /\
    (forall b, same_direction p b a -> - p <= b < p -> b = NormToPI p exact a) /\
    NormToPI p exact (NormToPI p exact a) = NormToPI p exact a.
Proof.
  intros p a Hp. destruct (normpi_spec p a Hp) as [A B].
  assert (U : forall b, same_direction p b a -> - p <= b < p -> b = NormToPI p exact a).
  { intros b S R. apply (congr_unique p (- p)); auto; try lra.
    eapply same_trans; [exact S|apply same_sym; exact B]. }
  split; [exact A|]. split; [exact B|]. split; [exact U|].
  destruct (normpi_spec p (NormToPI p exact a) Hp) as [C E].
  apply U; [|exact C]. eapply same_trans; eauto.
Qed.
Print Assumptions C20_normtopi.

(** With the conversion to float (error at most [e] on [-pi, pi]) the result
    leaves the range and the direction by at most [e]. *)
Theorem C20_normtopi_rounded :
  forall p fl e a, 0 < p -> 0 <= e -> (forall x, - p <= x <= p -> Rabs (fl x - x) <= e) ->
    - p - e <= NormToPI p fl a <= p + e /\
    nearly_same_direction p e (NormToPI p fl a) a.
Proof.
  intros p fl e a Hp He Hf.
  destruct (normpi_spec p a Hp) as [A [k E]].
  replace (NormToPI p fl a) with (fl (NormToPI p exact a)) by reflexivity.
  set (x := NormToPI p exact a) in *. specialize (Hf x ltac:(lra)).
  apply Rabs_le_inv in Hf. split; [lra|]. exists k. apply Rabs_le. lra.
Qed.
Print Assumptions C20_normtopi_rounded.

(** IEEE binary32 rounding (round to nearest even), from Flocq. *)
Definition to_float (x : R) : R :=
  round radix2 (FLT_exp (-149) 24) (Znearest (fun z => negb (Z.even z))) x.
(** The double nearest to the literal of angle.hpp:17. *)
Definition B_PI_double : R := 884279719003555 * / 281474976710656.

Lemma mag_pi : mag radix2 (- B_PI_double) = 2%Z :> Z.
Proof.
  rewrite mag_opp. apply mag_unique. unfold B_PI_double.
  rewrite Rabs_pos_eq by lra.
  change (bpow radix2 (2 - 1)) with 2. change (bpow radix2 2) with 4. split; lra.
Qed.

Lemma to_float_minus_pi : to_float (- B_PI_double) = - 13176795 / 4194304.
Proof.
  unfold to_float, round, scaled_mantissa, cexp. rewrite mag_pi.
  change (FLT_exp (-149) 24 2) with (-22)%Z. unfold F2R. cbn [Fnum Fexp].
  replace (Znearest (fun z : Z => negb (Z.even z)) (- B_PI_double * bpow radix2 (- (-22)))) with (-13176795)%Z.
  - change (bpow radix2 (-22)) with (/ 4194304). lra.
  - symmetry. apply Znearest_imp. change (bpow radix2 (- -22)) with 4194304. unfold B_PI_double. apply Rabs_lt. split; lra.
Qed.

(** The float return type makes the stated range false of the actual function:
    NormToPI(-B_PI) is smaller than -B_PI. *)
Theorem C20_float_range_refuted :
  NormToPI B_PI_double to_float (- B_PI_double) < - B_PI_double.
Proof.
  unfold NormToPI.
  replace (- B_PI_double + B_PI_double) with 0 by lra.
  assert (Hp : 0 < B_PI_double) by (unfold B_PI_double; lra).
  rewrite fmod_small by lra.
  destruct (Rlt_dec 0 0); [lra|].
  replace (0 - B_PI_double) with (- B_PI_double) by lra.
  rewrite to_float_minus_pi. unfold B_PI_double. lra.
Qed.
Print Assumptions C20_float_range_refuted.

Example C20_nonvacuous :
  0 < PI /\ Norm0To2PI PI (- PI) = PI /\ NormToPI PI exact (5 * PI) = - PI.
Proof.
  pose proof PI_RGT_0 as Hp. split; [exact Hp|]. split.
  - symmetry. apply C20_norm0to2pi; [exact Hp| |lra]. exists 1%Z. lra.
  - symmetry. apply C20_normtopi; [exact Hp| |lra]. exists (-3)%Z. lra.
Qed.

(** C21. SignedAngleDiff(a,b) is a rotation taking b to a, none is shorter, it
    is in [-pi,pi), it vanishes exactly when the directions agree and changes
    sign when the arguments are swapped unless they are opposite. *)
Theorem C21_signed_angle_difference :
  forall p a b, 0 < p ->
    let d := SignedAngleDiff p exact a b in
    - p <= d < p /\
    rotates p b d a /\
    (forall r, rotates p b r a -> Rabs d <= Rabs r) /\
    (d = 0 <-> same_direction p a b) /\
    (d <> - p -> SignedAngleDiff p exact b a = - d).
Proof.
  intros p a b Hp d. unfold d. rewrite !signed_spec by auto.
  destruct (normpi_spec p (a - b) Hp) as [A [k B]].
  set (x := NormToPI p exact (a - b)) in *.
  split; [exact A|]. split; [exists k; lra|]. split.
  { intros r [j Hr]. apply (min_rotation p x r Hp A). exists (k - j)%Z. rewrite minus_IZR. lra. }
  split.
  { split; [intros E; exists (- k)%Z; rewrite opp_IZR; lra|].
    intros [j Hj]. apply (congr_unique p (- p)); try lra. exists (k + j)%Z. rewrite plus_IZR. lra. }
  intros N. destruct (C20_normtopi p (b - a) Hp) as [_ [_ [U _]]].
  symmetry. apply U; [|lra]. exists (- k)%Z. rewrite opp_IZR. lra.
Qed.
Print Assumptions C21_signed_angle_difference.

(** With float rounding of NormToPI: still a rotation from b to a up to the
    rounding error, in [-pi-e, pi). *)
Theorem C21_signed_angle_difference_rounded :
  forall p fl e a b, 0 < p -> 0 <= e <= p ->
    (forall x, - p <= x <= p -> Rabs (fl x - x) <= e) ->
    let d := SignedAngleDiff p fl a b in
    - p - e <= d < p /\ nearly_same_direction p e (b + d) a.
Proof.
  intros p fl e a b Hp He Hf d. unfold d, SignedAngleDiff.
  destruct (C20_normtopi_rounded p fl e (a - b) Hp (proj1 He) Hf) as [A [k B]].
  set (x := NormToPI p fl (a - b)) in *.
  destruct (fmod_congr (x + p) (p * 2)) as [j J].
  split.
  - destruct (Rlt_dec (x + p) 0) as [N|N].
    + assert (T : fmod (x + p) (p * 2) = x + p).
      { unfold fmod, Ztrunc0. assert (Q : (x + p) / (p * 2) < 0).
        { unfold Rdiv. assert (0 < / (p * 2)) by (apply Rinv_0_lt_compat; lra). nra. }
        destruct (Rlt_dec _ 0); [|lra].
        assert (Q2 : - ((x + p) / (p * 2)) < 1).
        { apply (Rmult_lt_reg_r (p * 2)); [lra|].
          replace (- ((x + p) / (p * 2)) * (p * 2)) with (- (x + p)) by (field; lra). lra. }
        assert (I : Int_part (- ((x + p) / (p * 2))) = 0%Z).
        { destruct (base_Int_part (- ((x + p) / (p * 2)))) as [I1 I2].
          assert (L1 : IZR (Int_part (- ((x + p) / (p * 2)))) < 1) by lra.
          assert (L2 : -1 < IZR (Int_part (- ((x + p) / (p * 2))))) by lra.
          apply lt_IZR in L1. apply lt_IZR in L2. lia. }
        rewrite I. simpl. lra. }
      rewrite T. lra.
    + pose proof (fmod_pos (x + p) (p * 2) ltac:(lra) ltac:(lra)). lra.
  - exists (k - j)%Z. rewrite minus_IZR.
    replace (b + (fmod (x + p) (p * 2) - p) - (a + (IZR k - IZR j) * (2 * p)))
      with (x - (a - b + IZR k * (2 * p))) by lra. exact B.
Qed.
Print Assumptions C21_signed_angle_difference_rounded.

Example C21_nonvacuous :
  SignedAngleDiff PI exact (3 * PI / 4) (- 3 * PI / 4) = - PI / 2.
Proof.
  pose proof PI_RGT_0 as Hp. rewrite signed_spec by auto. symmetry.
  apply C20_normtopi; auto; [|lra]. exists (-1)%Z. lra.
Qed.
(** the rounding contract is met by an actual (inexact) rounding *)
Example C21_rounded_nonvacuous :
  exists fl, (forall x, - PI <= x <= PI -> Rabs (fl x - x) <= 1) /\ fl (1 / 2) <> 1 / 2.
Proof.
  exists (fun x => IZR (Int_part x)). split.
  - intros x _. destruct (base_Int_part x). apply Rabs_le. lra.
  - intros E. assert (L1 : IZR (Int_part (1/2)) < 1) by lra. assert (L2 : 0 < IZR (Int_part (1/2))) by lra.
    apply lt_IZR in L1. apply lt_IZR in L2. lia.
Qed.

(** C22. The absolute difference is NOT wrap-around safe: two directions a
    quarter turn apart are reported as three quarters of a turn. *)
Theorem C22_wraparound_refuted :
  let a := 3 * PI / 4 in
  let b := - 3 * PI / 4 in
  AngleDiff PI exact a b = 3 * PI / 2 /\
  (exists r, rotates PI b r a /\ Rabs r = PI / 2) /\
  AngleDiff PI exact a b > PI.
Proof.
  pose proof PI_RGT_0 as Hp. intros a b. unfold a, b.
  assert (E : AngleDiff PI exact (3 * PI / 4) (- 3 * PI / 4) = 3 * PI / 2).
  { unfold AngleDiff.
    replace (NormToPI PI exact (3 * PI / 4)) with (3 * PI / 4)
      by (apply C20_normtopi; auto; [apply same_refl|lra]).
    replace (NormToPI PI exact (- 3 * PI / 4)) with (- 3 * PI / 4)
      by (apply C20_normtopi; auto; [apply same_refl|lra]).
    rewrite Rabs_pos_eq; lra. }
  rewrite E. split; [reflexivity|]. split; [|lra].
  exists (- (PI / 2)). split; [exists (-1)%Z; lra|]. rewrite Rabs_Ropp, Rabs_pos_eq; lra.
Qed.
Print Assumptions C22_wraparound_refuted.

(** What does hold: it is symmetric, in [0, 2pi), zero iff the directions agree,
    and the smallest rotation whenever it does not exceed pi; otherwise the
    smallest rotation is its complement to a full turn. *)
Theorem C22_absolute_angle_difference_partial :
  forall p a b, 0 < p ->
    let d := AngleDiff p exact a b in
    d = AngleDiff p exact b a /\ 0 <= d < 2 * p /\
    (d = 0 <-> same_direction p a b) /\
    (forall r, rotates p b r a -> Rmin d (2 * p - d) <= Rabs r) /\
    (exists r, rotates p b r a /\ Rabs r = Rmin d (2 * p - d)).
Proof.
  intros p a b Hp d. unfold d, AngleDiff.
  destruct (normpi_spec p a Hp) as [A [k EA]]. destruct (normpi_spec p b Hp) as [B [j EB]].
  set (x := NormToPI p exact a) in *. set (y := NormToPI p exact b) in *.
  split; [apply Rabs_minus_sym|].
  split; [split; [apply Rabs_pos|apply Rabs_lt; lra]|].
  split.
  { split.
    - intros E. assert (x = y) by (unfold Rabs in E; destruct (Rcase_abs (x - y)); lra).
      exists (j - k)%Z. rewrite minus_IZR. lra.
    - intros [l S]. assert (x = y).
      { apply (congr_unique p (- p)); try lra. exists (k + l - j)%Z. rewrite minus_IZR, plus_IZR. lra. }
      rewrite H, Rminus_diag_eq by auto. apply Rabs_R0. }
  assert (HR : forall r, rotates p b r a <-> same_direction p r (x - y)).
  { intros r. split; intros [l S].
    - exists (l - k + j)%Z. rewrite plus_IZR, minus_IZR. lra.
    - exists (l + k - j)%Z. rewrite minus_IZR, plus_IZR. lra. }
  split.
  - intros r Hr. apply HR in Hr. destruct Hr as [l S].
    assert (L : (l <= -1)%Z \/ l = 0%Z \/ (1 <= l)%Z) by lia.
    unfold Rmin. destruct L as [L|[L|L]].
    + apply IZR_le in L. unfold Rabs.
      destruct (Rcase_abs (x - y)), (Rcase_abs r), (Rle_dec _ _); nra.
    + subst l. unfold Rabs. destruct (Rcase_abs (x - y)), (Rcase_abs r), (Rle_dec _ _); lra.
    + apply IZR_le in L. unfold Rabs.
      destruct (Rcase_abs (x - y)), (Rcase_abs r), (Rle_dec _ _); nra.
  - unfold Rmin. destruct (Rle_dec (Rabs (x - y)) (2 * p - Rabs (x - y))) as [Q|Q].
    + exists (x - y). split; [apply HR; apply same_refl|reflexivity].
    + unfold Rabs in Q |- *. destruct (Rcase_abs (x - y)).
      * exists (x - y + 2 * p). split; [apply HR; exists 1%Z; lra|]. destruct (Rcase_abs _); lra.
      * exists (x - y - 2 * p). split; [apply HR; exists (-1)%Z; lra|]. destruct (Rcase_abs _); lra.
Qed.
Print Assumptions C22_absolute_angle_difference_partial.
