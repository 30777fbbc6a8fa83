From Coq Require Import Reals ZArith Lra Lia.
From Verif Require Import Model_Angle Spec_Angle.
Local Open Scope R_scope.

Lemma trunc_pos x : 0 <= x -> IZR (Ztrunc0 x) <= x /\ x < IZR (Ztrunc0 x) + 1.
Proof.
  intros H. unfold Ztrunc0. destruct (Rlt_dec x 0); [lra|].
  destruct (base_Int_part x). lra.
Qed.
Lemma trunc_neg x : x < 0 -> x <= IZR (Ztrunc0 x) /\ IZR (Ztrunc0 x) - 1 < x.
Proof.
  intros H. unfold Ztrunc0. destruct (Rlt_dec x 0); [|lra].
  destruct (base_Int_part (-x)). rewrite opp_IZR. lra.
Qed.

Lemma fmod_pos x y : 0 < y -> 0 <= x -> 0 <= fmod x y < y.
Proof.
  intros Hy Hx. assert (0 <= x / y) by (apply Rmult_le_pos; [auto|left; apply Rinv_0_lt_compat; auto]).
  destruct (trunc_pos _ H) as [A B]. unfold fmod. set (t := IZR (Ztrunc0 (x / y))) in *.
  replace x with (x / y * y) at 1 2 by (field; lra). set (q := x / y) in *.
  split; [|]; nra.
Qed.
Lemma fmod_neg x y : 0 < y -> x < 0 -> - y < fmod x y <= 0.
Proof.
  intros Hy Hx. assert (x / y < 0).
  { unfold Rdiv. assert (0 < / y) by (apply Rinv_0_lt_compat; auto). nra. }
  destruct (trunc_neg _ H) as [A B]. unfold fmod. set (t := IZR (Ztrunc0 (x / y))) in *.
  replace x with (x / y * y) at 1 2 by (field; lra). set (q := x / y) in *.
  split; [|]; nra.
Qed.

Lemma fmod_small x y : 0 <= x < y -> fmod x y = x.
Proof.
  intros [A B]. assert (Hy : 0 < y) by lra.
  assert (0 <= x / y) by (apply Rmult_le_pos; [auto|left; apply Rinv_0_lt_compat; auto]).
  assert (x / y < 1) by (apply (Rmult_lt_reg_r y); [auto|]; unfold Rdiv; rewrite Rmult_assoc, Rinv_l by lra; lra).
  destruct (trunc_pos _ H) as [C D]. unfold fmod.
  assert (Ztrunc0 (x / y) = 0%Z).
  { assert (IZR (Ztrunc0 (x/y)) < 1) by lra. assert (-1 < IZR (Ztrunc0 (x/y))) by lra.
    apply lt_IZR in H1. apply lt_IZR in H2. lia. }
  rewrite H1. lra.
Qed.

Lemma fmod_congr x y : exists k : Z, x = fmod x y + IZR k * y.
Proof. exists (Ztrunc0 (x / y)). unfold fmod. lra. Qed.

(** uniqueness of the representative in a half-open interval of length 2p *)
Lemma congr_unique p lo a b : 0 < p -> same_direction p a b ->
  lo <= a < lo + 2 * p -> lo <= b < lo + 2 * p -> a = b.
Proof.
  intros Hp [k E] A B. assert (k = 0%Z).
  { assert (IZR k * (2 * p) < 2 * p) by lra. assert (- (2 * p) < IZR k * (2 * p)) by lra.
    assert (IZR k < 1) by nra. assert (-1 < IZR k) by nra.
    apply lt_IZR in H1. apply lt_IZR in H2. lia. }
  subst. lra.
Qed.

Lemma same_refl p a : same_direction p a a.
Proof. exists 0%Z. lra. Qed.
Lemma same_sym p a b : same_direction p a b -> same_direction p b a.
Proof. intros [k E]. exists (-k)%Z. rewrite opp_IZR. lra. Qed.
Lemma same_trans p a b c : same_direction p a b -> same_direction p b c -> same_direction p a c.
Proof. intros [k E] [j F]. exists (k + j)%Z. rewrite plus_IZR. lra. Qed.
Lemma same_plus p a b c d : same_direction p a b -> same_direction p c d -> same_direction p (a + c) (b + d).
Proof. intros [k E] [j F]. exists (k + j)%Z. rewrite plus_IZR. lra. Qed.
Lemma same_opp p a b : same_direction p a b -> same_direction p (- a) (- b).
Proof. intros [k E]. exists (- k)%Z. rewrite opp_IZR. lra. Qed.

Lemma norm0_spec p a : 0 < p ->
  0 <= Norm0To2PI p a < 2 * p /\ same_direction p (Norm0To2PI p a) a.
Proof.
  intros Hp. unfold Norm0To2PI.
  destruct (fmod_congr a (p * 2)) as [k E].
  assert (R : - (p * 2) < fmod a (p * 2) < p * 2).
  { destruct (Rlt_dec a 0); [pose proof (fmod_neg a (p * 2))|pose proof (fmod_pos a (p * 2))]; lra. }
  destruct (Rlt_dec (fmod a (p * 2)) 0).
  - split; [lra|]. exists (1 - k)%Z. rewrite minus_IZR. lra.
  - split; [lra|]. exists (- k)%Z. rewrite opp_IZR. lra.
Qed.

Lemma normpi_spec p a : 0 < p ->
  - p <= NormToPI p exact a < p /\ same_direction p (NormToPI p exact a) a.
Proof.
  intros Hp. pose proof (norm0_spec p (a + p) Hp) as [A [k E]].
  unfold NormToPI, Norm0To2PI, exact in *. split; [lra|]. exists k. lra.
Qed.

Lemma signed_spec p a b : 0 < p ->
  SignedAngleDiff p exact a b = NormToPI p exact (a - b).
Proof.
  intros Hp. unfold SignedAngleDiff. destruct (normpi_spec p (a - b) Hp).
  rewrite fmod_small by lra. lra.
Qed.

(** the minimal rotation *)
Lemma min_rotation p r s : 0 < p -> - p <= r < p -> same_direction p r s -> Rabs r <= Rabs s.
Proof.
  intros Hp A [k E]. destruct (Z_lt_le_dec k 0) as [K|K]; [|destruct (Z.eq_dec k 0) as [K0|K0]].
  - assert (IZR k <= -1) by (apply IZR_le; lia). 
    unfold Rabs. destruct (Rcase_abs r), (Rcase_abs s); nra.
  - rewrite K0 in E. assert (Q : r = s) by lra. rewrite Q. lra.
  - assert (1 <= IZR k) by (apply IZR_le; lia).
    unfold Rabs. destruct (Rcase_abs r), (Rcase_abs s); nra.
Qed.
