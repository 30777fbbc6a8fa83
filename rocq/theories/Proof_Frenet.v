(** Lemmas for C26. *)
From Coq Require Import Reals List Bool ZArith Lra Lia Psatz.
From Verif Require Import Base_Real Base_Geom Model_Angle Spec_Angle Proof_Angle Props_Angle Model_Line Spec_Line Proof_Line Props_Line Props_Line2 Model_Shape Model_Frenet Spec_Frenet.
Import ListNotations.
Local Open Scope R_scope.

Lemma cos_Zperiod x k : cos (x + IZR k * (2 * PI)) = cos x.
Proof.
  destruct (Z_le_gt_dec 0 k) as [H|H].
  - rewrite <- (Z2Nat.id k H), <- INR_IZR_INZ.
    replace (x + INR (Z.to_nat k) * (2 * PI)) with (x + 2 * INR (Z.to_nat k) * PI) by ring. apply cos_period.
  - set (n := Z.to_nat (- k)). assert (E : IZR k = - INR n).
    { unfold n. rewrite INR_IZR_INZ, Z2Nat.id by lia. rewrite opp_IZR. ring. }
    rewrite E. rewrite <- (cos_period (x + - INR n * (2 * PI)) n). f_equal. ring.
Qed.
Lemma sin_Zperiod x k : sin (x + IZR k * (2 * PI)) = sin x.
Proof.
  rewrite !sin_cos. rewrite <- (cos_Zperiod (PI / 2 + x) k). do 2 f_equal. ring.
Qed.
Lemma same_dir_cos a b : same_direction PI a b -> cos a = cos b.
Proof. intros [k ->]. apply cos_Zperiod. Qed.
Lemma same_dir_sin a b : same_direction PI a b -> sin a = sin b.
Proof. intros [k ->]. apply sin_Zperiod. Qed.
(** Equal cosine and sine mean equal direction. *)
Lemma trig_same_dir a b : cos a = cos b -> sin a = sin b -> same_direction PI a b.
Proof.
  intros C S. pose proof PI_RGT_0 as HP.
  destruct (C20_normtopi PI (a - b) HP) as ([N1 N2] & [k Hk] & _ & _). set (d := NormToPI PI exact (a - b)) in *.
  assert (Cd : cos d = 1).
  { rewrite Hk, cos_Zperiod, cos_minus, C, S. pose proof (sin2_cos2 b) as T. unfold Rsqr in T. lra. }
  assert (d = 0).
  { assert (E2 : 1 - 2 * sin (d/2) * sin (d/2) = 1). { rewrite <- cos_2a_sin. replace (2 * (d/2)) with d by field. exact Cd. }
    assert (Z : sin (d/2) = 0) by nra.
    destruct (Rtotal_order d 0) as [X|[X|X]]; auto; exfalso.
    - assert (0 < sin (- (d/2))) by (apply sin_gt_0; lra). rewrite sin_neg in *. lra.
    - assert (0 < sin (d/2)) by (apply sin_gt_0; lra). lra. }
  exists (- k)%Z. rewrite opp_IZR. lra.
Qed.

Lemma sad_facts a b : - PI <= sad a b < PI /\ cos (sad a b) = cos (a - b) /\ sin (sad a b) = sin (a - b) /\
  same_direction PI (b + sad a b) a.
Proof.
  destruct (C21_signed_angle_difference PI a b PI_RGT_0) as (A & B & _). unfold sad. cbv zeta in *.
  split; [exact A|]. split; [|split; [|exact B]].
  - destruct B as [k B]. replace (SignedAngleDiff PI exact a b) with ((a - b) + IZR k * (2 * PI)) by lra. apply cos_Zperiod.
  - destruct B as [k B]. replace (SignedAngleDiff PI exact a b) with ((a - b) + IZR k * (2 * PI)) by lra. apply sin_Zperiod.
Qed.

Lemma sin_sign d : - PI <= d < PI ->
  (0 < sin d <-> 0 < d) /\ (sin d < 0 <-> - PI < d < 0).
Proof.
  intros H. pose proof PI_RGT_0.
  assert (A : 0 < d -> 0 < sin d) by (intros; apply sin_gt_0; lra).
  assert (B : - PI < d < 0 -> sin d < 0).
  { intros. assert (0 < sin (- d)) by (apply sin_gt_0; lra). rewrite sin_neg in *. lra. }
  assert (Z0 : d = 0 -> sin d = 0) by (intros ->; apply sin_0).
  assert (Zp : d = - PI -> sin d = 0) by (intros ->; rewrite sin_neg, sin_PI; ring).
  split; split; auto; intros.
  - destruct (Rtotal_order d 0) as [X|[X|X]]; auto; exfalso.
    + destruct (Req_dec d (- PI)) as [Y|Y]; [specialize (Zp Y)|specialize (B ltac:(lra))]; lra.
    + specialize (Z0 X). lra.
  - destruct (Rtotal_order d 0) as [X|[X|X]].
    + destruct (Req_dec d (- PI)) as [Y|Y]; [specialize (Zp Y); lra|lra].
    + specialize (Z0 X). lra.
    + specialize (A X). lra.
Qed.

(** Polar form of the vector from the nearest point. *)
Lemma lateral_polar pos near t :
  let d := sad t (atan2 (snd pos - snd near) (fst pos - fst near)) in
  let v := psub pos near in
  left_of_dir t v = - dist pos near * sin d /\ along_dir t v = dist pos near * cos d.
Proof.
  intros d v. unfold d. set (phi := atan2 _ _). destruct (sad_facts t phi) as (_ & C & S & _). rewrite C, S.
  destruct (atan2_polar (fst pos - fst near) (snd pos - snd near)) as [PX PY]. fold phi in PX, PY.
  replace (sqrt _) with (dist pos near) in PX, PY by reflexivity.
  unfold v, left_of_dir, along_dir, psub. cbn [fst snd]. rewrite <- PX, <- PY, cos_minus, sin_minus. split; ring.
Qed.

Lemma lateral_abs pos near t : lateral pos near t = dist pos near * (
  let d := sad t (atan2 (snd pos - snd near) (fst pos - fst near)) in
  if Rltb 0 d then -1 else if Rltb d 0 then 1 else 0).
Proof. unfold lateral. rewrite (dist_sym pos near). reflexivity. Qed.
