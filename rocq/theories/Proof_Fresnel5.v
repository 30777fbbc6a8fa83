(** The accuracy of the formula of fresnel for small arguments. *)
From Coq Require Import Reals List Bool QArith Qreals Qabs Lra Lia Psatz.
From Verif Require Import Base_Real Model_Fresnel Spec_PlanView Proof_Fresnel Proof_Fresnel2 Proof_Fresnel3 Proof_Fix.
Import ListNotations.
Local Open Scope R_scope.

Definition zpi : zball := zwide (zrat pi_q) 1300000.
Lemma zpi_ok : zin zpi PI.
Proof.
  unfold zpi. apply (zwide_ok _ _ (Q2R pi_q)); [apply zrat_ok|]. pose proof pi_in as B. unfold inb, pi_b in B. cbn [fst snd] in B.
  assert (E2 : Q2R 1e-18 = 1e-18) by q2r. rewrite E2 in B. unfold FZ.
  apply Rle_trans with (1e-18 * 1208925819614629174706176); [|lra]. apply Rmult_le_compat_r; lra.
Qed.
Definition zz : zball := let h := zmul zpi (zrat (1 # 2)) in zmul h h.
Lemma half_ok : zin (zmul zpi (zrat (1 # 2))) (PI / 2).
Proof. replace (PI / 2) with (PI * Q2R (1 # 2)) by (replace (Q2R (1 # 2)) with (/ 2) by q2r; reflexivity). apply zmul_ok; [apply zpi_ok|apply zrat_ok]. Qed.
Lemma zz_ok : zin zz (PI / 2 * (PI / 2)).
Proof. unfold zz. cbv zeta. apply zmul_ok; apply half_ok. Qed.
Lemma zm1_ok : zin (zrat (-1)) (-1).
Proof. assert (E : Q2R (-1) = -1) by q2r. rewrite <- E. apply zrat_ok. Qed.

Lemma rat_close_R p q a e t : 0 < re q t -> Rabs (re (radd p (rscale (-1) (rmul q a))) t) <= e * re q t -> Rabs (re p t / re q t - re a t) <= e.
Proof.
  intros P H. rewrite re_add, re_scale, re_mul in H.
  replace (re p t / re q t - re a t) with ((re p t + -1 * (re q t * re a t)) * / re q t) by (field; lra).
  rewrite Rabs_mult, (Rabs_pos_eq (/ _)) by (left; now apply Rinv_0_lt_compat). apply Rmult_le_reg_r with (re q t); [assumption|].
  rewrite Rmult_assoc, Rinv_l by lra. lra.
Qed.
Lemma T0_R : Q2R T0 = 1681 / 256. Proof. q2r. Qed.
Definition check_c (n : nat) : Z := zcarry 1801 1000000000000 (zpadd (ztab 1 T0 cN) (zpscale (zrat (-1)) (zpmul (ztab 1 T0 cD) (zpsub zz (ztab 1 T0 (ap n)))))) (ztab 1 T0 cD).
Definition check_s (n : nat) : Z := zcarry 9 100000000000 (zpadd (ztab (1 # 1000000000000) T0 sN)
  (zpscale (zrat (-1)) (zpmul (ztab (1 # 1000000000000) T0 sD) (zpscale (zmul zpi (zrat (1 # 2))) (zpsub zz (ztab 1 T0 (bp n))))))) (ztab (1 # 1000000000000) T0 sD).
Lemma cs_c10 : (check_c 10 =? 0)%Z = true. Proof. vm_compute. reflexivity. Qed.
Lemma cs_c11 : (check_c 11 =? 0)%Z = true. Proof. vm_compute. reflexivity. Qed.
Lemma cs_s10 : (check_s 10 =? 0)%Z = true. Proof. vm_compute. reflexivity. Qed.
Lemma cs_s11 : (check_s 11 =? 0)%Z = true. Proof. vm_compute. reflexivity. Qed.
Lemma x_small x : 0 <= x -> x * x <= 41 / 16 -> 0 <= x <= 1.601 /\ 0 <= x * x * (x * x) <= Q2R T0.
Proof. intros X L. replace (Q2R T0) with (1681 / 256) by q2r. split; [split; [lra|]|split]; try nra. Qed.
Lemma Rabs_scale k d e : 0 <= k -> Rabs d <= e -> Rabs (k * d) <= k * e.
Proof. intros K D. rewrite Rabs_mult, (Rabs_pos_eq k) by assumption. now apply Rmult_le_compat_l. Qed.
Lemma T0_pos : 0 < Q2R T0. Proof. rewrite T0_R. lra. Qed.
Lemma small_c_TC n x : 0 <= x -> x * x <= 41 / 16 -> (check_c n =? 0)%Z = true -> Rabs (small_c x - TC n x) <= 2.9e-9.
Proof.
  intros X L C. destruct (x_small x X L) as [X1 T]. unfold small_c. rewrite TC_pe. set (t := x * x * (x * x)) in *. pose proof (cD_pos t (proj1 T)) as DP.
  assert (A : Rabs (pe cN t / pe cD t - pe (ap n) (PI / 2 * (PI / 2) * t)) <= 1.801e-9).
  { rewrite <- !re_qr, <- re_sub. rewrite <- re_qr in DP. apply rat_close_R; [exact DP|].
    assert (R1 : forall p, prel 1 (Q2R T0) (ztab 1 T0 p) (qr p)) by (intros p; rewrite <- Q2R_1; apply ztab_ok).
    pose proof (zcarry_zero 1801 1000000000000 (Q2R T0) t _ _ _ _ 1 ltac:(lia) ltac:(lia) T0_pos T ltac:(lra)
      (zpadd_ok _ _ _ _ _ _ (R1 cN) (zpscale_ok _ _ _ zm1_ok _ _ _
        (prel_K _ 1 _ _ _ (Rmult_1_l 1) (zpmul_ok _ _ _ _ (zpsub_ok _ _ _ zz_ok _ _ _ (R1 (ap n))) _ _ _ (R1 cD))))) (R1 cD) C) as H.
    eapply Rle_trans; [exact H|]. apply Rmult_le_compat_r; lra. }
  replace (x * pe cN t / pe cD t - x * pe (ap n) (PI / 2 * (PI / 2) * t)) with (x * (pe cN t / pe cD t - pe (ap n) (PI / 2 * (PI / 2) * t))) by (field; lra).
  pose proof (Rabs_scale _ _ _ X A). lra.
Qed.
Definition K12 : Q := 1 # 1000000000000.
Lemma K12_R : 0 < Q2R K12. Proof. q2r. Qed.
Lemma small_s_TS n x : 0 <= x -> x * x <= 41 / 16 -> (check_s n =? 0)%Z = true -> Rabs (small_s x - TS n x) <= 4e-10.
Proof.
  intros X L C. destruct (x_small x X L) as [X1 T]. unfold small_s. rewrite TS_pe. set (t := x * x * (x * x)) in *. pose proof (sD_pos t (proj1 T)) as DP.
  assert (A : Rabs (pe sN t / pe sD t - PI / 2 * pe (bp n) (PI / 2 * (PI / 2) * t)) <= 9e-11).
  { rewrite <- !re_qr, <- re_sub, <- re_scale. rewrite <- re_qr in DP. apply rat_close_R; [exact DP|].
    assert (R1 : forall p, prel 1 (Q2R T0) (ztab 1 T0 p) (qr p)) by (intros p; rewrite <- Q2R_1; apply ztab_ok).
    assert (R2 : forall p, prel (Q2R K12) (Q2R T0) (ztab K12 T0 p) (qr p)) by (intros p; apply ztab_ok).
    pose proof (zcarry_zero 9 100000000000 (Q2R T0) t _ _ _ _ (Q2R K12) ltac:(lia) ltac:(lia) T0_pos T K12_R
      (zpadd_ok _ _ _ _ _ _ (R2 sN) (zpscale_ok _ _ _ zm1_ok _ _ _
        (prel_K _ (Q2R K12) _ _ _ (Rmult_1_r _) (zpmul_ok _ _ _ _ (zpscale_ok _ _ _ half_ok _ _ _ (zpsub_ok _ _ _ zz_ok _ _ _ (R1 (bp n)))) _ _ _ (R2 sD))))) (R2 sD) C) as H.
    eapply Rle_trans; [exact H|]. apply Rmult_le_compat_r; lra. }
  replace (x * (x * x) * pe sN t / pe sD t - x * x * x * (PI / 2) * pe (bp n) (PI / 2 * (PI / 2) * t)) with
    (x * (x * x) * (pe sN t / pe sD t - PI / 2 * pe (bp n) (PI / 2 * (PI / 2) * t))) by (field; lra).
  assert (X3 : 0 <= x * (x * x) <= 4.2) by nra. pose proof (Rabs_scale _ _ _ (proj1 X3) A). lra.
Qed.
Lemma between_close a lo hi v e : lo <= v <= hi -> Rabs (a - lo) <= e -> Rabs (a - hi) <= e -> Rabs (a - v) <= e.
Proof. unfold Rabs. repeat destruct (Rcase_abs _); lra. Qed.
Lemma TC_between FC FS n x : fresnel_integrals FC FS -> FC 0 = 0 -> FS 0 = 0 -> 0 <= x -> (-1) ^ n = 1 -> (TC (S n) x <= FC x <= TC n x) /\ (TS (S n) x <= FS x <= TS n x).
Proof.
  intros F C S X E. destruct (fresnel_taylor FC FS F C S n x X) as [A1 A2]. destruct (fresnel_taylor FC FS F C S (Datatypes.S n) x X) as [B1 B2].
  cbn [pow] in B1, B2. rewrite E in *. lra.
Qed.
Theorem small_accuracy FC FS x : fresnel_integrals FC FS -> FC 0 = 0 -> FS 0 = 0 -> 0 <= x -> x * x <= 41 / 16 ->
  Rabs (small_c x - FC x) <= 2.9e-9 /\ Rabs (small_s x - FS x) <= 4e-10.
Proof.
  intros F C S X L. destruct (TC_between FC FS 10 x F C S X ltac:(cbn; lra)) as [A B]. split.
  - exact (between_close _ _ _ _ _ A (small_c_TC 11 x X L cs_c11) (small_c_TC 10 x X L cs_c10)).
  - exact (between_close _ _ _ _ _ B (small_s_TS 11 x X L cs_s11) (small_s_TS 10 x X L cs_s10)).
Qed.
