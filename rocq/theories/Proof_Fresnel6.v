(** The accuracy of the asymptotic formula of fresnel. *)
From Coq Require Import Reals List Bool QArith Qreals Qabs Qround Lra Lia Psatz.
From Verif Require Import Base_Real Model_Fresnel Spec_PlanView Proof_Fresnel Proof_Fresnel2 Proof_Fresnel3 Proof_Fresnel4 Proof_Fix Proof_Fresnel5.
Import ListNotations.
Local Open Scope R_scope.

Lemma sq_deriv c x : derivable_pt_lim (fun y => c * (y * y)) x (c * (2 * x)).
Proof. replace (2 * x) with (1 * x + x * 1) by ring. apply (derivable_pt_lim_scal (fun y => y * y)). apply (derivable_pt_lim_mult id id); apply derivable_pt_lim_id. Qed.
Lemma T1_deriv x : 0 < x -> derivable_pt_lim T1 x (- 2 / x * T1 x).
Proof.
  intros X. pose proof PI_RGT_0. assert (0 < PI * (x * x)) by (apply Rmult_lt_0_compat; nra).
  replace (- 2 / x * T1 x) with ((0 * (PI * (x * x)) - PI * (2 * x) * 1) / Rsqr (PI * (x * x))) by (unfold T1, Rsqr; field; lra).
  apply (derivable_pt_lim_div (fun _ => 1) (fun y => PI * (y * y))); [apply derivable_pt_lim_const|apply sq_deriv|lra].
Qed.
Lemma U_deriv x : 0 < x -> derivable_pt_lim U x (- 4 / x * U x).
Proof.
  intros X. pose proof PI_RGT_0. assert (0 < PI * (x * x)) by (apply Rmult_lt_0_compat; nra).
  assert (0 < PI * (x * x) * (PI * (x * x))) by (apply Rmult_lt_0_compat; lra).
  replace (- 4 / x * U x) with ((0 * (PI * (x * x) * (PI * (x * x))) - (PI * (2 * x) * (PI * (x * x)) + PI * (x * x) * (PI * (2 * x))) * 1) / Rsqr (PI * (x * x) * (PI * (x * x)))) by (unfold U, Rsqr; field; lra).
  apply (derivable_pt_lim_div (fun _ => 1) (fun y => PI * (y * y) * (PI * (y * y)))); [apply derivable_pt_lim_const| |lra].
  apply (derivable_pt_lim_mult (fun y => PI * (y * y)) (fun y => PI * (y * y))); apply sq_deriv.
Qed.
Lemma pU_deriv p x : 0 < x -> derivable_pt_lim (fun y => pe p (U y)) x (pe (pder p) (U x) * (- 4 / x * U x)).
Proof. intros X. apply (derivable_pt_lim_comp U (pe p)); [now apply U_deriv|apply pe_der]. Qed.
Lemma U_pos x : 0 < x -> 0 < U x.
Proof.
  intros X. pose proof PI_RGT_0. assert (0 < PI * (x * x)) by (apply Rmult_lt_0_compat; nra).
  unfold U, Rdiv. rewrite Rmult_1_l. apply Rinv_0_lt_compat, Rmult_lt_0_compat; lra.
Qed.
Definition lf' (x : R) : R := - (((- 4 / x * U x * pe fN (U x) + U x * (pe (pder fN) (U x) * (- 4 / x * U x))) * pe fD (U x) -
  (pe (pder fD) (U x) * (- 4 / x * U x)) * (U x * pe fN (U x))) / Rsqr (pe fD (U x))).
Definition lg' (x : R) : R := ((- 2 / x * T1 x * pe gN (U x) + T1 x * (pe (pder gN) (U x) * (- 4 / x * U x))) * pe gD (U x) -
  (pe (pder gD) (U x) * (- 4 / x * U x)) * (T1 x * pe gN (U x))) / Rsqr (pe gD (U x)).
Lemma lf_deriv x : 0 < x -> derivable_pt_lim lf x (lf' x).
Proof.
  intros X. pose proof (fD_pos (U x) (Rlt_le _ _ (U_pos x X))).
  apply (ext_deriv (fun y => 1 - U y * pe fN (U y) / pe fD (U y))); [reflexivity|]. unfold lf'. rewrite <- Rminus_0_l.
  apply (derivable_pt_lim_minus (fun _ => 1) (fun y => U y * pe fN (U y) / pe fD (U y))); [apply derivable_pt_lim_const|].
  apply (derivable_pt_lim_div (fun y => U y * pe fN (U y)) (fun y => pe fD (U y))); [|now apply pU_deriv|lra].
  apply (derivable_pt_lim_mult U (fun y => pe fN (U y))); [now apply U_deriv|now apply pU_deriv].
Qed.
Lemma lg_deriv x : 0 < x -> derivable_pt_lim lg x (lg' x).
Proof.
  intros X. pose proof (gD_pos (U x) (Rlt_le _ _ (U_pos x X))).
  apply (ext_deriv (fun y => T1 y * pe gN (U y) / pe gD (U y))); [reflexivity|]. unfold lg'.
  apply (derivable_pt_lim_div (fun y => T1 y * pe gN (U y)) (fun y => pe gD (U y))); [|now apply pU_deriv|lra].
  apply (derivable_pt_lim_mult T1 (fun y => pe gN (U y))); [now apply T1_deriv|now apply pU_deriv].
Qed.
Lemma sin_th x : derivable_pt_lim (fun y => sin (th y)) x (cos (th x) * (PI * / 2 * (2 * x))).
Proof. apply (derivable_pt_lim_comp th sin); [apply sq_deriv|apply derivable_pt_lim_sin]. Qed.
Lemma cos_th x : derivable_pt_lim (fun y => cos (th y)) x (- sin (th x) * (PI * / 2 * (2 * x))).
Proof. apply (derivable_pt_lim_comp th cos); [apply sq_deriv|apply derivable_pt_lim_cos]. Qed.
Lemma PIx_deriv x : derivable_pt_lim (fun y => PI * y) x PI.
Proof. pose proof (derivable_pt_lim_scal id PI x 1 (derivable_pt_lim_id x)) as D. rewrite Rmult_1_r in D. exact D. Qed.
Definition EA x := lf x - lg' x * x * T1 x + lg x * T1 x - 1.
Definition EB x := lg x + lf' x * x * T1 x - lf x * T1 x.
Lemma large_c_deriv x : 0 < x -> derivable_pt_lim large_c x (cos (th x) + (cos (th x) * EA x + sin (th x) * EB x)).
Proof.
  intros X. pose proof PI_RGT_0.
  replace (cos (th x) + (cos (th x) * EA x + sin (th x) * EB x)) with
    (0 + (((lf' x * sin (th x) + lf x * (cos (th x) * (PI * / 2 * (2 * x)))) - (lg' x * cos (th x) + lg x * (- sin (th x) * (PI * / 2 * (2 * x))))) * (PI * x) - PI * (lf x * sin (th x) - lg x * cos (th x))) / Rsqr (PI * x)).
  2:{ unfold EA, EB. generalize (lf x) (lg x) (lf' x) (lg' x) (cos (th x)) (sin (th x)). intros f g f' g' c s. unfold T1, Rsqr. field. lra. }
  apply (derivable_pt_lim_plus (fun _ => / 2) (fun y => (lf y * sin (th y) - lg y * cos (th y)) / (PI * y))); [apply derivable_pt_lim_const|].
  apply (derivable_pt_lim_div (fun y => lf y * sin (th y) - lg y * cos (th y)) (fun y => PI * y)); [|apply PIx_deriv|nra].
  apply (derivable_pt_lim_minus (fun y => lf y * sin (th y)) (fun y => lg y * cos (th y))).
  - apply (derivable_pt_lim_mult lf (fun y => sin (th y))); [now apply lf_deriv|apply sin_th].
  - apply (derivable_pt_lim_mult lg (fun y => cos (th y))); [now apply lg_deriv|apply cos_th].
Qed.
Lemma large_s_deriv x : 0 < x -> derivable_pt_lim large_s x (sin (th x) + (sin (th x) * EA x - cos (th x) * EB x)).
Proof.
  intros X. pose proof PI_RGT_0.
  replace (sin (th x) + (sin (th x) * EA x - cos (th x) * EB x)) with
    (0 - (((lf' x * cos (th x) + lf x * (- sin (th x) * (PI * / 2 * (2 * x)))) + (lg' x * sin (th x) + lg x * (cos (th x) * (PI * / 2 * (2 * x))))) * (PI * x) - PI * (lf x * cos (th x) + lg x * sin (th x))) / Rsqr (PI * x)).
  2:{ unfold EA, EB. generalize (lf x) (lg x) (lf' x) (lg' x) (cos (th x)) (sin (th x)). intros f g f' g' c s. unfold T1, Rsqr. field. lra. }
  apply (derivable_pt_lim_minus (fun _ => / 2) (fun y => (lf y * cos (th y) + lg y * sin (th y)) / (PI * y))); [apply derivable_pt_lim_const|].
  apply (derivable_pt_lim_div (fun y => lf y * cos (th y) + lg y * sin (th y)) (fun y => PI * y)); [|apply PIx_deriv|nra].
  apply (derivable_pt_lim_plus (fun y => lf y * cos (th y)) (fun y => lg y * sin (th y))).
  - apply (derivable_pt_lim_mult lf (fun y => cos (th y))); [now apply lf_deriv|apply cos_th].
  - apply (derivable_pt_lim_mult lg (fun y => sin (th y))); [now apply lg_deriv|apply sin_th].
Qed.
Definition aQ := pmul (pmul gD gD) fD.
Definition aN := padd (pscale 3 (pmul (pmul gN gD) fD)) (padd (pscale 4 (0%Q :: pmul (padd (pmul (pder gN) gD) (pscale (-1) (pmul gN (pder gD)))) fD)) (pscale (-1) (pmul fN (pmul gD gD)))).
Definition bQ := pmul gD (pmul fD fD).
Definition bN := padd (padd (pmul gN (pmul fD fD)) (pscale (-1) (pmul gD (pmul fD fD))))
  (padd (pscale 5 (0%Q :: pmul (pmul fN fD) gD)) (pscale 4 (0%Q :: 0%Q :: pmul (padd (pmul (pder fN) fD) (pscale (-1) (pmul fN (pder fD)))) gD))).
Definition U0 : Q := 0.015431%Q.

(** ** The coefficient-wise checks *)
Definition sU : Q := U0.
Definition KF : Q := 1e20%Q.
Definition KG : Q := 1e22%Q.
Definition zfn := ztab KF sU fN.  Definition zfd := ztab KF sU fD.
Definition zgn := ztab KG sU gN.  Definition zgd := ztab KG sU gD.
Definition zs := zrat sU.
Definition zsi := zrat (1000000 # 15431).
Definition zm := zrat (-1).
Definition zaQ (gd2 : list zball) := zpmul gd2 zfd.
Definition zaN (gd2 : list zball) := zpadd (zpscale (zrat 3) (zpmul (zpmul zgn zgd) zfd))
  (zpadd (zpscale (zrat 4) (zshift zs (zpmul (zpadd (zpmul (zpder zsi zgn) zgd) (zpscale zm (zpmul zgn (zpder zsi zgd)))) zfd))) (zpscale zm (zpmul zfn gd2))).
Definition zbQ (fd2 : list zball) := zpmul zgd fd2.
Definition zbN (fd2 : list zball) := zpadd (zpadd (zpmul zgn fd2) (zpscale zm (zpmul zgd fd2)))
  (zpadd (zpscale (zrat 5) (zshift zs (zpmul (zpmul zfn zfd) zgd)))
     (zpscale (zrat 4) (zshift zs (zshift zs (zpmul (zpadd (zpmul (zpder zsi zfn) zfd) (zpscale zm (zpmul zfn (zpder zsi zfd)))) zgd))))).
Lemma check_a_ok : (zcarry 55 1000000000 (zaN (zpmul zgd zgd)) (zaQ (zpmul zgd zgd)) =? 0)%Z = true. Proof. vm_compute. reflexivity. Qed.
Lemma check_b_ok : (zcarry 15 1000000000 (zbN (zpmul zfd zfd)) (zbQ (zpmul zfd zfd)) =? 0)%Z = true. Proof. vm_compute. reflexivity. Qed.
Lemma check_f_ok : (zcarry 4 1 zfn zfd =? 0)%Z = true. Proof. vm_compute. reflexivity. Qed.
Lemma check_g_ok : (zcarry 2 1 zgn zgd =? 0)%Z = true. Proof. vm_compute. reflexivity. Qed.
Lemma sU_R : Q2R sU = 15431 / 1000000. Proof. q2r. Qed.
Lemma sU_pos : 0 < Q2R sU. Proof. rewrite sU_R. lra. Qed.
Lemma KF_pos : 0 < Q2R KF. Proof. q2r. Qed.
Lemma KG_pos : 0 < Q2R KG. Proof. q2r. Qed.
Lemma zs_ok : zin zs (Q2R sU). Proof. apply zrat_ok. Qed.
Lemma zsi_ok : zin zsi (/ Q2R sU).
Proof. replace (/ Q2R sU) with (Q2R (1000000 # 15431)); [apply zrat_ok|]. rewrite sU_R. replace (Q2R (1000000 # 15431)) with (1000000 / 15431) by q2r. field. Qed.
Lemma U0_sU u : 0 <= u <= Q2R U0 -> 0 <= u <= Q2R sU.
Proof. exact (fun H => H). Qed.
Lemma zfn_ok : prel (Q2R KF) (Q2R sU) zfn (qr fN). Proof. apply ztab_ok. Qed.
Lemma zfd_ok : prel (Q2R KF) (Q2R sU) zfd (qr fD). Proof. apply ztab_ok. Qed.
Lemma zgn_ok : prel (Q2R KG) (Q2R sU) zgn (qr gN). Proof. apply ztab_ok. Qed.
Lemma zgd_ok : prel (Q2R KG) (Q2R sU) zgd (qr gD). Proof. apply ztab_ok. Qed.
Lemma dz K bl p : prel K (Q2R sU) bl p -> prel K (Q2R sU) (zpder zsi bl) (rder p).
Proof. apply zpder_ok; [apply Rgt_not_eq, sU_pos|apply zsi_ok]. Qed.
Lemma mz K L bl cl p q M : M = K * L -> prel K (Q2R sU) bl p -> prel L (Q2R sU) cl q -> prel M (Q2R sU) (zpmul bl cl) (rmul p q).
Proof. intros -> A B. now apply zpmul_ok. Qed.
Lemma sz k K bl p : prel K (Q2R sU) bl p -> prel K (Q2R sU) (zpscale (zrat k) bl) (rscale (Q2R k) p).
Proof. apply zpscale_ok, zrat_ok. Qed.
Lemma hz K bl p : prel K (Q2R sU) bl p -> prel K (Q2R sU) (zshift zs bl) (0 :: p).
Proof. apply zshift_ok, zs_ok. Qed.
Lemma aN_le u : 0 <= u <= Q2R U0 -> Rabs (pe aN u) <= 5.5e-8 * pe aQ u.
Proof.
  intros HU. apply U0_sU in HU. rewrite <- !re_qr.
  assert (EN : prel ((Q2R KG) * (Q2R KG) * (Q2R KF)) (Q2R sU) (zaN (zpmul zgd zgd)) (qr aN)).
  { unfold zaN, aN. rewrite !qr_add, !qr_scale, !qr_cons, !qr_mul, !qr_add, !qr_scale, !qr_mul, !qr_der, Q2R_0. apply zpadd_ok; [|apply zpadd_ok].
    - apply sz. apply (mz ((Q2R KG) * (Q2R KG)) (Q2R KF)); [reflexivity|apply (mz (Q2R KG) (Q2R KG))|]; auto using zfn_ok, zfd_ok, zgn_ok, zgd_ok.
    - apply sz, hz. apply (mz ((Q2R KG) * (Q2R KG)) (Q2R KF)); [reflexivity|apply zpadd_ok; [|apply sz]; apply (mz (Q2R KG) (Q2R KG)); try reflexivity; try apply dz|]; auto using zfn_ok, zfd_ok, zgn_ok, zgd_ok.
    - apply sz. apply (mz (Q2R KF) ((Q2R KG) * (Q2R KG))); [ring|exact zfn_ok|apply (mz (Q2R KG) (Q2R KG)); auto using zgd_ok]. }
  assert (EQ : prel ((Q2R KG) * (Q2R KG) * (Q2R KF)) (Q2R sU) (zaQ (zpmul zgd zgd)) (qr aQ)).
  { unfold zaQ, aQ. rewrite !qr_mul. apply (mz ((Q2R KG) * (Q2R KG)) (Q2R KF)); [reflexivity|apply (mz (Q2R KG) (Q2R KG))|]; auto using zfd_ok, zgd_ok. }
  assert (KP : 0 < (Q2R KG) * (Q2R KG) * (Q2R KF)) by exact (Rmult_lt_0_compat _ _ (Rmult_lt_0_compat _ _ KG_pos KG_pos) KF_pos).
  eapply Rle_trans; [exact (zcarry_zero 55 1000000000 _ u _ _ _ _ _ ltac:(lia) ltac:(lia) sU_pos HU KP EN EQ check_a_ok)|right; f_equal; lra].
Qed.
Lemma bN_le u : 0 <= u <= Q2R U0 -> Rabs (pe bN u) <= 1.5e-8 * pe bQ u.
Proof.
  intros HU. apply U0_sU in HU. rewrite <- !re_qr.
  assert (F2 : prel ((Q2R KF) * (Q2R KF)) (Q2R sU) (zpmul zfd zfd) (rmul (qr fD) (qr fD))) by (apply (mz (Q2R KF) (Q2R KF)); auto using zfd_ok).
  assert (EN : prel ((Q2R KG) * ((Q2R KF) * (Q2R KF))) (Q2R sU) (zbN (zpmul zfd zfd)) (qr bN)).
  { unfold zbN, bN. rewrite !qr_add, !qr_scale, !qr_cons, !qr_mul, !qr_add, !qr_scale, !qr_mul, !qr_der, Q2R_0. apply zpadd_ok; apply zpadd_ok.
    - apply (mz (Q2R KG) ((Q2R KF) * (Q2R KF))); auto using zgn_ok.
    - apply sz. apply (mz (Q2R KG) ((Q2R KF) * (Q2R KF))); auto using zgd_ok.
    - apply sz, hz. apply (mz ((Q2R KF) * (Q2R KF)) (Q2R KG)); [ring|apply (mz (Q2R KF) (Q2R KF))|]; auto using zfn_ok, zfd_ok, zgd_ok.
    - apply sz, hz, hz. apply (mz ((Q2R KF) * (Q2R KF)) (Q2R KG)); [ring|apply zpadd_ok; [|apply sz]; apply (mz (Q2R KF) (Q2R KF)); try reflexivity; try apply dz|]; auto using zfn_ok, zfd_ok, zgd_ok. }
  assert (EQ : prel ((Q2R KG) * ((Q2R KF) * (Q2R KF))) (Q2R sU) (zbQ (zpmul zfd zfd)) (qr bQ)).
  { unfold zbQ, bQ. rewrite !qr_mul. apply (mz (Q2R KG) ((Q2R KF) * (Q2R KF))); auto using zgd_ok. }
  assert (KP : 0 < (Q2R KG) * ((Q2R KF) * (Q2R KF))) by exact (Rmult_lt_0_compat _ _ KG_pos (Rmult_lt_0_compat _ _ KF_pos KF_pos)).
  eapply Rle_trans; [exact (zcarry_zero 15 1000000000 _ u _ _ _ _ _ ltac:(lia) ltac:(lia) sU_pos HU KP EN EQ check_b_ok)|right; f_equal; lra].
Qed.
Lemma fN_le u : 0 <= u <= Q2R U0 -> Rabs (pe fN u) <= 4 * pe fD u.
Proof.
  intros HU. apply U0_sU in HU. rewrite <- !re_qr.
  eapply Rle_trans; [exact (zcarry_zero 4 1 _ u _ _ _ _ _ ltac:(lia) ltac:(lia) sU_pos HU KF_pos zfn_ok zfd_ok check_f_ok)|right; f_equal; lra].
Qed.
Lemma gN_le u : 0 <= u <= Q2R U0 -> Rabs (pe gN u) <= 2 * pe gD u.
Proof.
  intros HU. apply U0_sU in HU. rewrite <- !re_qr.
  eapply Rle_trans; [exact (zcarry_zero 2 1 _ u _ _ _ _ _ ltac:(lia) ltac:(lia) sU_pos HU KG_pos zgn_ok zgd_ok check_g_ok)|right; f_equal; lra].
Qed.
Lemma Q2R_q3 : Q2R 3 = 3. Proof. q2r. Qed.
Lemma Q2R_q4 : Q2R 4 = 4. Proof. q2r. Qed.
Lemma Q2R_q5 : Q2R 5 = 5. Proof. q2r. Qed.
Lemma Q2R_m1 : Q2R (-1) = -1. Proof. q2r. Qed.
Lemma UT x : 0 < x -> U x = T1 x * T1 x.
Proof. intros X. pose proof PI_RGT_0. unfold U, T1. field. nra. Qed.
Lemma EA_eq x : 0 < x -> EA x = U x * (pe aN (U x) / pe aQ (U x)).
Proof.
  intros X. pose proof (fD_pos (U x) (Rlt_le _ _ (U_pos x X))) as F. pose proof (gD_pos (U x) (Rlt_le _ _ (U_pos x X))) as G.
  unfold EA, lf, lg, lg', aN, aQ. rewrite !pe_add, !pe_scale. cbn [pe]. rewrite !pe_mul, !pe_add, !pe_scale, !pe_mul, Q2R_q3, Q2R_q4, Q2R_m1, Q2R_0.
  generalize dependent (pe fD (U x)). generalize dependent (pe gD (U x)). generalize (pe fN (U x)) (pe gN (U x)) (pe (pder gN) (U x)) (pe (pder gD) (U x)).
  intros fn gn gn' gd' gd G fd F. rewrite (UT x X). generalize (T1 x). intros t. unfold Rsqr. field. lra.
Qed.
Lemma EB_eq x : 0 < x -> EB x = T1 x * (pe bN (U x) / pe bQ (U x)).
Proof.
  intros X. pose proof (fD_pos (U x) (Rlt_le _ _ (U_pos x X))) as F. pose proof (gD_pos (U x) (Rlt_le _ _ (U_pos x X))) as G.
  unfold EB, lf, lg, lf', bN, bQ. rewrite !pe_add, !pe_scale. cbn [pe]. rewrite !pe_mul, !pe_add, !pe_scale, !pe_mul, Q2R_q5, Q2R_q4, Q2R_m1, Q2R_0.
  generalize dependent (pe fD (U x)). generalize dependent (pe gD (U x)). generalize (pe fN (U x)) (pe gN (U x)) (pe (pder fN) (U x)) (pe (pder fD) (U x)).
  intros fn gn fn' fd' gd G fd F. rewrite (UT x X). generalize (T1 x). intros t. unfold Rsqr. field. lra.
Qed.
Lemma U_small x : 0 < x -> 41 / 16 <= x * x -> 0 < T1 x <= 0.12422 /\ 0 < U x <= Q2R U0.
Proof.
  intros X L. pose proof pi_bounds as PB. assert (0 < T1 x <= 0.12422).
  { assert (8.05033 <= PI * (x * x)) by nra. unfold T1, Rdiv. rewrite Rmult_1_l. split; [apply Rinv_0_lt_compat; lra|].
    apply Rle_trans with (/ 8.05033); [apply Rinv_le_contravar; lra|lra]. }
  split; [assumption|]. split; [now apply U_pos|]. rewrite UT by assumption. replace (Q2R U0) with 0.015431 by reflexivity. nra.
Qed.
Lemma ratio_bound p q e u : 0 < pe q u -> Rabs (pe p u) <= e * pe q u -> Rabs (pe p u / pe q u) <= e.
Proof.
  intros P H. unfold Rdiv. rewrite Rabs_mult, (Rabs_pos_eq (/ _)) by (left; now apply Rinv_0_lt_compat).
  apply Rmult_le_reg_r with (pe q u); [assumption|]. rewrite Rmult_assoc, Rinv_l by lra. lra.
Qed.
Lemma aQ_pos u : 0 <= u -> 0 < pe aQ u.
Proof. intros H. unfold aQ. rewrite !pe_mul. pose proof (fD_pos u H). pose proof (gD_pos u H). repeat apply Rmult_lt_0_compat; assumption. Qed.
Lemma bQ_pos u : 0 <= u -> 0 < pe bQ u.
Proof. intros H. unfold bQ. rewrite !pe_mul. pose proof (fD_pos u H). pose proof (gD_pos u H). repeat apply Rmult_lt_0_compat; assumption. Qed.
Lemma EAB_bound x : 0 < x -> 41 / 16 <= x * x -> Rabs (EA x) + Rabs (EB x) <= 2.2e-8 * T1 x.
Proof.
  intros X L. destruct (U_small x X L) as [T HU].
  assert (HU' : 0 <= U x <= Q2R U0) by lra.
  pose proof (ratio_bound _ _ _ _ (aQ_pos _ (proj1 HU')) (aN_le _ HU')) as A.
  pose proof (ratio_bound _ _ _ _ (bQ_pos _ (proj1 HU')) (bN_le _ HU')) as B.
  rewrite EA_eq, EB_eq, !Rabs_mult by assumption. rewrite (Rabs_pos_eq (U x)), (Rabs_pos_eq (T1 x)) by lra.
  rewrite (UT x X) at 1.
  set (a := Rabs (pe aN (U x) / pe aQ (U x))) in *. set (b := Rabs (pe bN (U x) / pe bQ (U x))) in *.
  assert (0 <= a) by apply Rabs_pos. assert (0 <= b) by apply Rabs_pos. clearbody a b.
  assert (T1 x * a <= 0.12422 * 5.5e-8) by (apply Rmult_le_compat; lra). assert (T1 x * (T1 x * a + b) <= T1 x * 2.2e-8) by (apply Rmult_le_compat_l; lra). lra.
Qed.
(** two functions with close derivatives *)
Lemma drift F G e x0 x k : 0 < x0 <= x -> 0 <= k ->
  (forall z, x0 <= z -> derivable_pt_lim F z (e z)) -> (forall z, x0 <= z -> Rabs (e z - G z) <= k * T1 z) ->
  forall H, (forall z, derivable_pt_lim H z (G z)) -> Rabs ((F x - H x) - (F x0 - H x0)) <= k / (PI * x0).
Proof.
  intros X K DF B H DH. pose proof PI_RGT_0 as P.
  assert (DI : forall z, 0 < z -> derivable_pt_lim (fun y => - (k / (PI * y))) z (k * T1 z)).
  { intros z Z. assert (0 < PI * z) by (apply Rmult_lt_0_compat; lra). replace (k * T1 z) with (- ((0 * (PI * z) - PI * k) / Rsqr (PI * z))) by (unfold T1, Rsqr; field; lra).
    apply (derivable_pt_lim_opp (fun y => k / (PI * y))). apply (derivable_pt_lim_div (fun _ => k) (fun y => PI * y)); [apply derivable_pt_lim_const|apply PIx_deriv|lra]. }
  assert (LB : forall s, s = 1 \/ s = -1 -> s * (F x0 - H x0) - k / (PI * x0) <= s * (F x - H x) - k / (PI * x)).
  { intros s S. apply (mono_on x0 x (fun y => s * (F y - H y) - k / (PI * y)) (fun z => s * (e z - G z) + k * T1 z)); [lra| |].
    - intros z Z. apply (derivable_pt_lim_plus (fun y => s * (F y - H y)) (fun y => - (k / (PI * y)))); [|apply DI; lra].
      apply (derivable_pt_lim_scal (fun y => F y - H y)). apply (derivable_pt_lim_minus F H); [apply DF; lra|apply DH].
    - intros z Z. specialize (B z ltac:(lra)). apply Rabs_inv in B. destruct S as [-> | ->]; lra. }
  assert (0 <= k / (PI * x)). { apply Rmult_le_pos; [lra|]. left. apply Rinv_0_lt_compat, Rmult_lt_0_compat; lra. }
  pose proof (LB 1 ltac:(auto)). pose proof (LB (-1) ltac:(auto)). apply Rabs_le. lra.
Qed.
Lemma cs_comb c s a b : Rabs c <= 1 -> Rabs s <= 1 -> Rabs (c * a + s * b) <= Rabs a + Rabs b /\ Rabs (s * a - c * b) <= Rabs a + Rabs b.
Proof.
  intros C S. pose proof (Rabs_pos a). pose proof (Rabs_pos b). split.
  - eapply Rle_trans; [apply Rabs_triang|]. rewrite !Rabs_mult. apply Rplus_le_compat; nra.
  - unfold Rminus. eapply Rle_trans; [apply Rabs_triang|]. rewrite Rabs_Ropp, !Rabs_mult. apply Rplus_le_compat; nra.
Qed.
Lemma trig_abs t : Rabs (cos t) <= 1 /\ Rabs (sin t) <= 1.
Proof. pose proof (COS_bound t). pose proof (SIN_bound t). split; apply Rabs_le; lra. Qed.
Lemma large_drift FC FS x0 x : fresnel_integrals FC FS -> 0 < x0 <= x -> 41 / 16 <= x0 * x0 ->
  Rabs ((large_c x - FC x) - (large_c x0 - FC x0)) <= 2.2e-8 / (PI * x0) /\ Rabs ((large_s x - FS x) - (large_s x0 - FS x0)) <= 2.2e-8 / (PI * x0).
Proof.
  intros F X L. assert (TH : forall z, th z = PI / 2 * z * z) by (intros z; unfold th; lra). split.
  - apply (drift large_c (fun z => cos (PI / 2 * z * z)) (fun z => cos (th z) + (cos (th z) * EA z + sin (th z) * EB z))); [lra|lra| | |apply F].
    + intros z Z. apply large_c_deriv. lra.
    + intros z Z. rewrite <- TH. replace (cos (th z) + (cos (th z) * EA z + sin (th z) * EB z) - cos (th z)) with (cos (th z) * EA z + sin (th z) * EB z) by ring.
      destruct (trig_abs (th z)) as [C S]. eapply Rle_trans; [apply (cs_comb _ _ _ _ C S)|]. apply EAB_bound; nra.
  - apply (drift large_s (fun z => sin (PI / 2 * z * z)) (fun z => sin (th z) + (sin (th z) * EA z - cos (th z) * EB z))); [lra|lra| | |apply F].
    + intros z Z. apply large_s_deriv. lra.
    + intros z Z. rewrite <- TH. replace (sin (th z) + (sin (th z) * EA z - cos (th z) * EB z) - sin (th z)) with (sin (th z) * EA z - cos (th z) * EB z) by ring.
      destruct (trig_abs (th z)) as [C S]. eapply Rle_trans; [apply (cs_comb _ _ _ _ C S)|]. apply EAB_bound; nra.
Qed.
