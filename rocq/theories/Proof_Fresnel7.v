(** The two formulas of fresnel at the point where they meet. *)
From Coq Require Import Reals List Bool QArith Qreals Qabs Lra Lia Psatz.
From Verif Require Import Base_Real Model_Fresnel Spec_PlanView Proof_Fresnel Proof_Fresnel2 Proof_Fresnel3 Proof_Fresnel4 Proof_Fix Proof_Fresnel5 Proof_Fresnel6.
Import ListNotations.
Local Open Scope R_scope.

Definition zdiv (a b : zball) : zball := zmul a (zinv b).
Lemma zdiv_ok a b x y : zpos b = true -> zin a x -> zin b y -> zin (zdiv a b) (x / y).
Proof. intros P A B. unfold zdiv, Rdiv. apply zmul_ok; [exact A|]. exact (proj2 (zinv_ok _ _ P B)). Qed.

(** sine and cosine of an argument whose square is at most 17 or so *)
Definition zev (p : list Q) (y2 : zball) : zball := zpe (ztab 1 17 p) (zmul y2 (zrat (1 # 17))).
Lemma zev_ok p y2 y : zin y2 y -> zin (zev p y2) (pe p y).
Proof.
  intros Y. unfold zev. rewrite <- (Rmult_1_l (pe p y)), <- re_qr. assert (E17 : Q2R 17 = 17) by q2r.
  apply (zpe_ok 17); [|lra|].
  - assert (E : Q2R (1 # 17) = / 17) by q2r. unfold Rdiv. rewrite <- E. apply zmul_ok; [exact Y|apply zrat_ok].
  - rewrite <- Q2R_1, <- E17. apply ztab_ok.
Qed.
Definition zcos (t : zball) : zball := let t2 := zmul t t in zhull (zev (cp 17) t2) (zev (cp 16) t2).
Definition zsin (t : zball) : zball := let t2 := zmul t t in zhull (zmul t (zev (sp 17) t2)) (zmul t (zev (sp 16) t2)).
Lemma zcos_ok b t : 0 <= t -> zin b t -> zin (zcos b) (cos t).
Proof.
  intros T B. unfold zcos. cbv zeta. apply (zhull_ok _ _ (Cn 17 t) (Cn 16 t)).
  - destruct (taylor 16 t T) as [A _]. destruct (taylor 17 t T) as [C _]. cbn [pow] in A, C. lra.
  - rewrite Cn_pe. apply zev_ok, zmul_ok; exact B.
  - rewrite Cn_pe. apply zev_ok, zmul_ok; exact B.
Qed.
Lemma zsin_ok b t : 0 <= t -> zin b t -> zin (zsin b) (sin t).
Proof.
  intros T B. unfold zsin. cbv zeta. apply (zhull_ok _ _ (Sn 17 t) (Sn 16 t)).
  - destruct (taylor 16 t T) as [_ A]. destruct (taylor 17 t T) as [_ C]. cbn [pow] in A, C. lra.
  - rewrite Sn_pe. apply zmul_ok; [exact B|]. apply zev_ok, zmul_ok; exact B.
  - rewrite Sn_pe. apply zmul_ok; [exact B|]. apply zev_ok, zmul_ok; exact B.
Qed.

(** ** The balls of everything at x = sqrt (41/16) *)
Definition x_q : Q := 1.6007810593582121716%Q.
Definition bx : zball := zwide (zrat x_q) 1300000.
Definition bk : zball := zmul zpi (zrat (41 # 16)).
Definition bt : zball := zdiv (zrat 1) bk.
Definition bu : zball := zdiv (zrat 1) (zmul bk bk).
Definition bth : zball := zmul (zmul zpi (zrat (1 # 2))) (zrat (41 # 16)).
Definition bv : zball := zmul bu zsi.
Definition bcs : zball := zcos bth.
Definition bsn : zball := zsin bth.
Definition bf : zball := zadd (zrat 1) (zopp (zdiv (zmul bu (zpe zfn bv)) (zpe zfd bv))).
Definition bg : zball := zdiv (zmul bt (zpe zgn bv)) (zpe zgd bv).
Definition blc : zball := zadd (zrat (1 # 2)) (zdiv (zadd (zmul bf bsn) (zopp (zmul bg bcs))) (zmul zpi bx)).
Definition bls : zball := zadd (zrat (1 # 2)) (zopp (zdiv (zadd (zmul bf bcs) (zmul bg bsn)) (zmul zpi bx))).
Definition one : zball := zrat 1.
Definition bsc : zball := zdiv (zmul bx (zpe (ztab 1 T0 cN) one)) (zpe (ztab 1 T0 cD) one).
Definition bss : zball := zdiv (zmul (zmul bx (zrat (41 # 16))) (zpe (ztab K12 T0 sN) one)) (zpe (ztab K12 T0 sD) one).
Lemma P1 : zpos bk = true. Proof. vm_compute. reflexivity. Qed.
Lemma P2 : zpos (zmul bk bk) = true. Proof. vm_compute. reflexivity. Qed.
Lemma P3 : zpos (zpe zfd bv) = true. Proof. vm_compute. reflexivity. Qed.
Lemma P4 : zpos (zpe zgd bv) = true. Proof. vm_compute. reflexivity. Qed.
Lemma P5 : zpos (zmul zpi bx) = true. Proof. vm_compute. reflexivity. Qed.
Lemma P6 : zpos (zpe (ztab 1 T0 cD) one) = true. Proof. vm_compute. reflexivity. Qed.
Lemma P7 : zpos (zpe (ztab K12 T0 sD) one) = true. Proof. vm_compute. reflexivity. Qed.
Lemma meet_c : zle (zadd blc (zopp bsc)) 1 10000000000 = true. Proof. vm_compute. reflexivity. Qed.
Lemma meet_s : zle (zadd bls (zopp bss)) 1 10000000000 = true. Proof. vm_compute. reflexivity. Qed.

Lemma q4116 : Q2R (41 # 16) = 41 / 16. Proof. q2r. Qed.
Lemma q12 : Q2R (1 # 2) = / 2. Proof. q2r. Qed.
Lemma bx_ok x : 0 < x -> x * x = 41 / 16 -> zin bx x.
Proof.
  intros X E. unfold bx. apply (zwide_ok _ _ (Q2R x_q)); [apply zrat_ok|].
  assert (B : Rabs (x - Q2R x_q) <= 1e-18).
  { replace (Q2R x_q) with 1.6007810593582121716 by q2r. apply Rabs_le. split; apply Rnot_lt_le; intros L.
    - assert (x < 1.6007810593582121716) by lra. assert (x * x < 1.6007810593582121716 * 1.6007810593582121716) by (apply Rmult_le_0_lt_compat; lra). lra.
    - assert (1.6007810593582121717 < x) by lra. assert (1.6007810593582121717 * 1.6007810593582121717 < x * x) by (apply Rmult_le_0_lt_compat; lra). lra. }
  unfold FZ. apply Rle_trans with (1e-18 * 1208925819614629174706176); [|lra]. apply Rmult_le_compat_r; lra.
Qed.
(** quotients of scaled values *)
Lemma scaled_quot c K p q : K <> 0 -> q <> 0 -> c * (K * p) / (K * q) = c * p / q.
Proof. intros A B. field. split; assumption. Qed.
Lemma meet x : 0 < x -> x * x = 41 / 16 -> Rabs (large_c x - small_c x) <= 1e-10 /\ Rabs (large_s x - small_s x) <= 1e-10.
Proof.
  intros X E. pose proof (bx_ok x X E) as XB. pose proof (zmul_ok _ _ _ _ zpi_ok XB) as PX.
  assert (TE : 41 / 16 * (41 / 16) = Q2R T0) by (rewrite T0_R; lra).
  unfold large_c, large_s, lf, lg, small_c, small_s, th, U, T1. rewrite E, TE.
  assert (BK : zin bk (PI * (41 / 16))) by (rewrite <- q4116; exact (zmul_ok _ _ _ _ zpi_ok (zrat_ok (41 # 16)))).
  assert (ONE : zin one 1) by (rewrite <- Q2R_1 at 1; exact (zrat_ok 1)).
  pose proof (zdiv_ok _ _ _ _ P1 ONE BK) as BT. pose proof (zdiv_ok _ _ _ _ P2 ONE (zmul_ok _ _ _ _ BK BK)) as BU. fold bt in BT. fold bu in BU.
  assert (BTH : zin bth (PI * / 2 * (41 / 16))).
  { rewrite <- q4116, <- q12. exact (zmul_ok _ _ _ _ (zmul_ok _ _ _ _ zpi_ok (zrat_ok (1 # 2))) (zrat_ok (41 # 16))). }
  assert (TN : 0 <= PI * / 2 * (41 / 16)) by (pose proof PI_RGT_0; lra).
  pose proof (zcos_ok _ _ TN BTH) as C. pose proof (zsin_ok _ _ TN BTH) as SN. fold bcs in C. fold bsn in SN.
  assert (UP : 0 <= 1 / (PI * (41 / 16) * (PI * (41 / 16)))).
  { pose proof PI_RGT_0. assert (H41 : 0 < PI * (41 / 16)) by lra. apply Rmult_le_pos; [lra|]. left. apply Rinv_0_lt_compat. exact (Rmult_lt_0_compat _ _ H41 H41). }
  remember (1 / (PI * (41 / 16) * (PI * (41 / 16)))) as u eqn:Hu. clear Hu.
  assert (NZ : Q2R sU <> 0) by (apply Rgt_not_eq, sU_pos).
  pose proof (zmul_ok _ _ _ _ BU zsi_ok) as BV. fold bv in BV. change (u * / Q2R sU) with (u / Q2R sU) in BV.
  pose proof (zpe_ok _ _ _ BV NZ _ _ _ zfn_ok) as EFN. pose proof (zpe_ok _ _ _ BV NZ _ _ _ zfd_ok) as EFD.
  pose proof (zpe_ok _ _ _ BV NZ _ _ _ zgn_ok) as EGN. pose proof (zpe_ok _ _ _ BV NZ _ _ _ zgd_ok) as EGD. rewrite re_qr in EFN, EFD, EGN, EGD.
  pose proof (fD_pos u UP) as DF. pose proof (gD_pos u UP) as DG.
  pose proof (zadd_ok _ _ _ _ ONE (zopp_ok _ _ (zdiv_ok _ _ _ _ P3 (zmul_ok _ _ _ _ BU EFN) EFD))) as F.
  pose proof (zdiv_ok _ _ _ _ P4 (zmul_ok _ _ _ _ BT EGN) EGD) as G.
  rewrite (scaled_quot _ _ _ _ (Rgt_not_eq _ _ KF_pos) (Rgt_not_eq _ _ DF)) in F.
  rewrite (scaled_quot _ _ _ _ (Rgt_not_eq _ _ KG_pos) (Rgt_not_eq _ _ DG)) in G.
  change (zadd one (zopp (zdiv (zmul bu (zpe zfn bv)) (zpe zfd bv)))) with bf in F. fold bg in G. fold (1 - u * pe fN u / pe fD u) in F.
  remember (1 - u * pe fN u / pe fD u) as f eqn:Hf. remember (1 / (PI * (41 / 16)) * pe gN u / pe gD u) as g eqn:Hg. clear Hf Hg.
  remember (cos (PI * / 2 * (41 / 16))) as c eqn:Hc. remember (sin (PI * / 2 * (41 / 16))) as s eqn:Hs. clear Hc Hs.
  assert (T0P : 0 <= Q2R T0) by (left; exact T0_pos). pose proof (cD_pos _ T0P) as DC. pose proof (sD_pos _ T0P) as DS.
  assert (T0N : Q2R T0 <> 0) by (apply Rgt_not_eq, T0_pos).
  assert (V1 : zin one (Q2R T0 / Q2R T0)) by (unfold Rdiv; rewrite Rinv_r by exact T0N; exact ONE).
  assert (R1 : forall p, prel 1 (Q2R T0) (ztab 1 T0 p) (qr p)) by (intros p; rewrite <- Q2R_1; apply ztab_ok).
  assert (R2 : forall p, prel (Q2R K12) (Q2R T0) (ztab K12 T0 p) (qr p)) by (intros p; apply ztab_ok).
  pose proof (zdiv_ok _ _ _ _ P6 (zmul_ok _ _ _ _ XB (zpe_ok _ _ _ V1 T0N _ _ _ (R1 cN))) (zpe_ok _ _ _ V1 T0N _ _ _ (R1 cD))) as SC.
  pose proof (zdiv_ok _ _ _ _ P7 (zmul_ok _ _ _ _ (zmul_ok _ _ _ _ XB (zrat_ok (41 # 16))) (zpe_ok _ _ _ V1 T0N _ _ _ (R2 sN))) (zpe_ok _ _ _ V1 T0N _ _ _ (R2 sD))) as SS.
  rewrite !re_qr in SC, SS. rewrite (scaled_quot _ _ _ _ R1_neq_R0 (Rgt_not_eq _ _ DC)) in SC. rewrite (scaled_quot _ _ _ _ (Rgt_not_eq _ _ K12_R) (Rgt_not_eq _ _ DS)) in SS.
  rewrite q4116 in SS. fold bsc in SC. fold bss in SS.
  pose proof (zadd_ok _ _ _ _ (zrat_ok (1 # 2)) (zdiv_ok _ _ _ _ P5 (zadd_ok _ _ _ _ (zmul_ok _ _ _ _ F SN) (zopp_ok _ _ (zmul_ok _ _ _ _ G C))) PX)) as LC.
  pose proof (zadd_ok _ _ _ _ (zrat_ok (1 # 2)) (zopp_ok _ _ (zdiv_ok _ _ _ _ P5 (zadd_ok _ _ _ _ (zmul_ok _ _ _ _ F C) (zmul_ok _ _ _ _ G SN)) PX))) as LS.
  fold blc in LC. fold bls in LS. rewrite q12 in LC, LS.
  split.
  - pose proof (zle_ok _ _ 1 10000000000 ltac:(lia) (zadd_ok _ _ _ _ LC (zopp_ok _ _ SC)) meet_c) as M. eapply Rle_trans; [exact M|lra].
  - pose proof (zle_ok _ _ 1 10000000000 ltac:(lia) (zadd_ok _ _ _ _ LS (zopp_ok _ _ SS)) meet_s) as M. eapply Rle_trans; [exact M|lra].
Qed.
