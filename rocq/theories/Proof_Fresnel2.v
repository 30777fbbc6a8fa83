(** Taylor bounds for cosine, sine and the Fresnel integrals. *)
From Coq Require Import Reals List Bool QArith Qreals Qabs Lra Lia Psatz.
From Verif Require Import Base_Real Model_Fresnel Spec_PlanView Proof_Fresnel.
Import ListNotations.
Local Open Scope R_scope.

Lemma mono_on a b F f : a <= b -> (forall x, a <= x <= b -> derivable_pt_lim F x (f x)) -> (forall x, a <= x <= b -> 0 <= f x) -> F a <= F b.
Proof.
  intros L D P. destruct L as [L|<-]; [|lra]. destruct (MVT_cor2 F f a b L D) as (c & E & I). pose proof (P c ltac:(lra)).
  assert (0 <= f c * (b - a)) by (apply Rmult_le_pos; lra). lra.
Qed.
Definition ct (k : nat) (y : R) : R := (-1) ^ k * / INR (fact (2 * k)) * y ^ (2 * k).
Definition st (k : nat) (y : R) : R := (-1) ^ k * / INR (fact (2 * k + 1)) * y ^ (2 * k + 1).
Definition Cn (n : nat) (y : R) : R := sum_f_R0 (fun k => ct k y) n.
Definition Sn (n : nat) (y : R) : R := sum_f_R0 (fun k => st k y) n.
Lemma ext_deriv (f g : R -> R) x l : (forall y, f y = g y) -> derivable_pt_lim f x l -> derivable_pt_lim g x l.
Proof. intros E D e P. destruct (D e P) as [d H]. exists d. intros h N L. rewrite <- !E. now apply H. Qed.
Lemma mono_deriv c m x : derivable_pt_lim (fun y => c * y ^ m) x (c * (INR m * x ^ pred m)).
Proof. apply (derivable_pt_lim_scal (fun y => y ^ m)). apply derivable_pt_lim_pow. Qed.
Lemma fact_S n : INR (fact (S n)) = INR (S n) * INR (fact n).
Proof. now rewrite <- mult_INR. Qed.
Lemma INR_S_pos n : 0 < INR (S n).
Proof. apply lt_0_INR. lia. Qed.
Lemma ct_deriv k x : derivable_pt_lim (ct (S k)) x (- st k x).
Proof.
  replace (- st k x) with ((-1) ^ S k * / INR (fact (2 * S k)) * (INR (2 * S k) * x ^ pred (2 * S k))); [apply mono_deriv|].
  unfold st. replace (2 * S k)%nat with (S (2 * k + 1)) by lia. rewrite fact_S. cbn [pred pow]. pose proof (INR_S_pos (2 * k + 1)). pose proof (INR_fact_lt_0 (2 * k + 1)). field. lra.
Qed.
Lemma st_deriv k x : derivable_pt_lim (st k) x (ct k x).
Proof.
  replace (ct k x) with ((-1) ^ k * / INR (fact (2 * k + 1)) * (INR (2 * k + 1) * x ^ pred (2 * k + 1))); [apply mono_deriv|].
  unfold ct. replace (2 * k + 1)%nat with (S (2 * k)) by lia. rewrite fact_S. cbn [pred]. pose proof (INR_S_pos (2 * k)). pose proof (INR_fact_lt_0 (2 * k)). field. lra.
Qed.
Lemma Sn_deriv n x : derivable_pt_lim (Sn n) x (Cn n x).
Proof.
  induction n as [|n IH]; [apply (st_deriv 0)|]. apply (derivable_pt_lim_plus (Sn n) (st (S n))); [apply IH|apply st_deriv].
Qed.
Lemma Cn_deriv n x : derivable_pt_lim (Cn (S n)) x (- Sn n x).
Proof.
  induction n as [|n IH].
  - apply (ext_deriv (fun y => 1 + ct 1 y)). { intros y. unfold Cn. cbn [sum_f_R0]. f_equal. unfold ct. cbn. lra. }
    replace (- Sn 0 x) with (0 + - st 0 x) by (unfold Sn; cbn [sum_f_R0]; lra). apply (derivable_pt_lim_plus (fun _ => 1) (ct 1)); [apply derivable_pt_lim_const|apply ct_deriv].
  - replace (- Sn (S n) x) with (- Sn n x + - st (S n) x) by (unfold Sn; cbn [sum_f_R0]; lra). apply (derivable_pt_lim_plus (Cn (S n)) (ct (S (S n)))); [apply IH|apply ct_deriv].
Qed.
Lemma Cn_0 n : Cn n 0 = 1.
Proof. induction n as [|n IH]; [cbv [Cn ct sum_f_R0]; cbn; lra|]. unfold Cn in *. cbn [sum_f_R0]. rewrite IH. unfold ct. rewrite (pow_ne_zero (2 * S n)) by lia. lra. Qed.
Lemma Sn_0 n : Sn n 0 = 0.
Proof. induction n as [|n IH]; [cbv [Sn st sum_f_R0]; cbn; lra|]. unfold Sn in *. cbn [sum_f_R0]. rewrite IH. unfold st. rewrite (pow_ne_zero (2 * S n + 1)) by lia. lra. Qed.
Lemma sgn_cases n : (-1) ^ n = 1 \/ (-1) ^ n = -1.
Proof. induction n as [|n [E|E]]; cbn; [left; lra|right; rewrite E; lra|left; rewrite E; lra]. Qed.
Lemma taylor n : forall y, 0 <= y -> 0 <= (-1) ^ n * (Cn n y - cos y) /\ 0 <= (-1) ^ n * (Sn n y - sin y).
Proof.
  assert (SS : forall n, (forall y, 0 <= y -> 0 <= (-1) ^ n * (Cn n y - cos y)) -> forall y, 0 <= y -> 0 <= (-1) ^ n * (Sn n y - sin y)).
  { intros m H y Y. pose proof (mono_on 0 y (fun z => (-1) ^ m * (Sn m z - sin z)) (fun z => (-1) ^ m * (Cn m z - cos z)) Y) as M. cbv beta in M.
    rewrite Sn_0, sin_0 in M. replace ((-1) ^ m * (0 - 0)) with 0 in M by ring. apply M; [|intros; apply H; lra].
    intros x _. apply (derivable_pt_lim_scal (fun z => Sn m z - sin z)). apply (derivable_pt_lim_minus (Sn m) sin); [apply Sn_deriv|apply derivable_pt_lim_sin]. }
  assert (CC : forall y, 0 <= y -> 0 <= (-1) ^ n * (Cn n y - cos y)); [|intros y Y; split; [now apply CC|now apply SS]].
  induction n as [|n IH]; intros y Y.
  - unfold Cn, ct. cbn. pose proof (COS_bound y). lra.
  - pose proof (mono_on 0 y (fun z => (-1) ^ S n * (Cn (S n) z - cos z)) (fun z => (-1) ^ n * (Sn n z - sin z)) Y) as M. cbv beta in M.
    rewrite Cn_0, cos_0 in M. replace ((-1) ^ S n * (1 - 1)) with 0 in M by ring. apply M; [|intros; apply SS; [exact IH|lra]].
    intros x _. replace ((-1) ^ n * (Sn n x - sin x)) with ((-1) ^ S n * (- Sn n x - - sin x)) by (cbn [pow]; ring).
    apply (derivable_pt_lim_scal (fun z => Cn (S n) z - cos z)). apply (derivable_pt_lim_minus (Cn (S n)) cos); [apply Cn_deriv|apply derivable_pt_lim_cos].
Qed.

(** the Fresnel integrals *)
Definition tc (k : nat) (x : R) : R := (-1) ^ k * / INR (fact (2 * k)) * (PI / 2) ^ (2 * k) * / INR (4 * k + 1) * x ^ (4 * k + 1).
Definition ts (k : nat) (x : R) : R := (-1) ^ k * / INR (fact (2 * k + 1)) * (PI / 2) ^ (2 * k + 1) * / INR (4 * k + 3) * x ^ (4 * k + 3).
Definition TC (n : nat) (x : R) : R := sum_f_R0 (fun k => tc k x) n.
Definition TS (n : nat) (x : R) : R := sum_f_R0 (fun k => ts k x) n.
Lemma tc_deriv k x : derivable_pt_lim (tc k) x (ct k (PI / 2 * x * x)).
Proof.
  replace (ct k (PI / 2 * x * x)) with ((-1) ^ k * / INR (fact (2 * k)) * (PI / 2) ^ (2 * k) * / INR (4 * k + 1) * (INR (4 * k + 1) * x ^ pred (4 * k + 1))); [apply mono_deriv|].
  unfold ct. rewrite !Rpow_mult_distr. replace (pred (4 * k + 1)) with (2 * k + 2 * k)%nat by lia. rewrite (pow_add x (2 * k)).
  pose proof (INR_fact_lt_0 (2 * k)). replace (4 * k + 1)%nat with (S (4 * k)) by lia. pose proof (INR_S_pos (4 * k)). field. lra.
Qed.
Lemma ts_deriv k x : derivable_pt_lim (ts k) x (st k (PI / 2 * x * x)).
Proof.
  replace (st k (PI / 2 * x * x)) with ((-1) ^ k * / INR (fact (2 * k + 1)) * (PI / 2) ^ (2 * k + 1) * / INR (4 * k + 3) * (INR (4 * k + 3) * x ^ pred (4 * k + 3))); [apply mono_deriv|].
  unfold st. rewrite !Rpow_mult_distr. replace (pred (4 * k + 3)) with ((2 * k + 1) + (2 * k + 1))%nat by lia. rewrite (pow_add x (2 * k + 1) (2 * k + 1)).
  pose proof (INR_fact_lt_0 (2 * k + 1)). replace (4 * k + 3)%nat with (S (4 * k + 2)) by lia. pose proof (INR_S_pos (4 * k + 2)). field. lra.
Qed.
Lemma TC_deriv n x : derivable_pt_lim (TC n) x (Cn n (PI / 2 * x * x)).
Proof. induction n as [|n IH]; [apply (tc_deriv 0)|]. apply (derivable_pt_lim_plus (TC n) (tc (S n))); [apply IH|apply tc_deriv]. Qed.
Lemma TS_deriv n x : derivable_pt_lim (TS n) x (Sn n (PI / 2 * x * x)).
Proof. induction n as [|n IH]; [apply (ts_deriv 0)|]. apply (derivable_pt_lim_plus (TS n) (ts (S n))); [apply IH|apply ts_deriv]. Qed.
Lemma TC_0 n : TC n 0 = 0.
Proof. induction n as [|n IH]; unfold TC in *; cbn [sum_f_R0]; [|rewrite IH]; unfold tc; rewrite (pow_ne_zero (4 * _ + 1)) by lia; lra. Qed.
Lemma TS_0 n : TS n 0 = 0.
Proof. induction n as [|n IH]; unfold TS in *; cbn [sum_f_R0]; [|rewrite IH]; unfold ts; rewrite (pow_ne_zero (4 * _ + 3)) by lia; lra. Qed.
Lemma fresnel_taylor FC FS : fresnel_integrals FC FS -> FC 0 = 0 -> FS 0 = 0 -> forall n x, 0 <= x ->
  0 <= (-1) ^ n * (TC n x - FC x) /\ 0 <= (-1) ^ n * (TS n x - FS x).
Proof.
  intros F C0 S0 n x X. assert (Y : forall z, 0 <= z -> 0 <= PI / 2 * z * z) by (intros z Z; pose proof PI_RGT_0; nra). split.
  - pose proof (mono_on 0 x (fun z => (-1) ^ n * (TC n z - FC z)) (fun z => (-1) ^ n * (Cn n (PI / 2 * z * z) - cos (PI / 2 * z * z))) X) as M. cbv beta in M.
    rewrite TC_0, C0 in M. replace ((-1) ^ n * (0 - 0)) with 0 in M by ring. apply M; [|intros; apply taylor, Y; lra].
    intros z _. apply (derivable_pt_lim_scal (fun z => TC n z - FC z)). apply (derivable_pt_lim_minus (TC n) FC); [apply TC_deriv|apply F].
  - pose proof (mono_on 0 x (fun z => (-1) ^ n * (TS n z - FS z)) (fun z => (-1) ^ n * (Sn n (PI / 2 * z * z) - sin (PI / 2 * z * z))) X) as M. cbv beta in M.
    rewrite TS_0, S0 in M. replace ((-1) ^ n * (0 - 0)) with 0 in M by ring. apply M; [|intros; apply taylor, Y; lra].
    intros z _. apply (derivable_pt_lim_scal (fun z => TS n z - FS z)). apply (derivable_pt_lim_minus (TS n) FS); [apply TS_deriv|apply F].
Qed.

(** The same sums as polynomials with rational coefficients *)
Fixpoint fz (n : nat) : Z := match n with O => 1%Z | S m => (Z.of_nat n * fz m)%Z end.
Lemma fz_ok n : IZR (fz n) = INR (fact n).
Proof. induction n as [|n IH]; [reflexivity|]. change (fz (S n)) with (Z.of_nat (S n) * fz n)%Z. rewrite mult_IZR, IH, <- INR_IZR_INZ. now rewrite fact_S. Qed.
Definition sgnq (k : nat) : Q := if Nat.even k then 1%Q else (-1)%Q.
Lemma sgnq_ok k : Q2R (sgnq k) = (-1) ^ k.
Proof.
  unfold sgnq. destruct (Nat.even k) eqn:EV.
  - apply Nat.even_spec in EV. destruct EV as (j & ->). rewrite pow_1_even. apply Q2R_1.
  - assert (OD : Nat.odd k = true) by (rewrite <- Nat.negb_even, EV; reflexivity). apply Nat.odd_spec in OD. destruct OD as (j & ->).
    replace (2 * j + 1)%nat with (S (2 * j)) by lia. rewrite pow_1_odd. unfold Q2R. cbn. lra.
Qed.
Definition co (m j : nat -> nat) (k : nat) : Q := Qred (sgnq k / inject_Z (fz (m k) * Z.of_nat (j k))).
Lemma co_ok m j k : (0 < j k)%nat -> Q2R (co m j k) = (-1) ^ k * / (INR (fact (m k)) * INR (j k)).
Proof.
  intros J. unfold co. rewrite Q2R_red. assert (E : Q2R (inject_Z (fz (m k) * Z.of_nat (j k))) = INR (fact (m k)) * INR (j k)) by (rewrite Q2R_Z, mult_IZR, fz_ok, <- INR_IZR_INZ; reflexivity).
  assert (P : 0 < INR (fact (m k)) * INR (j k)) by (apply Rmult_lt_0_compat; [apply INR_fact_lt_0|now apply lt_0_INR]).
  rewrite Q2R_div, E, sgnq_ok; [reflexivity|]. intros Z. apply Qeq_eqR in Z. rewrite E, Q2R_0 in Z. lra.
Qed.
Lemma pe_app p q x : pe (p ++ q) x = pe p x + x ^ length p * pe q x.
Proof. induction p as [|a p IH]; cbn [app pe length pow]; [lra|]. rewrite IH. lra. Qed.
Lemma pe_sum f n x : pe (map f (seq 0 (S n))) x = sum_f_R0 (fun k => Q2R (f k) * x ^ k) n.
Proof.
  induction n as [|n IH]; [cbn; lra|]. rewrite seq_S, map_app, pe_app, IH, map_length, seq_length. cbn [sum_f_R0 map pe plus Nat.add]. lra.
Qed.
Definition cp n : list Q := map (co (fun k => 2 * k) (fun _ => 1))%nat (seq 0 (S n)).
Definition sp n : list Q := map (co (fun k => 2 * k + 1) (fun _ => 1))%nat (seq 0 (S n)).
Definition ap n : list Q := map (co (fun k => 2 * k) (fun k => 4 * k + 1))%nat (seq 0 (S n)).
Definition bp n : list Q := map (co (fun k => 2 * k + 1) (fun k => 4 * k + 3))%nat (seq 0 (S n)).
Lemma Cn_pe n y : Cn n y = pe (cp n) (y * y).
Proof.
  unfold cp. rewrite pe_sum. apply sum_eq. intros k _. rewrite co_ok by lia. unfold ct. replace (2 * k)%nat with (k + k)%nat at 2 by lia.
  rewrite pow_add, Rpow_mult_distr. pose proof (INR_fact_lt_0 (2 * k)). cbn [INR]. field. lra.
Qed.
Lemma Sn_pe n y : Sn n y = y * pe (sp n) (y * y).
Proof.
  unfold sp. rewrite pe_sum, scal_sum. apply sum_eq. intros k _. rewrite co_ok by lia. unfold st. replace (2 * k + 1)%nat with (S (k + k)) at 2 by lia. cbn [pow].
  rewrite pow_add, Rpow_mult_distr. pose proof (INR_fact_lt_0 (2 * k + 1)). cbn [INR]. field. lra.
Qed.
Lemma TC_pe n x : TC n x = x * pe (ap n) ((PI / 2) * (PI / 2) * (x * x * (x * x))).
Proof.
  unfold ap. rewrite pe_sum, scal_sum. apply sum_eq. intros k _. rewrite co_ok by lia. unfold tc. replace (4 * k + 1)%nat with (S (k + k + (k + k))) at 2 by lia.
  replace (2 * k)%nat with (k + k)%nat at 2 by lia. cbn [pow].
  rewrite !Rpow_mult_distr, !pow_add. pose proof (INR_fact_lt_0 (2 * k)). replace (4 * k + 1)%nat with (S (4 * k)) by lia. pose proof (INR_S_pos (4 * k)). field. lra.
Qed.
Lemma TS_pe n x : TS n x = x * x * x * (PI / 2) * pe (bp n) ((PI / 2) * (PI / 2) * (x * x * (x * x))).
Proof.
  unfold bp. rewrite pe_sum, scal_sum. apply sum_eq. intros k _. rewrite co_ok by lia. unfold ts. replace (4 * k + 3)%nat with (S (S (S (k + k + (k + k))))) at 2 by lia.
  replace (2 * k + 1)%nat with (S (k + k))%nat at 2 by lia. cbn [pow].
  rewrite !Rpow_mult_distr, !pow_add. pose proof (INR_fact_lt_0 (2 * k + 1)). replace (4 * k + 3)%nat with (S (4 * k + 2)) by lia. pose proof (INR_S_pos (4 * k + 2)). field. lra.
Qed.
