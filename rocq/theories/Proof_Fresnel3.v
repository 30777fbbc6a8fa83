(** The rational functions of fresnel, and the formula for small arguments. *)
From Coq Require Import Reals List Bool QArith Qreals Qabs Lra Lia Psatz.
From Verif Require Import Base_Real Model_Fresnel Spec_PlanView Proof_Fresnel Proof_Fresnel2.
Import ListNotations.
Local Open Scope R_scope.

Ltac q2r := repeat (match goal with |- context [Q2R ?q] => let v := eval vm_compute in q in change (Q2R q) with (IZR (Qnum v) * / IZR (Zpos (Qden v))); cbn [Qnum Qden] end); lra.
Definition sN := rev tab_sn.  Definition sD := rev (1%Q :: tab_sd).
Definition cN := rev tab_cn.  Definition cD := rev tab_cd.
Definition fN := rev tab_fn.  Definition fD := rev (1%Q :: tab_fd).
Definition gN := rev tab_gn.  Definition gD := rev (1%Q :: tab_gd).
Lemma D_pos p u : 0 <= u -> nonneg p = true -> Qle_bool (hd 0%Q p) 0 = false -> 0 < pe p u.
Proof.
  intros U N H. destruct p as [|a p]; [cbn in H; discriminate|]. cbn [nonneg forallb] in N. apply andb_true_iff in N. destruct N as [_ N].
  apply pe_pos; auto. cbn [hd] in H. destruct (Qlt_le_dec 0 a) as [X|X]; [apply Qlt_Rlt in X; now rewrite Q2R_0 in X|]. apply Qle_bool_iff in X. congruence.
Qed.
Lemma sD_pos u : 0 <= u -> 0 < pe sD u. Proof. intros U. now apply D_pos. Qed.
Lemma cD_pos u : 0 <= u -> 0 < pe cD u. Proof. intros U. now apply D_pos. Qed.
Lemma fD_pos u : 0 <= u -> 0 < pe fD u. Proof. intros U. now apply D_pos. Qed.
Lemma gD_pos u : 0 <= u -> 0 < pe gD u. Proof. intros U. now apply D_pos. Qed.

(** ** Small arguments *)
Definition small_s (x : R) : R := x * (x * x) * pe sN (x * x * (x * x)) / pe sD (x * x * (x * x)).
Definition small_c (x : R) : R := x * pe cN (x * x * (x * x)) / pe cD (x * x * (x * x)).
Definition T0 : Q := (1681 # 256)%Q.
Lemma Rabs_inv x e : Rabs x <= e -> - e <= x <= e.
Proof. unfold Rabs. destruct (Rcase_abs x); lra. Qed.
Lemma pi_bounds : 3.14159265358979 <= PI <= 3.1415926535898.
Proof.
  pose proof pi_in as B. unfold inb, pi_b, pi_q in B. cbn [fst snd] in B. assert (E2 : Q2R 1e-18 = 1e-18) by q2r. rewrite E2 in B. apply Rabs_inv in B. lra.
Qed.
