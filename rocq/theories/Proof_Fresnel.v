(** Polynomials, pi, sine and cosine with rational bounds, for Props_Fresnel. *)
From Coq Require Import Reals List Bool QArith Qreals Qabs Lra Lia Psatz Machin Ratan.
From Verif Require Import Base_Real Model_Fresnel.
Import ListNotations.
Local Open Scope R_scope.

(* ------------------------------------------------------------------ *)
(** * Polynomials with rational coefficients, constant first *)
Fixpoint pe (p : list Q) (x : R) : R := match p with [] => 0 | c :: r => Q2R c + x * pe r x end.
Fixpoint padd (p q : list Q) : list Q :=
  match p, q with [], _ => q | _, [] => p | a :: p', b :: q' => Qred (a + b) :: padd p' q' end.
Definition pscale (k : Q) (p : list Q) : list Q := map (fun c => Qred (k * c)) p.
Fixpoint pmul (p q : list Q) : list Q := match p with [] => [] | a :: p' => padd (pscale a q) (0%Q :: pmul p' q) end.
Fixpoint pder (p : list Q) : list Q := match p with [] => [] | _ :: r => padd r (0%Q :: pder r) end.
Fixpoint psubst (k : Q) (p : list Q) : list Q := match p with [] => [] | c :: r => c :: pscale k (psubst k r) end.

Lemma Q2R_red q : Q2R (Qred q) = Q2R q.
Proof. apply Qeq_eqR, Qred_correct. Qed.
Lemma Q2R_0 : Q2R 0 = 0. Proof. unfold Q2R. cbn. lra. Qed.
Lemma Q2R_1 : Q2R 1 = 1. Proof. unfold Q2R. cbn. lra. Qed.
Lemma pe_add x : forall p q, pe (padd p q) x = pe p x + pe q x.
Proof.
  induction p as [|a p IH]; intros q; [cbn; lra|]. destruct q as [|b q]; cbn [padd pe]; [lra|]. rewrite IH, Q2R_red, Q2R_plus. lra.
Qed.
Lemma pe_scale k x : forall p, pe (pscale k p) x = Q2R k * pe p x.
Proof.
  induction p as [|a p IH]; [cbn; lra|]. change (pscale k (a :: p)) with (Qred (k * a) :: pscale k p). cbn [pe]. rewrite IH, Q2R_red, Q2R_mult. lra.
Qed.
Lemma pe_mul x : forall p q, pe (pmul p q) x = pe p x * pe q x.
Proof. induction p as [|a p IH]; intros q; cbn [pmul pe]; [lra|]. rewrite pe_add, pe_scale. cbn [pe]. rewrite IH, Q2R_0. lra. Qed.
Lemma pe_subst k x : forall p, pe (psubst k p) x = pe p (Q2R k * x).
Proof. induction p as [|a p IH]; cbn [psubst pe]; [lra|]. rewrite pe_scale, IH. lra. Qed.
Lemma pe_der : forall p x, derivable_pt_lim (pe p) x (pe (pder p) x).
Proof.
  induction p as [|a p IH]; intros x.
  - cbn. apply derivable_pt_lim_const.
  - cbn [pder]. rewrite pe_add. cbn [pe]. rewrite Q2R_0.
    replace (pe p x + (0 + x * pe (pder p) x)) with (0 + (1 * pe p x + x * pe (pder p) x)) by ring.
    apply (derivable_pt_lim_plus (fun _ => Q2R a) (fun y => y * pe p y)); [apply derivable_pt_lim_const|].
    apply (derivable_pt_lim_mult id (pe p)); [apply derivable_pt_lim_id|apply IH].
Qed.
Definition nonneg (p : list Q) : bool := forallb (Qle_bool 0) p.
Lemma Qle0 q : Qle_bool 0 q = true -> 0 <= Q2R q.
Proof. intros H. apply Qle_bool_iff in H. apply Qle_Rle in H. now rewrite Q2R_0 in H. Qed.
Lemma pe_nonneg x : 0 <= x -> forall p, nonneg p = true -> 0 <= pe p x.
Proof.
  intros X. induction p as [|a p IH]; intros H; cbn; [lra|]. cbn in H. apply andb_true_iff in H. destruct H as [A B].
  apply Qle0 in A. specialize (IH B). nra.
Qed.
Lemma pe_pos x a p : 0 <= x -> nonneg p = true -> 0 < Q2R a -> 0 < pe (a :: p) x.
Proof. intros X H A. pose proof (pe_nonneg x X p H). cbn. nra. Qed.
Lemma Q2R_abs q : Q2R (Qabs q) = Rabs (Q2R q).
Proof.
  destruct (Qlt_le_dec q 0) as [L|L].
  - rewrite (Qeq_eqR _ _ (Qabs_neg q (Qlt_le_weak _ _ L))), Q2R_opp. apply Qlt_Rlt in L. rewrite Q2R_0 in L. rewrite Rabs_left; lra.
  - rewrite (Qeq_eqR _ _ (Qabs_pos q L)). apply Qle_Rle in L. rewrite Q2R_0 in L. rewrite Rabs_pos_eq; lra.
Qed.

(** The code's evaluation of polynomials *)
Lemma polevl_pe x coef n : length coef = S n -> polevl x (reals coef) n = pe (rev coef) x.
Proof.
  unfold polevl, reals. destruct coef as [|a l]; [discriminate|]. intros E. injection E as <-. cbn [map hd tl].
  rewrite firstn_all2 by (rewrite map_length; lia). induction l as [|c l IH] using rev_ind; [cbn; lra|].
  rewrite map_app, fold_left_app. cbn [map fold_left]. rewrite IH. change (a :: l ++ [c]) with ((a :: l) ++ [c]). rewrite (rev_app_distr (a :: l)). cbn [rev app pe]. lra.
Qed.
Lemma p1evl_pe x coef n : length coef = n -> (0 < n)%nat -> p1evl x (reals coef) n = pe (rev (1%Q :: coef)) x.
Proof.
  unfold p1evl, reals. destruct coef as [|a l]; [cbn; lia|]. intros <- _. cbn [map hd tl length].
  rewrite firstn_all2 by (rewrite map_length; lia). induction l as [|c l IH] using rev_ind; [cbn [map fold_left rev app pe]; rewrite Q2R_1; lra|].
  rewrite map_app, fold_left_app. cbn [map fold_left]. rewrite IH. change (1%Q :: a :: l ++ [c]) with ((1%Q :: a :: l) ++ [c]). rewrite (rev_app_distr (1%Q :: a :: l)). cbn [rev app pe]. lra.
Qed.

(* ------------------------------------------------------------------ *)
(** * Balls: a rational center and radius *)
Definition inb (b : Q * Q) (x : R) : Prop := Rabs (x - Q2R (fst b)) <= Q2R (snd b).
Definition bconst (q : Q) : Q * Q := (q, 0%Q).
Definition badd (a b : Q * Q) : Q * Q := (Qred (fst a + fst b), Qred (snd a + snd b)).
Definition bopp (a : Q * Q) : Q * Q := (Qred (- fst a), snd a).
Definition bmul (a b : Q * Q) : Q * Q := (Qred (fst a * fst b), Qred (Qabs (fst a) * snd b + Qabs (fst b) * snd a + snd a * snd b)).
Definition binv (a : Q * Q) : Q * Q := (Qred (/ fst a), Qred (snd a / (fst a * (fst a - snd a)))).
Fixpoint bpe (p : list Q) (b : Q * Q) : Q * Q := match p with [] => (0%Q, 0%Q) | c :: r => badd (bconst c) (bmul b (bpe r b)) end.
Lemma inb_const q : inb (bconst q) (Q2R q).
Proof. unfold inb, bconst. cbn. rewrite Rminus_diag_eq, Rabs_R0, Q2R_0 by reflexivity. lra. Qed.
Lemma inb_add a b x y : inb a x -> inb b y -> inb (badd a b) (x + y).
Proof.
  unfold inb, badd. cbn [fst snd]. rewrite !Q2R_red, !Q2R_plus. intros A B.
  replace (x + y - (Q2R (fst a) + Q2R (fst b))) with ((x - Q2R (fst a)) + (y - Q2R (fst b))) by ring. eapply Rle_trans; [apply Rabs_triang|]. lra.
Qed.
Lemma inb_opp a x : inb a x -> inb (bopp a) (- x).
Proof. unfold inb, bopp. cbn [fst snd]. rewrite Q2R_red, Q2R_opp. intros A. replace (- x - - Q2R (fst a)) with (- (x - Q2R (fst a))) by ring. now rewrite Rabs_Ropp. Qed.
Lemma inb_mul a b x y : inb a x -> inb b y -> inb (bmul a b) (x * y).
Proof.
  unfold inb, bmul. cbn [fst snd]. rewrite !Q2R_red, !Q2R_plus, !Q2R_mult, !Q2R_abs. set (m := Q2R (fst a)). set (n := Q2R (fst b)). intros A B.
  replace (x * y - m * n) with (m * (y - n) + n * (x - m) + (x - m) * (y - n)) by ring.
  pose proof (Rabs_triang (m * (y - n) + n * (x - m)) ((x - m) * (y - n))) as T1. pose proof (Rabs_triang (m * (y - n)) (n * (x - m))) as T2.
  rewrite !Rabs_mult in *. pose proof (Rabs_pos m). pose proof (Rabs_pos n). pose proof (Rabs_pos (x - m)). pose proof (Rabs_pos (y - n)).
  assert (Rabs m * Rabs (y - n) <= Rabs m * Q2R (snd b)) by (apply Rmult_le_compat_l; lra).
  assert (Rabs n * Rabs (x - m) <= Rabs n * Q2R (snd a)) by (apply Rmult_le_compat_l; lra).
  assert (Rabs (x - m) * Rabs (y - n) <= Q2R (snd a) * Q2R (snd b)) by (apply Rmult_le_compat; lra). lra.
Qed.
Lemma inb_inv a x : Qle_bool 0 (snd a) = true -> Qle_bool (fst a) (snd a) = false -> inb a x -> 0 < x /\ inb (binv a) (/ x).
Proof.
  intros P L A. apply Qle0 in P. assert (LT : Q2R (snd a) < Q2R (fst a)).
  { destruct (Qlt_le_dec (snd a) (fst a)) as [X|X]; [now apply Qlt_Rlt|]. apply Qle_bool_iff in X. congruence. }
  unfold inb in *. set (m := Q2R (fst a)) in *. set (r := Q2R (snd a)) in *. assert (X : m - r <= x <= m + r) by (destruct (Rabs_def2 (x - m) (r + 1)); [lra|]; unfold Rabs in A; destruct (Rcase_abs (x - m)); lra).
  split; [lra|]. assert (NZ : ~ (fst a == 0)%Q) by (intros Z; apply Qeq_eqR in Z; rewrite Q2R_0 in Z; fold m in Z; lra).
  assert (NZ2 : ~ (fst a * (fst a - snd a) == 0)%Q).
  { intros Z. apply Qeq_eqR in Z. rewrite Q2R_0, Q2R_mult, Q2R_minus in Z. fold m r in Z. assert (0 < m * (m - r)) by (apply Rmult_lt_0_compat; lra). lra. }
  unfold binv. cbn [fst snd]. rewrite !Q2R_red, Q2R_div, Q2R_inv, Q2R_mult, Q2R_minus by assumption. fold m r.
  replace (/ x - / m) with ((m - x) / (x * m)) by (field; lra). unfold Rdiv. rewrite Rabs_mult, (Rabs_pos_eq (/ (x * m))) by (left; apply Rinv_0_lt_compat, Rmult_lt_0_compat; lra).
  rewrite Rabs_minus_sym. apply Rmult_le_compat; [apply Rabs_pos|left; apply Rinv_0_lt_compat, Rmult_lt_0_compat; lra|exact A|].
  apply Rinv_le_contravar; [apply Rmult_lt_0_compat; lra|]. nra.
Qed.
Lemma inb_pe p b x : inb b x -> inb (bpe p b) (pe p x).
Proof.
  intros B. induction p as [|c p IH]; cbn [bpe pe]; [unfold inb; cbn; rewrite Q2R_0, Rminus_diag_eq, Rabs_R0 by reflexivity; lra|].
  apply inb_add; [apply inb_const|]. now apply inb_mul.
Qed.
Lemma inb_bound b x e : inb b x -> Qle_bool (Qabs (fst b) + snd b) e = true -> Rabs x <= Q2R e.
Proof.
  intros B L. apply Qle_bool_iff, Qle_Rle in L. rewrite Q2R_plus, Q2R_abs in L. unfold inb in B.
  pose proof (Rabs_triang (x - Q2R (fst b)) (Q2R (fst b))) as T. replace (x - Q2R (fst b) + Q2R (fst b)) with x in T by ring. lra.
Qed.
Lemma inb_between a b x q r : Q2R a <= x <= Q2R b -> Qle_bool q (a + r) = true -> Qle_bool b (q + r) = true -> inb (q, r) x.
Proof.
  intros X A B. apply Qle_bool_iff, Qle_Rle in A, B. rewrite Q2R_plus in A, B. unfold inb. cbn [fst snd]. apply Rabs_le. lra.
Qed.

(* ------------------------------------------------------------------ *)
(** * pi *)
Fixpoint qpow (q : Q) (k : nat) : Q := match k with O => 1%Q | S k => Qred (q * qpow q k) end.
Lemma Q2R_pow q k : Q2R (qpow q k) = Q2R q ^ k.
Proof. induction k as [|k IH]; cbn [qpow pow]; [apply Q2R_1|]. now rewrite Q2R_red, Q2R_mult, IH. Qed.
Fixpoint machin (n : nat) : Q :=
  let t k := (2 * qpow (1 # 3) (2 * k + 1) + qpow (1 # 7) (2 * k + 1))%Q in
  let s k := ((if Nat.even k then t k else - t k) / inject_Z (Z.of_nat (2 * k + 1)))%Q in
  match n with O => Qred (s O) | S k => Qred (machin k + s n)%Q end.
Lemma Q2R_Z z : Q2R (inject_Z z) = IZR z.
Proof. unfold Q2R, inject_Z. cbn. lra. Qed.
Lemma machin_ok n : Q2R (machin n) = sum_f_R0 (tg_alt PI_2_3_7_tg) n.
Proof.
  assert (E : forall k, Q2R ((if Nat.even k then (2 * qpow (1 # 3) (2 * k + 1) + qpow (1 # 7) (2 * k + 1)) else
     - (2 * qpow (1 # 3) (2 * k + 1) + qpow (1 # 7) (2 * k + 1))) / inject_Z (Z.of_nat (2 * k + 1)))%Q = tg_alt PI_2_3_7_tg k).
  { intros k. assert (NZ : INR (2 * k + 1) <> 0) by (apply not_0_INR; lia).
    assert (NQ : ~ (inject_Z (Z.of_nat (2 * k + 1)) == 0)%Q).
    { intros Z. apply Qeq_eqR in Z. rewrite Q2R_0, Q2R_Z, <- INR_IZR_INZ in Z. contradiction. }
    rewrite Q2R_div by exact NQ. rewrite Q2R_Z, <- INR_IZR_INZ. unfold tg_alt, PI_2_3_7_tg, Ratan_seq.
    assert (T : Q2R (2 * qpow (1 # 3) (2 * k + 1) + qpow (1 # 7) (2 * k + 1)) = 2 * (/ 3) ^ (2 * k + 1) + (/ 7) ^ (2 * k + 1)).
    { rewrite Q2R_plus, Q2R_mult, !Q2R_pow. replace (Q2R (1 # 3)) with (/ 3) by (unfold Q2R; cbn; lra). replace (Q2R (1 # 7)) with (/ 7) by (unfold Q2R; cbn; lra).
      replace (Q2R 2) with 2 by (unfold Q2R; cbn; lra). reflexivity. }
    destruct (Nat.even k) eqn:EV.
    - apply Nat.even_spec in EV. destruct EV as (j & ->). rewrite pow_1_even, T. field. exact NZ.
    - assert (OD : Nat.odd k = true) by (rewrite <- Nat.negb_even, EV; reflexivity). apply Nat.odd_spec in OD. destruct OD as (j & ->).
      replace (2 * j + 1)%nat with (S (2 * j)) by lia. rewrite pow_1_odd. replace (S (2 * j)) with (2 * j + 1)%nat by lia. rewrite Q2R_opp, T. field. exact NZ. }
  induction n as [|n IH]; cbn [machin sum_f_R0]; rewrite Q2R_red; [apply (E 0%nat)|]. rewrite Q2R_plus, IH. f_equal. apply (E (S n)).
Qed.
Definition pi_q : Q := 3.14159265358979323846%Q.
Definition pi_b : Q * Q := (pi_q, 1e-18%Q).
Lemma pi_in : inb pi_b PI.
Proof.
  destruct (PI_2_3_7_ineq 10) as [A B]. rewrite <- machin_ok in A, B.
  apply (inb_between (4 * machin (S (2 * 10))) (4 * machin (2 * 10))); [|vm_compute; reflexivity|vm_compute; reflexivity].
  rewrite !Q2R_mult. replace (Q2R 4) with 4 by (unfold Q2R; cbn; lra). lra.
Qed.
