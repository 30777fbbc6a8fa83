(** Fixed-point balls (a center and a radius in units of 2^-80) and polynomials with ball coefficients. All checks are computed
    with integers, so that the kernel can redo them without the bytecode machine. *)
From Coq Require Import Reals List Bool ZArith QArith Qreals Lra Lia Psatz.
From Verif Require Import Base_Real Proof_Fresnel.
Import ListNotations.
Local Open Scope R_scope.

Definition FZ : Z := Eval vm_compute in (2 ^ 80)%Z.
Definition zball : Type := (Z * Z)%type.
Definition zin (b : zball) (x : R) : Prop := IZR (fst b) - IZR (snd b) <= x * IZR FZ <= IZR (fst b) + IZR (snd b).
Lemma FZ_pos : 0 < IZR FZ. Proof. apply IZR_lt. reflexivity. Qed.
Lemma zin_r b x : zin b x -> 0 <= IZR (snd b). Proof. unfold zin. lra. Qed.

Definition dF (a : Z) : Z := Z.shiftr a 80.
Lemma dF_ok a : IZR (dF a) * IZR FZ <= IZR a < (IZR (dF a) + 1) * IZR FZ.
Proof.
  unfold dF. rewrite Z.shiftr_div_pow2 by lia. change (2 ^ 80)%Z with FZ.
  pose proof (Z.div_mod a FZ ltac:(discriminate)) as E. pose proof (Z.mod_pos_bound a FZ ltac:(reflexivity)) as [B1 B2].
  remember (a / FZ)%Z as d. remember (a mod FZ)%Z as m. clear Heqd Heqm.
  assert (ER : IZR a = IZR FZ * IZR d + IZR m) by (rewrite E, plus_IZR, mult_IZR; reflexivity).
  apply IZR_le in B1. apply IZR_lt in B2. split; lra.
Qed.
Lemma div_ok a d : (0 < d)%Z -> IZR (a / d) * IZR d <= IZR a < (IZR (a / d) + 1) * IZR d.
Proof.
  intros P. pose proof (Z.div_mod a d ltac:(lia)) as E. pose proof (Z.mod_pos_bound a d P) as [B1 B2].
  remember (a / d)%Z as q. remember (a mod d)%Z as m. clear Heqq Heqm.
  assert (ER : IZR a = IZR d * IZR q + IZR m) by (rewrite E, plus_IZR, mult_IZR; reflexivity).
  apply IZR_le in B1. apply IZR_lt in B2. split; lra.
Qed.

Definition z0 : zball := (0, 0)%Z.
Lemma z0_ok : zin z0 0. Proof. unfold zin. cbn [z0 fst snd]. lra. Qed.
Definition zrat (q : Q) : zball := (Z.div (Qnum q * FZ) (Zpos (Qden q)), 1%Z).
Lemma zrat_ok q : zin (zrat q) (Q2R q).
Proof.
  unfold zin, zrat. cbn [fst snd]. destruct (div_ok (Qnum q * FZ) (Zpos (Qden q)) ltac:(lia)) as [A B]. rewrite mult_IZR in A, B.
  assert (D : 0 < IZR (Zpos (Qden q))) by (apply IZR_lt; lia). unfold Q2R.
  replace (IZR (Qnum q) * / IZR (Zpos (Qden q)) * IZR FZ) with (IZR (Qnum q) * IZR FZ * / IZR (Zpos (Qden q))) by ring.
  remember (IZR (Qnum q) * IZR FZ) as n. remember (IZR (Zpos (Qden q))) as d. remember (IZR (Qnum q * FZ / Z.pos (Qden q))) as f. clear Heqn Heqf.
  split; apply Rmult_le_reg_r with d; try assumption; rewrite Rmult_assoc, Rinv_l by lra; lra.
Qed.
Definition zwide (b : zball) (k : Z) : zball := (fst b, snd b + k)%Z.
Lemma zwide_ok b k x y : zin b x -> Rabs (y - x) * IZR FZ <= IZR k -> zin (zwide b k) y.
Proof.
  unfold zin, zwide. cbn [fst snd]. rewrite plus_IZR. intros B A. pose proof FZ_pos. pose proof (Rle_abs (y - x)). pose proof (Rle_abs (- (y - x))) as N. rewrite Rabs_Ropp in N.
  assert ((y - x) * IZR FZ <= IZR k) by (eapply Rle_trans; [apply Rmult_le_compat_r; [lra|eassumption]|assumption]).
  assert (- (y - x) * IZR FZ <= IZR k) by (eapply Rle_trans; [apply Rmult_le_compat_r; [lra|eassumption]|assumption]). lra.
Qed.
Definition zadd (a b : zball) : zball := (fst a + fst b, snd a + snd b)%Z.
Lemma zadd_ok a b x y : zin a x -> zin b y -> zin (zadd a b) (x + y).
Proof. unfold zin, zadd. cbn [fst snd]. rewrite !plus_IZR. lra. Qed.
Definition zopp (a : zball) : zball := (- fst a, snd a)%Z.
Lemma zopp_ok a x : zin a x -> zin (zopp a) (- x).
Proof. unfold zin, zopp. cbn [fst snd]. rewrite opp_IZR. lra. Qed.
Definition zmul (a b : zball) : zball :=
  (dF (fst a * fst b), dF (snd b * Z.abs (fst a) + snd a * (Z.abs (fst b) + snd b)) + 2)%Z.
Lemma zmul_ok a b x y : zin a x -> zin b y -> zin (zmul a b) (x * y).
Proof.
  unfold zin, zmul. cbn [fst snd]. intros A B. rewrite plus_IZR.
  destruct (dF_ok (fst a * fst b)) as [C1 C2]. destruct (dF_ok (snd b * Z.abs (fst a) + snd a * (Z.abs (fst b) + snd b))) as [E1 E2].
  rewrite plus_IZR, !mult_IZR, plus_IZR, !abs_IZR in E1, E2. rewrite mult_IZR in C1, C2.
  remember (IZR (dF (fst a * fst b))) as c eqn:Hc. remember (IZR (dF (snd b * Z.abs (fst a) + snd a * (Z.abs (fst b) + snd b)))) as e eqn:He. clear Hc He.
  pose proof FZ_pos as P. remember (IZR FZ) as F eqn:HF. clear HF.
  remember (IZR (fst a)) as m eqn:Hm. remember (IZR (fst b)) as n eqn:Hn. remember (IZR (snd a)) as r eqn:Hr. remember (IZR (snd b)) as t eqn:Ht. clear Hm Hn Hr Ht.
  assert (R1 : Rabs (x * F - m) <= r) by (apply Rabs_le; lra). assert (R2 : Rabs (y * F - n) <= t) by (apply Rabs_le; lra).
  assert (T : Rabs (x * F * (y * F) - m * n) <= t * Rabs m + r * (Rabs n + t)).
  { replace (x * F * (y * F) - m * n) with (m * (y * F - n) + (n * (x * F - m) + (x * F - m) * (y * F - n))) by ring.
    pose proof (Rabs_triang (m * (y * F - n)) (n * (x * F - m) + (x * F - m) * (y * F - n))) as T1.
    pose proof (Rabs_triang (n * (x * F - m)) ((x * F - m) * (y * F - n))) as T2. rewrite !Rabs_mult in *.
    pose proof (Rabs_pos m). pose proof (Rabs_pos n). pose proof (Rabs_pos (x * F - m)). pose proof (Rabs_pos (y * F - n)).
    assert (Rabs m * Rabs (y * F - n) <= Rabs m * t) by (apply Rmult_le_compat_l; lra).
    assert (Rabs n * Rabs (x * F - m) <= Rabs n * r) by (apply Rmult_le_compat_l; lra).
    assert (Rabs (x * F - m) * Rabs (y * F - n) <= r * t) by (apply Rmult_le_compat; lra). lra. }
  assert (T' : - (t * Rabs m + r * (Rabs n + t)) <= x * F * (y * F) - m * n <= t * Rabs m + r * (Rabs n + t)).
  { revert T. unfold Rabs at 1. destruct (Rcase_abs _); lra. }
  remember (t * Rabs m + r * (Rabs n + t)) as E eqn:HE. clear HE.
  split; apply Rmult_le_reg_r with F; try assumption; lra.
Qed.
Definition zinv (b : zball) : zball :=
  let lo := Z.div (FZ * FZ) (fst b + snd b) in (lo, Z.div (FZ * FZ) (fst b - snd b) + 1 - lo)%Z.
Definition zpos (b : zball) : bool := (snd b <? fst b)%Z.
Lemma zinv_ok b x : zpos b = true -> zin b x -> 0 < x /\ zin (zinv b) (/ x).
Proof.
  intros P B. unfold zpos in P. apply Z.ltb_lt in P. pose proof (zin_r _ _ B) as R0. apply le_IZR in R0. unfold zin, zinv in *. cbn [fst snd].
  destruct (div_ok (FZ * FZ) (fst b + snd b) ltac:(lia)) as [A1 _]. destruct (div_ok (FZ * FZ) (fst b - snd b) ltac:(lia)) as [_ A2].
  rewrite mult_IZR in A1, A2. rewrite plus_IZR in A1. rewrite minus_IZR in A2. rewrite minus_IZR, plus_IZR.
  remember (IZR (FZ * FZ / (fst b + snd b))) as lo eqn:Hl. remember (IZR (FZ * FZ / (fst b - snd b))) as hi eqn:Hh.
  assert (LP : 0 <= lo) by (rewrite Hl; apply IZR_le, Z.div_pos; [discriminate|lia]). assert (HP : 0 <= hi) by (rewrite Hh; apply IZR_le, Z.div_pos; [discriminate|lia]).
  clear Hl Hh. apply IZR_lt in P. apply IZR_le in R0.
  pose proof FZ_pos as FP. remember (IZR FZ) as F eqn:HF. clear HF. remember (IZR (fst b)) as m eqn:Hm. remember (IZR (snd b)) as r eqn:Hr. clear Hm Hr.
  assert (X : 0 < x). { apply Rmult_lt_reg_r with F; [assumption|]. lra. }
  split; [assumption|].
  assert (L1 : lo <= / x * F).
  { apply Rmult_le_reg_r with (x * F); [apply Rmult_lt_0_compat; assumption|]. replace (/ x * F * (x * F)) with (F * F) by (field; lra).
    eapply Rle_trans; [|exact A1]. apply Rmult_le_compat_l; lra. }
  assert (L2 : / x * F <= hi + 1).
  { apply Rmult_le_reg_r with (x * F); [apply Rmult_lt_0_compat; assumption|]. replace (/ x * F * (x * F)) with (F * F) by (field; lra).
    apply Rlt_le. eapply Rlt_le_trans; [exact A2|]. apply Rmult_le_compat_l; lra. }
  lra.
Qed.
Definition zhull (a b : zball) : zball := (fst a, Z.abs (fst a - fst b) + snd a + snd b)%Z.
Lemma zhull_ok a b lo hi v : lo <= v <= hi -> zin a lo -> zin b hi -> zin (zhull a b) v.
Proof.
  unfold zin, zhull. cbn [fst snd]. intros V A B. rewrite !plus_IZR, abs_IZR, minus_IZR. pose proof FZ_pos.
  assert (lo * IZR FZ <= v * IZR FZ <= hi * IZR FZ) by (split; apply Rmult_le_compat_r; lra).
  pose proof (Rle_abs (IZR (fst a) - IZR (fst b))). pose proof (Rle_abs (- (IZR (fst a) - IZR (fst b)))) as N. rewrite Rabs_Ropp in N.
  pose proof (Rabs_pos (IZR (fst a) - IZR (fst b))). lra.
Qed.
(** [Rabs x <= n / d] *)
Definition zle (b : zball) (n d : Z) : bool := (d * (Z.abs (fst b) + snd b) <=? n * FZ)%Z.
Lemma zle_ok b x n d : (0 < d)%Z -> zin b x -> zle b n d = true -> Rabs x <= IZR n / IZR d.
Proof.
  intros D B L. unfold zle in L. apply Z.leb_le in L. apply IZR_le in L. rewrite !mult_IZR, plus_IZR, abs_IZR in L. unfold zin in B.
  apply IZR_lt in D. pose proof FZ_pos as FP. remember (IZR FZ) as F eqn:HF. clear HF. remember (IZR (fst b)) as m eqn:Hm. remember (IZR (snd b)) as r eqn:Hr. clear Hm Hr.
  assert (X : Rabs x * F <= Rabs m + r).
  { rewrite <- (Rabs_pos_eq F) at 1 by lra. rewrite <- Rabs_mult. pose proof (Rle_abs m). pose proof (Rle_abs (- m)) as N. rewrite Rabs_Ropp in N. apply Rabs_le. lra. }
  apply Rmult_le_reg_r with (F * IZR d); [apply Rmult_lt_0_compat; assumption|].
  replace (IZR n / IZR d * (F * IZR d)) with (IZR n * F) by (field; lra). eapply Rle_trans; [|exact L].
  replace (Rabs x * (F * IZR d)) with (IZR d * (Rabs x * F)) by ring. apply Rmult_le_compat_l; lra.
Qed.

(** ** Polynomials with real coefficients, constant first *)
Fixpoint re (p : list R) (x : R) : R := match p with [] => 0 | c :: r => c + x * re r x end.
Fixpoint radd (p q : list R) : list R := match p, q with [], _ => q | _, [] => p | a :: p', b :: q' => (a + b) :: radd p' q' end.
Definition rscale (k : R) (p : list R) : list R := map (Rmult k) p.
Fixpoint rmul (p q : list R) : list R := match p with [] => [] | a :: p' => radd (rscale a q) (0 :: rmul p' q) end.
Fixpoint rder (p : list R) : list R := match p with [] => [] | _ :: r => radd r (0 :: rder r) end.
Fixpoint rsub (k : R) (p : list R) : list R := match p with [] => [] | c :: r => c :: rscale k (rsub k r) end.
Lemma re_add x : forall p q, re (radd p q) x = re p x + re q x.
Proof. induction p as [|a p IH]; intros q; [cbn; lra|]. destruct q as [|b q]; cbn [radd re]; [lra|]. rewrite IH. lra. Qed.
Lemma re_scale k x : forall p, re (rscale k p) x = k * re p x.
Proof. induction p as [|a p IH]; [cbn; lra|]. change (rscale k (a :: p)) with (k * a :: rscale k p). cbn [re]. rewrite IH. lra. Qed.
Lemma re_mul x : forall p q, re (rmul p q) x = re p x * re q x.
Proof. induction p as [|a p IH]; intros q; cbn [rmul re]; [lra|]. rewrite re_add, re_scale. cbn [re]. rewrite IH. lra. Qed.
Lemma re_sub k x : forall p, re (rsub k p) x = re p (k * x).
Proof. induction p as [|a p IH]; cbn [rsub re]; [lra|]. rewrite re_scale, IH. lra. Qed.
Definition qr (p : list Q) : list R := map Q2R p.
Lemma re_qr x p : re (qr p) x = pe p x. Proof. induction p as [|a p IH]; cbn; [reflexivity|]. fold (qr p). now rewrite IH. Qed.
Lemma qr_add : forall p q, qr (padd p q) = radd (qr p) (qr q).
Proof. induction p as [|a p IH]; intros q; [reflexivity|]. destruct q as [|b q]; [reflexivity|]. cbn [padd qr map radd]. fold (qr (padd p q)) (qr p) (qr q). now rewrite IH, Q2R_red, Q2R_plus. Qed.
Lemma qr_scale k p : qr (pscale k p) = rscale (Q2R k) (qr p).
Proof. unfold qr, pscale, rscale. rewrite !map_map. apply map_ext. intros a. now rewrite Q2R_red, Q2R_mult. Qed.
Lemma qr_cons a p : qr (a :: p) = Q2R a :: qr p. Proof. reflexivity. Qed.
Lemma qr_mul : forall p q, qr (pmul p q) = rmul (qr p) (qr q).
Proof. induction p as [|a p IH]; intros q; [reflexivity|]. cbn [pmul]. rewrite qr_add, qr_scale, !qr_cons, IH, Q2R_0. reflexivity. Qed.
Lemma qr_der : forall p, qr (pder p) = rder (qr p).
Proof. induction p as [|a p IH]; [reflexivity|]. cbn [pder]. rewrite qr_add, !qr_cons, IH, Q2R_0. reflexivity. Qed.

(** ** Ball coefficients: the k-th ball holds K s^k times the k-th coefficient *)
Fixpoint prel (K s : R) (bl : list zball) (p : list R) : Prop :=
  match bl, p with [], [] => True | b :: bl', a :: p' => zin b (K * a) /\ prel (K * s) s bl' p' | _, _ => False end.
Fixpoint zpadd (p q : list zball) : list zball := match p, q with [], _ => q | _, [] => p | a :: p', b :: q' => zadd a b :: zpadd p' q' end.
Definition zpscale (k : zball) (p : list zball) : list zball := map (zmul k) p.
Fixpoint zpmul (p q : list zball) : list zball := match p with [] => [] | a :: p' => zpadd (zpscale a q) (z0 :: zpmul p' q) end.
Fixpoint zpder (si : zball) (p : list zball) : list zball := match p with [] => [] | _ :: r => zpadd (zpscale si r) (z0 :: zpder si r) end.
Fixpoint zpsub (k : zball) (p : list zball) : list zball := match p with [] => [] | c :: r => c :: zpscale k (zpsub k r) end.
Definition zshift (s : zball) (p : list zball) : list zball := z0 :: zpscale s p.
Fixpoint ztab (K s : Q) (p : list Q) : list zball := match p with [] => [] | a :: r => zrat (K * a) :: ztab (K * s) s r end.

Lemma ztab_ok s : forall p K, prel (Q2R K) (Q2R s) (ztab K s p) (qr p).
Proof.
  induction p as [|a p IH]; intros K; cbn [ztab qr map prel]; [exact I|]. split; [rewrite <- Q2R_mult; apply zrat_ok|]. rewrite <- Q2R_mult. apply IH.
Qed.
Lemma zpadd_ok s : forall bl p, forall K cl q, prel K s bl p -> prel K s cl q -> prel K s (zpadd bl cl) (radd p q).
Proof.
  induction bl as [|b bl IH]; intros p K cl q A B; destruct p as [|a p]; try contradiction A; [exact B|].
  destruct cl as [|c cl], q as [|d q]; try contradiction B; [exact A|]. cbn [prel zpadd radd] in *. destruct A as [A1 A2], B as [B1 B2].
  split; [rewrite Rmult_plus_distr_l; now apply zadd_ok|]. now apply IH.
Qed.
Lemma zpscale_ok s k y : zin k y -> forall bl p K, prel K s bl p -> prel K s (zpscale k bl) (rscale y p).
Proof.
  intros KY. induction bl as [|b bl IH]; intros p K A; destruct p as [|a p]; try contradiction A; [exact I|]. cbn [prel] in A. destruct A as [A1 A2].
  change (prel K s (zmul k b :: zpscale k bl) (y * a :: rscale y p)). cbn [prel]. split; [|now apply IH].
  replace (K * (y * a)) with (y * (K * a)) by ring. now apply zmul_ok.
Qed.
(** multiplying the balls only *)
Lemma zpscale_K s k y : zin k y -> forall bl p K, prel K s bl p -> prel (y * K) s (zpscale k bl) p.
Proof.
  intros KY. induction bl as [|b bl IH]; intros p K A; destruct p as [|a p]; try contradiction A; [exact I|]. cbn [prel] in A. destruct A as [A1 A2].
  change (prel (y * K) s (zmul k b :: zpscale k bl) (a :: p)). cbn [prel]. rewrite !Rmult_assoc. split; [now apply zmul_ok|now apply IH].
Qed.
Lemma prel_K K K' s bl p : K = K' -> prel K s bl p -> prel K' s bl p. Proof. now intros ->. Qed.
Lemma zpmul_ok s L cl q : prel L s cl q -> forall bl p K, prel K s bl p -> prel (K * L) s (zpmul bl cl) (rmul p q).
Proof.
  intros B. induction bl as [|b bl IH]; intros p K A; destruct p as [|a p]; try contradiction A; [exact I|]. cbn [prel] in A. destruct A as [A1 A2]. cbn [zpmul rmul].
  apply zpadd_ok.
  - assert (G : forall cl q L, prel L s cl q -> prel (K * L) s (zpscale b cl) (rscale a q)).
    { clear -A1. induction cl as [|c cl IH]; intros q L B; destruct q as [|d q]; try contradiction B; [exact I|]. cbn [prel] in B. destruct B as [B1 B2].
      change (prel (K * L) s (zmul b c :: zpscale b cl) (a * d :: rscale a q)). cbn [prel]. split.
      - replace (K * L * (a * d)) with (K * a * (L * d)) by ring. now apply zmul_ok.
      - rewrite Rmult_assoc. now apply IH. }
    apply G, B.
  - cbn [prel]. split; [rewrite Rmult_0_r; apply z0_ok|]. apply (prel_K (K * s * L)); [ring|]. now apply IH.
Qed.
Lemma zshift_ok s sb : zin sb s -> forall bl p K, prel K s bl p -> prel K s (zshift sb bl) (0 :: p).
Proof. intros S bl p K A. unfold zshift. cbn [prel]. split; [rewrite Rmult_0_r; apply z0_ok|]. rewrite Rmult_comm. now apply zpscale_K. Qed.
Lemma zpder_ok s si : s <> 0 -> zin si (/ s) -> forall bl p K, prel K s bl p -> prel K s (zpder si bl) (rder p).
Proof.
  intros NZ S. induction bl as [|b bl IH]; intros p K A; destruct p as [|a p]; try contradiction A; [exact I|]. cbn [prel] in A. destruct A as [A1 A2]. cbn [zpder rder].
  apply zpadd_ok.
  - apply (prel_K (/ s * (K * s))); [field; exact NZ|]. now apply zpscale_K.
  - cbn [prel]. split; [rewrite Rmult_0_r; apply z0_ok|]. now apply IH.
Qed.
Lemma zpsub_ok s k y : zin k y -> forall bl p K, prel K s bl p -> prel K s (zpsub k bl) (rsub y p).
Proof.
  intros KY. induction bl as [|b bl IH]; intros p K A; destruct p as [|a p]; try contradiction A; [exact I|]. cbn [prel] in A. destruct A as [A1 A2]. cbn [zpsub rsub prel].
  split; [exact A1|]. apply zpscale_ok; [exact KY|]. now apply IH.
Qed.
(** evaluation at [u], with a ball for [u / s] *)
Fixpoint zpe (bl : list zball) (v : zball) : zball := match bl with [] => z0 | b :: r => zadd b (zmul v (zpe r v)) end.
Lemma zpe_ok s v u : zin v (u / s) -> s <> 0 -> forall bl p K, prel K s bl p -> zin (zpe bl v) (K * re p u).
Proof.
  intros V NZ. induction bl as [|b bl IH]; intros p K A; destruct p as [|a p]; try contradiction A; cbn [zpe re]; [rewrite Rmult_0_r; apply z0_ok|].
  cbn [prel] in A. destruct A as [A1 A2]. replace (K * (a + u * re p u)) with (K * a + u / s * (K * s * re p u)) by (field; exact NZ).
  apply zadd_ok; [exact A1|]. apply zmul_ok; [exact V|]. now apply IH.
Qed.

(** [d * Rabs (re cs u) <= n * re qs u] for [u] up to [s], coefficient by coefficient *)
Fixpoint zneg (n : Z) (qs : list zball) : Z := match qs with [] => 0%Z | q :: r => Z.max 0 (zneg n r - n * (fst q - snd q)) end.
Fixpoint zcarry (n d : Z) (cs qs : list zball) : Z :=
  match cs with
  | [] => zneg n qs
  | c :: cs' => Z.max 0 (d * (Z.abs (fst c) + snd c) - n * (fst (hd z0 qs) - snd (hd z0 qs)) + zcarry n d cs' (tl qs))
  end.
Lemma zneg_nonneg n qs : (0 <= zneg n qs)%Z. Proof. destruct qs; cbn [zneg]; lia. Qed.
Lemma zcarry_nonneg n d cs qs : (0 <= zcarry n d cs qs)%Z.
Proof. destruct cs; cbn [zcarry]; [apply zneg_nonneg|lia]. Qed.
Lemma zneg_ok n s u : (0 <= n)%Z -> 0 < s -> 0 <= u <= s -> forall qs q K, 0 < K -> prel K s qs q ->
  0 <= IZR n * (K * re q u) * IZR FZ + IZR (zneg n qs).
Proof.
  intros N S U. apply IZR_le in N. pose proof FZ_pos as FP. induction qs as [|b qs IH]; intros q K KP A; destruct q as [|a q]; try contradiction A; cbn [re zneg]; [lra|].
  cbn [prel] in A. destruct A as [[A1 _] A2]. specialize (IH q (K * s) ltac:(now apply Rmult_lt_0_compat) A2).
  pose proof (zneg_nonneg n qs) as C0. apply IZR_le in C0.
  assert (W : IZR (zneg n qs) - IZR n * (IZR (fst b) - IZR (snd b)) <= IZR (Z.max 0 (zneg n qs - n * (fst b - snd b)))).
  { rewrite <- minus_IZR, <- mult_IZR, <- minus_IZR. apply IZR_le. lia. }
  assert (V : 0 <= u / s <= 1).
  { split; [apply Rmult_le_pos; [lra|left; now apply Rinv_0_lt_compat]|]. apply Rmult_le_reg_r with s; [assumption|]. unfold Rdiv. rewrite Rmult_assoc, Rinv_l by lra. lra. }
  assert (T : - (u / s * IZR (zneg n qs)) <= u / s * (IZR n * (K * s * re q u) * IZR FZ)).
  { assert (0 <= u / s * (IZR n * (K * s * re q u) * IZR FZ + IZR (zneg n qs))) by (apply Rmult_le_pos; lra). lra. }
  replace (u / s * (IZR n * (K * s * re q u) * IZR FZ)) with (IZR n * (K * (u * re q u)) * IZR FZ) in T by (field; lra).
  assert (u / s * IZR (zneg n qs) <= 1 * IZR (zneg n qs)) by (apply Rmult_le_compat_r; lra).
  assert (IZR n * (IZR (fst b) - IZR (snd b)) <= IZR n * (K * a * IZR FZ)) by (apply Rmult_le_compat_l; lra). lra.
Qed.
Lemma zcarry_ok n d s u : (0 <= n)%Z -> (0 < d)%Z -> 0 < s -> 0 <= u <= s -> forall cs c qs q K, 0 < K -> prel K s cs c -> prel K s qs q ->
  IZR d * (K * Rabs (re c u)) * IZR FZ <= IZR n * (K * re q u) * IZR FZ + IZR (zcarry n d cs qs).
Proof.
  intros N D S U. pose proof N as NZ. apply IZR_le in N. apply IZR_lt in D. pose proof FZ_pos as FP.
  assert (V : 0 <= u / s <= 1).
  { split; [apply Rmult_le_pos; [lra|left; now apply Rinv_0_lt_compat]|]. apply Rmult_le_reg_r with s; [assumption|]. unfold Rdiv. rewrite Rmult_assoc, Rinv_l by lra. lra. }
  induction cs as [|b cs IH]; intros c qs q K KP A B; destruct c as [|a c]; try contradiction A.
  - cbn [zcarry re]. rewrite Rabs_R0. pose proof (zneg_ok n s u NZ S U qs q K KP B). lra.
  - cbn [prel] in A. destruct A as [A1 A2].
    assert (B' : prel (K * s) s (tl qs) (tl q)) by (destruct qs, q; try contradiction B; [exact I|exact (proj2 B)]).
    assert (KS : 0 < K * s) by (now apply Rmult_lt_0_compat).
    assert (QL : IZR (fst (hd z0 qs)) - IZR (snd (hd z0 qs)) <= K * hd 0 q * IZR FZ).
    { destruct qs as [|qb qs], q as [|qa q]; try contradiction B; cbn [hd]; [cbn [z0 fst snd]; lra|]. destruct B as [[B1 _] _]. exact B1. }
    assert (QE : re q u = hd 0 q + u * re (tl q) u) by (destruct q; cbn; lra). rewrite QE. clear QE.
    specialize (IH c (tl qs) (tl q) (K * s) KS A2 B'). cbn [zcarry]. pose proof (zcarry_nonneg n d cs (tl qs)) as C0.
    remember (zcarry n d cs (tl qs)) as cr eqn:Hcr. clear Hcr. apply IZR_le in C0.
    remember (IZR (Z.max 0 (d * (Z.abs (fst b) + snd b) - n * (fst (hd z0 qs) - snd (hd z0 qs)) + cr))) as w eqn:Hw.
    assert (W : IZR d * (Rabs (IZR (fst b)) + IZR (snd b)) - IZR n * (IZR (fst (hd z0 qs)) - IZR (snd (hd z0 qs))) + IZR cr <= w).
    { rewrite Hw, <- abs_IZR, <- !minus_IZR, <- plus_IZR, <- !mult_IZR, <- minus_IZR, <- plus_IZR. apply IZR_le. lia. }
    clear Hw.
    assert (CA : K * Rabs a * IZR FZ <= Rabs (IZR (fst b)) + IZR (snd b)).
    { replace (K * Rabs a * IZR FZ) with (Rabs (K * a * IZR FZ)) by (rewrite !Rabs_mult, (Rabs_pos_eq K), (Rabs_pos_eq (IZR FZ)) by lra; reflexivity).
      destruct A1 as [L1 L2]. pose proof (Rle_abs (IZR (fst b))). pose proof (Rle_abs (- IZR (fst b))) as NN. rewrite Rabs_Ropp in NN. apply Rabs_le. lra. }
    cbn [re]. pose proof (Rabs_triang a (u * re c u)) as T. rewrite Rabs_mult, (Rabs_pos_eq u) in T by lra.
    assert (T1 : IZR d * (K * Rabs (a + u * re c u)) * IZR FZ <= IZR d * (K * (Rabs a + u * Rabs (re c u))) * IZR FZ).
    { apply Rmult_le_compat_r; [lra|]. apply Rmult_le_compat_l; [lra|]. apply Rmult_le_compat_l; lra. }
    assert (T2 : IZR d * (K * Rabs a * IZR FZ) <= IZR d * (Rabs (IZR (fst b)) + IZR (snd b))) by (apply Rmult_le_compat_l; lra).
    assert (T3 : IZR n * (IZR (fst (hd z0 qs)) - IZR (snd (hd z0 qs))) <= IZR n * (K * hd 0 q * IZR FZ)) by (apply Rmult_le_compat_l; lra).
    assert (T4 : u / s * (IZR d * (K * s * Rabs (re c u)) * IZR FZ) <= u / s * (IZR n * (K * s * re (tl q) u) * IZR FZ + IZR cr)) by (apply Rmult_le_compat_l; lra).
    replace (u / s * (IZR d * (K * s * Rabs (re c u)) * IZR FZ)) with (IZR d * (K * (u * Rabs (re c u))) * IZR FZ) in T4 by (field; lra).
    replace (u / s * (IZR n * (K * s * re (tl q) u) * IZR FZ + IZR cr)) with (IZR n * (K * (u * re (tl q) u)) * IZR FZ + u / s * IZR cr) in T4 by (field; lra).
    assert (u / s * IZR cr <= 1 * IZR cr) by (apply Rmult_le_compat_r; lra).
    lra.
Qed.
Lemma zcarry_zero n d s u cs c qs q K : (0 <= n)%Z -> (0 < d)%Z -> 0 < s -> 0 <= u <= s -> 0 < K -> prel K s cs c -> prel K s qs q ->
  (zcarry n d cs qs =? 0)%Z = true -> Rabs (re c u) <= IZR n / IZR d * re q u.
Proof.
  intros N D S U KP A B E. apply Z.eqb_eq in E. pose proof (zcarry_ok n d s u N D S U cs c qs q K KP A B) as H. rewrite E in H.
  apply IZR_lt in D. pose proof FZ_pos as FP. assert (P : 0 < IZR d * (K * IZR FZ)) by (repeat apply Rmult_lt_0_compat; lra).
  apply Rmult_le_reg_l with (IZR d * (K * IZR FZ)); [assumption|].
  replace (IZR d * (K * IZR FZ) * (IZR n / IZR d * re q u)) with (IZR n * (K * re q u) * IZR FZ) by (field; lra). lra.
Qed.
