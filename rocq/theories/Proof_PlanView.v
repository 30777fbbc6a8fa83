(** Lemmas for C46, C54-C56. *)
From Coq Require Import Reals ZArith List Bool Lra Lia Psatz.
From Verif Require Import Base_Real Base_Geom Model_Angle Model_Line Model_PlanView Spec_Line Spec_PlanView Proof_Angle Proof_Line Props_Line.
Import ListNotations.
Local Open Scope R_scope.

(** * The sampling loop *)
Lemma s_loop_more f : forall k len inc s l, s_loop f len inc s = Some l -> s_loop (f + k) len inc s = Some l.
Proof.
  induction f as [|f IH]; intros k len inc s l H; [discriminate|]. cbn in *.
  destruct (Rleb s len); [|exact H]. cbv zeta in *.
  match goal with H : context [s_loop f len ?i ?x] |- _ => destruct (s_loop f len i x) eqn:E; [|discriminate]; rewrite (IH k _ _ _ _ E) end.
  exact H.
Qed.
Lemma s_loop_fuel f f' len inc s l : s_loop f len inc s = Some l -> (f <= f')%nat -> s_loop f' len inc s = Some l.
Proof. intros H L. replace f' with (f + (f' - f))%nat by lia. apply s_loop_more, H. Qed.
Lemma s_loop_past f len inc s : len < s -> s_loop (S f) len inc s = Some [].
Proof. intros H. cbn. destruct (Rleb_spec s len); [lra|reflexivity]. Qed.
Lemma s_loop_end f len inc : 0 < inc -> s_loop (S (S f)) len inc len = Some [len].
Proof.
  intros H. cbn [s_loop]. destruct (Rleb_spec len len); [|lra]. cbv zeta.
  destruct (Rltb_spec 0 (len - len)); [lra|]. rewrite andb_false_r.
  destruct (Rleb_spec (len + inc) len); [lra|reflexivity].
Qed.
Lemma s_loop_grid n : forall len inc s, 0 < inc -> s + INR n * inc < len <= s + INR (S n) * inc ->
  s_loop (S (S (S n))) len inc s = Some (map (fun i => s + INR i * inc) (seq 0 (S n)) ++ [len]).
Proof.
  induction n as [|n IH]; intros len inc s Hi H.
  - cbn [INR] in H. change (s_loop 3 len inc s) with
      (if Rleb s len then
        let inc' := if Rltb (len - s) inc && Rltb 0 (len - s) then len - s else inc in
        match s_loop 2 len inc' (s + inc') with Some r => Some (s :: r) | None => None end
      else Some []).
    destruct (Rleb_spec s len); [|lra]. cbv zeta.
    destruct (Rltb_spec 0 (len - s)); [|lra]. rewrite andb_true_r.
    destruct (Rltb_spec (len - s) inc) as [Q|Q].
    + replace (s + (len - s)) with len by ring. rewrite s_loop_end by lra. cbn [map seq app INR]. do 2 f_equal. ring.
    + replace (s + inc) with len by lra. rewrite s_loop_end by lra. cbn [map seq app INR]. do 2 f_equal. ring.
  - assert (P : 0 <= INR n) by apply pos_INR. rewrite !S_INR in H.
    change (s_loop (S (S (S (S n)))) len inc s) with
      (if Rleb s len then
        let inc' := if Rltb (len - s) inc && Rltb 0 (len - s) then len - s else inc in
        match s_loop (S (S (S n))) len inc' (s + inc') with Some r => Some (s :: r) | None => None end
      else Some []).
    assert (P2 : 0 <= INR n * inc) by (apply Rmult_le_pos; lra).
    destruct (Rleb_spec s len); [|lra]. cbv zeta.
    destruct (Rltb_spec (len - s) inc) as [Q|Q]; [lra|]. cbn [andb].
    rewrite IH; [|auto|rewrite !S_INR; lra].
    change (seq 0 (S (S n))) with (0%nat :: seq 1 (S n)). rewrite <- (seq_shift (S n) 0).
    rewrite map_cons, map_map. cbn [app]. f_equal. f_equal; [cbn; ring|]. f_equal.
    apply map_ext. intros a. rewrite S_INR. ring.
Qed.
Lemma grid_index len inc : 0 < len -> 0 < inc -> exists n, INR n * inc < len <= INR (S n) * inc.
Proof.
  intros Hl Hi. assert (HX : exists N, len / inc < INR N).
  { destruct (archimed (len / inc)) as [A _]. exists (Z.to_nat (up (len / inc))). rewrite INR_IZR_INZ, Z2Nat.id; auto.
    apply le_IZR. assert (0 < len / inc) by (apply Rdiv_lt_0_compat; auto). lra. }
  destruct HX as [N HN].
  assert (HN' : len <= INR N * inc).
  { apply Rmult_lt_compat_r with (r := inc) in HN; auto. unfold Rdiv in HN. rewrite Rmult_assoc, Rinv_l in HN; lra. }
  clear HN. induction N as [|N IH]; [cbn in HN'; lra|].
  destruct (Rle_lt_dec len (INR N * inc)); eauto.
Qed.
(** The loop from [s0] visits [s0] plus the grid. *)
Lemma s_loop_spec s0 len inc : 0 < inc -> s0 <= len -> exists F g, sample_grid (len - s0) inc g /\
  forall f, (F <= f)%nat -> s_loop f len inc s0 = Some (map (Rplus s0) g).
Proof.
  intros Hi [H|H].
  - destruct (grid_index (len - s0) inc) as [n Hn]; [lra|auto|].
    exists (S (S (S n))), (map (fun i => INR i * inc) (seq 0 (S n)) ++ [len - s0]). split.
    + right. split; [lra|]. exists n. auto.
    + intros f Hf. apply s_loop_fuel with (2 := Hf).
      rewrite s_loop_grid; [|auto|lra]. rewrite map_app, map_map. do 2 f_equal. cbn. f_equal. lra.
  - subst len. exists 2%nat, [0]. split; [left; split; [lra|auto]|].
    intros f Hf. apply s_loop_fuel with (2 := Hf). rewrite s_loop_end by auto. cbn. do 2 f_equal. lra.
Qed.
Lemma s_loop_spec0 len inc : 0 < inc -> 0 <= len -> exists F g, sample_grid len inc g /\
  forall f, (F <= f)%nat -> s_loop f len inc 0 = Some g.
Proof.
  intros Hi Hl. destruct (s_loop_spec 0 len inc Hi Hl) as (F & g & G & H). exists F, g. rewrite Rminus_0_r in G. split; auto.
  intros f Hf. rewrite (H f Hf). f_equal. rewrite <- (map_id g) at 2. apply map_ext. intros; ring.
Qed.
Lemma grid_nonempty len inc g : sample_grid len inc g -> exists r, g = 0 :: r.
Proof. intros [[_ ->]|(_ & n & _ & ->)]; [eauto|]. cbn. exists (map (fun i => INR i * inc) (seq 1 n) ++ [len]). f_equal. ring. Qed.
Lemma grid_last len inc g : sample_grid len inc g -> exists r, g = r ++ [len].
Proof. intros [[-> ->]|(_ & n & _ & ->)]; [exists []; auto|eauto]. Qed.

(** * Adding points *)
Lemma add_points_pts {A} (f : A -> pt) sl : forall l, pts (fold_left (fun l i => add_point l (f i)) sl l) = pts l ++ map f sl.
Proof. induction sl as [|a sl IH]; intros l; cbn; [rewrite app_nil_r; auto|]. rewrite IH. cbn. rewrite <- app_assoc. reflexivity. Qed.
Lemma add_points_cons {A} (f : A -> pt) sl : forall l, sl <> [] -> consistent (fold_left (fun l i => add_point l (f i)) sl l).
Proof.
  induction sl as [|a sl IH]; intros l H; [tauto|]. cbn. destruct sl as [|b sl]; [apply recompute_spec|apply IH; discriminate].
Qed.
Lemma add_samples_some (f : R -> pt) (place : R -> option pt) sl : (forall s, In s sl -> place s = Some (f s)) ->
  forall l, add_samples place l sl = Some (fold_left (fun l s => add_point l (f s)) sl l).
Proof.
  induction sl as [|s sl IH]; intros H l; cbn; [auto|]. rewrite (H s) by (left; auto). apply IH. intros; apply H; right; auto.
Qed.
Lemma consistent_determined l m : consistent l -> consistent m -> pts l = pts m -> l = m.
Proof.
  destruct l as [p s], m as [q t]. unfold consistent. cbn. intros A B ->. apply arc_lengths_unique in A, B. congruence.
Qed.

(** * Unit-speed curves *)
Lemma mvt_chord g start hd (a b ux uy : R) : unit_curve g start hd -> a < b ->
  exists c, a < c < b /\ ux * (fst (g b) - fst (g a)) + uy * (snd (g b) - snd (g a)) = (ux * cos (hd c) + uy * sin (hd c)) * (b - a).
Proof.
  intros [_ D] L.
  assert (DD : forall c, derivable_pt_lim (fun x => ux * fst (g x) + uy * snd (g x)) c (ux * cos (hd c) + uy * sin (hd c))).
  { intros c. destruct (D c) as [D1 D2].
    apply (derivable_pt_lim_plus (fun x => ux * fst (g x)) (fun x => uy * snd (g x))); [apply (derivable_pt_lim_scal (fun x => fst (g x)))|apply (derivable_pt_lim_scal (fun x => snd (g x)))]; auto. }
  destruct (MVT_cor2 (fun x => ux * fst (g x) + uy * snd (g x)) (fun c => ux * cos (hd c) + uy * sin (hd c)) a b L) as (c & E & Hc).
  { intros c _. apply DD. }
  exists c. split; auto. rewrite <- E. ring.
Qed.
Lemma chord_le g start hd a b : unit_curve g start hd -> a <= b -> dist (g a) (g b) <= b - a.
Proof.
  intros U [L|<-]; [|rewrite dist_refl; lra].
  destruct (Req_dec (dist (g a) (g b)) 0) as [Z|NZ]; [lra|].
  pose proof (dist_nonneg (g a) (g b)) as Dp. set (d := dist (g a) (g b)) in *.
  set (ux := (fst (g b) - fst (g a)) / d). set (uy := (snd (g b) - snd (g a)) / d).
  destruct (mvt_chord g start hd a b ux uy U L) as (c & Hc & E).
  assert (Ed : d * d = (fst (g b) - fst (g a)) * (fst (g b) - fst (g a)) + (snd (g b) - snd (g a)) * (snd (g b) - snd (g a))).
  { unfold d. rewrite dist_sq. unfold dist2. ring. }
  assert (E1 : ux * (fst (g b) - fst (g a)) + uy * (snd (g b) - snd (g a)) = d).
  { unfold ux, uy. apply Rmult_eq_reg_r with d; auto. rewrite Ed. field. auto. }
  assert (N : ux * ux + uy * uy = 1).
  { unfold ux, uy. apply Rmult_eq_reg_r with (d * d); [|nra]. transitivity (d * d); [|ring]. rewrite Ed at 2. field. auto. }
  rewrite E1 in E. rewrite E.
  pose proof (sin2_cos2 (hd c)) as T. unfold Rsqr in T.
  assert (W : ux * cos (hd c) + uy * sin (hd c) <= 1).
  { pose proof (Rle_0_sqr (ux - cos (hd c))) as Q1. pose proof (Rle_0_sqr (uy - sin (hd c))) as Q2. unfold Rsqr in Q1, Q2. nra. }
  apply Rmult_le_compat_r with (r := b - a) in W; lra.
Qed.
Lemma chord_ge g start hd a b delta : unit_curve g start hd -> a <= b -> 0 <= delta <= PI ->
  (forall c, a <= c <= b -> Rabs (hd c - hd a) <= delta) -> cos delta * (b - a) <= dist (g a) (g b).
Proof.
  intros U [L|<-] HD HT; [|rewrite dist_refl; lra].
  destruct (mvt_chord g start hd a b (cos (hd a)) (sin (hd a)) U L) as (c & Hc & E).
  replace (cos (hd a) * cos (hd c) + sin (hd a) * sin (hd c)) with (cos (hd c - hd a)) in E by (rewrite cos_minus; ring).
  assert (CC : cos delta <= cos (hd c - hd a)).
  { specialize (HT c ltac:(lra)). replace (cos (hd c - hd a)) with (cos (Rabs (hd c - hd a))).
    - destruct HT as [Q|Q]; [|rewrite Q; lra]. left. apply cos_decreasing_1; pose proof (Rabs_pos (hd c - hd a)); lra.
    - unfold Rabs. destruct (Rcase_abs (hd c - hd a)); auto. apply cos_neg. }
  assert (Q : cos (hd c - hd a) * (b - a) <= dist (g a) (g b)).
  { rewrite <- E. set (x := fst (g b) - fst (g a)). set (y := snd (g b) - snd (g a)).
    pose proof (dist_nonneg (g a) (g b)) as P. pose proof (dist_sq (g a) (g b)) as S.
    unfold dist2 in S. 
    pose proof (sin2_cos2 (hd a)) as T. unfold Rsqr in T.
    apply Rnot_lt_le. intros X.
    set (d := dist (g a) (g b)) in *. set (C := cos (hd a)) in *. set (N := sin (hd a)) in *.
    assert (S' : d * d = x * x + y * y) by (rewrite S; unfold x, y; ring).
    assert (X2 : d < C * x + N * y) by exact X.
    pose proof (Rle_0_sqr (C * y - N * x)) as K. unfold Rsqr in K.
    assert (K2 : (C * x + N * y) * (C * x + N * y) <= d * d).
    { rewrite S'. replace (x * x + y * y) with ((N * N + C * C) * (x * x + y * y)) by (rewrite T; ring). nra. }
    assert (d * d < (C * x + N * y) * (C * x + N * y)) by (apply Rmult_le_0_lt_compat; lra). lra. }
  apply Rmult_le_compat_r with (r := b - a) in CC; lra.
Qed.

(** * Length of a sampled curve *)
Lemma plen_app1 l p q : polyline_length (l ++ [p; q]) = polyline_length (l ++ [p]) + dist p q.
Proof.
  induction l as [|a l IH]; [cbn; lra|]. destruct l as [|b l]; [cbn; lra|]. cbn [app] in *. 
  change (dist a b + polyline_length (b :: l ++ [p; q]) = dist a b + polyline_length (b :: l ++ [p]) + dist p q). rewrite IH. ring.
Qed.
Lemma grid_plen (g : R -> pt) lo inc n : forall k len,
  (forall a b, INR k * inc <= a -> a <= b -> b <= len -> b <= a + inc -> lo * (b - a) <= dist (g a) (g b) <= b - a) -> 0 < inc ->
  INR (k + n) * inc < len <= INR (k + S n) * inc ->
  lo * (len - INR k * inc) <= polyline_length (map g (map (fun i => INR i * inc) (seq k (S n)) ++ [len])) <= len - INR k * inc.
Proof.
  induction n as [|n IH]; intros k len H Hi HL.
  - replace (k + 0)%nat with k in HL by lia. replace (k + 1)%nat with (S k) in HL by lia. rewrite S_INR in HL.
    cbn [seq map app polyline_length]. 
    specialize (H (INR k * inc) len ltac:(lra) ltac:(lra) ltac:(lra) ltac:(lra)). lra.
  - assert (P : 0 <= INR n * inc) by (apply Rmult_le_pos; [apply pos_INR|lra]).
    assert (SK : INR (S k) * inc <= len). { rewrite S_INR. rewrite plus_INR, S_INR in HL. nra. }
    specialize (IH (S k) len).
    change (seq k (S (S n))) with (k :: seq (S k) (S n)).
    remember (seq (S k) (S n)) as q eqn:Eq. assert (Hq : exists r, q = S k :: r) by (subst q; cbn; eauto). destruct Hq as [r Hr].
    cbn [map app]. 
    assert (D := H (INR k * inc) (INR (S k) * inc) ltac:(lra) ltac:(rewrite S_INR; nra) SK ltac:(rewrite S_INR; nra)).
    replace (polyline_length (g (INR k * inc) :: map g (map (fun i => INR i * inc) q ++ [len]))) with
      (dist (g (INR k * inc)) (g (INR (S k) * inc)) + polyline_length (map g (map (fun i => INR i * inc) q ++ [len]))).
    2:{ rewrite Hr. reflexivity. }
    assert (I : lo * (len - INR (S k) * inc) <= polyline_length (map g (map (fun i => INR i * inc) q ++ [len])) <= len - INR (S k) * inc).
    { apply IH; auto. - intros a b A1 A2 A3. apply H; auto. rewrite S_INR in A1. nra.
      - replace (S k + n)%nat with (k + S n)%nat by lia. replace (S k + S n)%nat with (k + S (S n))%nat by lia. auto. }
    rewrite S_INR in *. nra.
Qed.
Lemma sampled_length (g : R -> pt) lo inc len l : 0 < inc -> sample_grid len inc l ->
  (forall a b, 0 <= a -> a <= b -> b <= len -> b <= a + inc -> lo * (b - a) <= dist (g a) (g b) <= b - a) ->
  lo * len <= polyline_length (map g l) <= len.
Proof.
  intros Hi [[-> ->]|(HL & n & Hn & ->)] H; [cbn; lra|].
  pose proof (grid_plen g lo inc n 0 len) as G. cbn [INR] in G. rewrite Rmult_0_l, Rminus_0_r in G.
  apply G; auto.
Qed.
