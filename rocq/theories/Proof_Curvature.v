(** Lemmas for C116. *)
From Coq Require Import Reals List Bool ZArith Lra Lia Psatz.
From Verif Require Import Base_Real Base_Geom Model_Line Model_Curvature Spec_Curvature.
Import ListNotations.
Local Open Scope R_scope.

Lemma central_len v : length (central v) = (length v - 2)%nat.
Proof.
  induction v as [|a v IH]; [reflexivity|]. destruct v as [|b [|c v]]; [reflexivity|reflexivity|].
  change (central (a :: b :: c :: v)) with ((c - a) / 2 :: central (b :: c :: v)). cbn [length] in *. lia.
Qed.
Lemma central_nth v : forall i, (i + 2 < length v)%nat -> nth i (central v) 0 = (nth (i + 2) v 0 - nth i v 0) / 2.
Proof.
  induction v as [|a v IH]; intros i H; [cbn in H; lia|]. destruct v as [|b [|c v]]; [cbn in H; lia|cbn in H; lia|].
  change (central (a :: b :: c :: v)) with ((c - a) / 2 :: central (b :: c :: v)).
  destruct i as [|i]; [reflexivity|]. cbn [nth plus]. rewrite IH by (cbn [length] in *; lia). reflexivity.
Qed.
Lemma last_nth (l : list R) d : last l d = nth (length l - 1) l d.
Proof.
  induction l as [|a [|b l] IH]; [reflexivity|reflexivity|]. change (last (a :: b :: l) d) with (last (b :: l) d). rewrite IH.
  cbn [length]. rewrite !Nat.sub_succ, !Nat.sub_0_r. reflexivity.
Qed.
Lemma gradient_short v : (length v < 3)%nat -> gradient v = None.
Proof.
  intros H. unfold gradient. destruct (central v) as [|g gs] eqn:E; [reflexivity|]. pose proof (central_len v) as L. rewrite E in L. cbn in L. lia.
Qed.
Lemma gradient_spec v : (3 <= length v)%nat ->
  exists g, gradient v = Some g /\ length g = length v /\
    forall i, (i < length v)%nat -> nth i g 0 = slope (length v) (fun k => nth k v 0) i.
Proof.
  intros H. unfold gradient. destruct (central v) as [|g gs] eqn:E.
  { pose proof (central_len v) as L. rewrite E in L. cbn in L. lia. }
  pose proof (central_len v) as L. rewrite E in L.
  assert (N : forall j, (j + 2 < length v)%nat -> nth j (g :: gs) 0 = (nth (j + 2) v 0 - nth j v 0) / 2).
  { intros j Hj. rewrite <- E. apply central_nth, Hj. }
  exists (g :: (g :: gs) ++ [last (g :: gs) g]). split; [reflexivity|]. split.
  { cbn [length]. rewrite app_length. cbn [length] in *. lia. }
  intros i Hi. unfold slope.
  assert (X : nth i (g :: (g :: gs) ++ [last (g :: gs) g]) 0 = nth (inner (length v) i - 1) (g :: gs) 0).
  { unfold inner. destruct i as [|i].
    - replace (Nat.max 1 (Nat.min 0 (length v - 2)) - 1)%nat with 0%nat by lia. reflexivity.
    - cbn [nth]. destruct (Nat.lt_ge_cases i (length (g :: gs))) as [K|K].
      + rewrite app_nth1 by exact K. replace (Nat.max 1 (Nat.min (S i) (length v - 2)) - 1)%nat with i by lia. reflexivity.
      + rewrite app_nth2 by exact K. replace (i - length (g :: gs))%nat with 0%nat by lia. cbn [nth].
        rewrite last_nth. rewrite (nth_indep _ g 0) by (cbn [length]; lia).
        replace (Nat.max 1 (Nat.min (S i) (length v - 2)) - 1)%nat with (length (g :: gs) - 1)%nat by lia. reflexivity. }
  rewrite X, N by (unfold inner; lia). replace (inner (length v) i - 1 + 2)%nat with (S (inner (length v) i)) by (unfold inner; lia). reflexivity.
Qed.

Definition cx (l : list pt) (k : nat) : R := fst (nth k l (0, 0)).
Definition cy (l : list pt) (k : nat) : R := snd (nth k l (0, 0)).
Lemma nth_fst l k : nth k (map fst l) 0 = cx l k.
Proof. unfold cx. change 0 with (fst (0, 0)) at 1. apply map_nth. Qed.
Lemma nth_snd l k : nth k (map snd l) 0 = cy l k.
Proof. unfold cy. change 0 with (snd (0, 0)) at 1. apply map_nth. Qed.
Lemma slope_ext n f g i : (3 <= n)%nat -> (forall k, (k < n)%nat -> f k = g k) -> slope n f i = slope n g i.
Proof. intros H E. unfold slope. rewrite !E by (unfold inner; lia). reflexivity. Qed.
Definition kap (n : nat) (x y : nat -> R) (i : nat) : R :=
  curvature_at (slope n x i) (slope n y i) (slope n (slope n x) i) (slope n (slope n y) i).
Lemma kap_ext n x y x' y' i : (3 <= n)%nat -> (forall k, (k < n)%nat -> x k = x' k) -> (forall k, (k < n)%nat -> y k = y' k) ->
  kap n x y i = kap n x' y' i.
Proof.
  intros H Ex Ey. unfold kap. rewrite (slope_ext n x x' i), (slope_ext n y y' i), (slope_ext n (slope n x) (slope n x') i), (slope_ext n (slope n y) (slope n y') i); auto.
  - intros. apply slope_ext; auto.
  - intros. apply slope_ext; auto.
Qed.
Lemma map4_len f a : forall b c d, length b = length a -> length c = length a -> length d = length a -> length (map4 f a b c d) = length a.
Proof. induction a; intros [|? b] [|? c] [|? d] H1 H2 H3; cbn in *; try lia. f_equal. apply IHa; lia. Qed.
Lemma map4_nth f a : forall b c d i, length b = length a -> length c = length a -> length d = length a -> (i < length a)%nat ->
  nth i (map4 f a b c d) 0 = f (nth i a 0) (nth i b 0) (nth i c 0) (nth i d 0).
Proof.
  induction a; intros [|? b] [|? c] [|? d] i H1 H2 H3 Hi; cbn in *; try lia. destruct i; [reflexivity|]. apply IHa; lia.
Qed.
Lemma curvature_spec l : (3 <= length (pts l))%nat ->
  exists ks, get_curvature l = Some ks /\ length ks = length (pts l) /\
    forall i, (i < length (pts l))%nat -> nth i ks 0 = kap (length (pts l)) (cx (pts l)) (cy (pts l)) i.
Proof.
  intros H. unfold get_curvature. set (n := length (pts l)) in *.
  destruct (gradient_spec (map fst (pts l))) as (dx & E1 & L1 & N1); [rewrite map_length; exact H|].
  destruct (gradient_spec (map snd (pts l))) as (dy & E2 & L2 & N2); [rewrite map_length; exact H|].
  rewrite map_length in L1, N1, L2, N2. change (@length (R * R) (pts l)) with n in L1, N1, L2, N2.
  destruct (gradient_spec dx) as (ddx & E3 & L3 & N3); [rewrite L1; exact H|].
  destruct (gradient_spec dy) as (ddy & E4 & L4 & N4); [rewrite L2; exact H|].
  rewrite L1 in L3, N3. rewrite L2 in L4, N4. rewrite E1, E2, E3, E4.
  exists (map4 curvature_at dx dy ddx ddy). split; [reflexivity|].
  split; [rewrite map4_len; lia|].
  intros i Hi. rewrite map4_nth by lia. unfold kap.
  assert (X : forall k, (k < n)%nat -> nth k dx 0 = slope n (cx (pts l)) k).
  { intros k Hk. rewrite N1 by exact Hk. apply slope_ext; [exact H|]. intros. apply nth_fst. }
  assert (Y : forall k, (k < n)%nat -> nth k dy 0 = slope n (cy (pts l)) k).
  { intros k Hk. rewrite N2 by exact Hk. apply slope_ext; [exact H|]. intros. apply nth_snd. }
  rewrite X, Y, N3, N4 by exact Hi.
  rewrite (slope_ext n (fun k => nth k dx 0) (slope n (cx (pts l))) i H X), (slope_ext n (fun k => nth k dy 0) (slope n (cy (pts l))) i H Y).
  reflexivity.
Qed.
Lemma curvature_none l : get_curvature l = None <-> (length (pts l) < 3)%nat.
Proof.
  split; intros H.
  - destruct (Nat.lt_ge_cases (length (pts l)) 3) as [K|K]; [exact K|]. destruct (curvature_spec l K) as (ks & E & _). congruence.
  - unfold get_curvature. rewrite gradient_short by (rewrite map_length; exact H). reflexivity.
Qed.

Lemma list_nth_eq (a b : list R) n : length a = n -> length b = n -> (forall i, (i < n)%nat -> nth i a 0 = nth i b 0) -> a = b.
Proof. intros La Lb H. apply (nth_ext a b 0 0); [lia|]. intros i Hi. apply H. lia. Qed.

(** Relating two lines whose curvatures correspond index by index. *)
Lemma curvature_rel l l' (g : R -> R) : length (pts l') = length (pts l) ->
  (forall i, (3 <= length (pts l))%nat -> (i < length (pts l))%nat -> kap (length (pts l)) (cx (pts l')) (cy (pts l')) i = g (kap (length (pts l)) (cx (pts l)) (cy (pts l)) i)) ->
  get_curvature l' = option_map (map g) (get_curvature l).
Proof.
  intros L H. destruct (Nat.lt_ge_cases (length (pts l)) 3) as [K|K].
  - rewrite (proj2 (curvature_none l)), (proj2 (curvature_none l')) by lia. reflexivity.
  - destruct (curvature_spec l K) as (ks & E & Lk & N). destruct (curvature_spec l') as (ks' & E' & Lk' & N'); [lia|].
    rewrite E, E'. cbn [option_map]. f_equal. rewrite L in *.
    apply (list_nth_eq _ _ (length (pts l))); [exact Lk'|rewrite map_length; exact Lk|].
    intros i Hi. rewrite N' by exact Hi. rewrite H by assumption. rewrite (nth_indep _ 0 (g 0)) by (rewrite map_length; lia).
    rewrite map_nth, N by exact Hi. reflexivity.
Qed.
Lemma cx_map (T : pt -> pt) (l : list pt) k : (k < length l)%nat -> cx (map T l) k = fst (T (nth k l (0, 0))).
Proof. intros H. unfold cx. rewrite (nth_indep _ (0, 0) (T (0, 0))) by (rewrite map_length; exact H). rewrite map_nth. reflexivity. Qed.
Lemma cy_map (T : pt -> pt) (l : list pt) k : (k < length l)%nat -> cy (map T l) k = snd (T (nth k l (0, 0))).
Proof. intros H. unfold cy. rewrite (nth_indep _ (0, 0) (T (0, 0))) by (rewrite map_length; exact H). rewrite map_nth. reflexivity. Qed.
Lemma slope_lin n f g a b c i : slope n (fun k => a * f k + b * g k + c) i = a * slope n f i + b * slope n g i.
Proof. unfold slope. field. Qed.
Lemma slope2_lin n f g a b c i : (3 <= n)%nat -> slope n (slope n (fun k => a * f k + b * g k + c)) i = a * slope n (slope n f) i + b * slope n (slope n g) i.
Proof.
  intros H. rewrite (slope_ext n _ (fun k => a * slope n f k + b * slope n g k + 0)) by (auto; intros; rewrite slope_lin; ring).
  apply slope_lin.
Qed.
Lemma r_sqrt_zero r : 0 <= r -> (r * sqrt r = 0 <-> r = 0).
Proof.
  intros H. split.
  - intros E. apply Rmult_integral in E. destruct E as [E|E]; [exact E|]. apply sqrt_eq_0; assumption.
  - intros ->. ring.
Qed.
(** Linear images with determinant [m] squared or minus it. *)
Lemma curvature_at_scaled m s dx dy ddx ddy dx' dy' ddx' ddy' : 0 < m ->
  dx' * dx' + dy' * dy' = m * m * (dx * dx + dy * dy) ->
  dx' * ddy' - ddx' * dy' = s * (m * m) * (dx * ddy - ddx * dy) ->
  curvature_at dx' dy' ddx' ddy' = s * (curvature_at dx dy ddx ddy / m).
Proof.
  intros Hm HR HN. unfold curvature_at. cbv zeta. rewrite HR, HN.
  assert (P : 0 <= dx * dx + dy * dy) by nra.
  assert (Q : sqrt (m * m * (dx * dx + dy * dy)) = m * sqrt (dx * dx + dy * dy)).
  { rewrite sqrt_mult by nra. rewrite sqrt_square by lra. reflexivity. }
  rewrite Q. set (r := dx * dx + dy * dy) in *. pose proof (r_sqrt_zero r P) as Z.
  destruct (Reqb_spec (m * m * r * (m * sqrt r)) 0) as [E|E]; destruct (Reqb_spec (r * sqrt r) 0) as [E'|E'].
  - unfold Rdiv. ring.
  - exfalso. apply E'. assert (0 < m * m * m) by (repeat apply Rmult_lt_0_compat; lra). apply Rmult_eq_reg_l with (m * m * m); [|lra]. rewrite Rmult_0_r, <- E. ring.
  - exfalso. apply E. transitivity (m * m * m * (r * sqrt r)); [ring|]. rewrite E'. ring.
  - assert (r <> 0) by (intros X; apply E'; apply Z; exact X). assert (sqrt r <> 0) by (intros X; apply E'; rewrite X; ring).
    field. repeat split; auto; lra.
Qed.
Lemma curvature_at_zero dx dy ddx ddy : dx * ddy - ddx * dy = 0 -> curvature_at dx dy ddx ddy = 0.
Proof. intros H. unfold curvature_at. cbv zeta. rewrite H. destruct (Reqb_spec ((dx * dx + dy * dy) * sqrt (dx * dx + dy * dy)) 0); [reflexivity|]. unfold Rdiv. ring. Qed.

(** Distance to a polyline. *)
Lemma seg_dist2_attained p a b : exists t, 0 <= t <= 1 /\ seg_dist2 p a b = dist2 p (lerp t a b).
Proof.
  unfold seg_dist2. cbv zeta.
  set (c1 := (fst p - fst a) * (fst b - fst a) + (snd p - snd a) * (snd b - snd a)).
  set (c2 := (fst b - fst a) * (fst b - fst a) + (snd b - snd a) * (snd b - snd a)).
  destruct (Rleb_spec c1 0) as [H|H].
  - exists 0. split; [lra|]. f_equal. unfold lerp. destruct a as [a1 a2]. cbn [fst snd]. rewrite !Rmult_0_l, !Rplus_0_r. reflexivity.
  - destruct (Rleb_spec c2 c1) as [H'|H'].
    + exists 1. split; [lra|]. f_equal. unfold lerp. destruct a as [a1 a2], b as [b1 b2]. cbn [fst snd].
      replace (a1 + 1 * (b1 - a1)) with b1 by ring. replace (a2 + 1 * (b2 - a2)) with b2 by ring. reflexivity.
    + exists (c1 / c2). split; [|reflexivity]. split.
      * apply Rmult_le_pos; [lra|]. apply Rlt_le, Rinv_0_lt_compat. lra.
      * apply Rmult_le_reg_r with c2; [lra|]. unfold Rdiv. rewrite Rmult_assoc, Rinv_l by lra. lra.
Qed.
Lemma segs_dist2_spec (l : list pt) p : (2 <= length l)%nat ->
  exists m, segs_dist2 l p = Some m /\
    (exists i a b, nth_error l i = Some a /\ nth_error l (S i) = Some b /\ m = seg_dist2 p a b) /\
    (forall i a b, nth_error l i = Some a -> nth_error l (S i) = Some b -> m <= seg_dist2 p a b).
Proof.
  induction l as [|a l IH]; intros L; [cbn in L; lia|]. destruct l as [|b l]; [cbn in L; lia|].
  change (segs_dist2 (a :: b :: l) p) with
    (match segs_dist2 (b :: l) p with None => Some (seg_dist2 p a b) | Some d => Some (Rmin (seg_dist2 p a b) d) end).
  destruct l as [|c l].
  - cbn [segs_dist2]. exists (seg_dist2 p a b). split; [reflexivity|]. split; [exists 0%nat, a, b; auto|].
    intros [|i] x y H1 H2; cbn in H1, H2; [injection H1 as <-; injection H2 as <-; lra|]. destruct i; discriminate.
  - destruct IH as (m & -> & (i & x & y & Hx & Hy & Em) & Hm); [cbn; lia|].
    exists (Rmin (seg_dist2 p a b) m). split; [reflexivity|]. split.
    + destruct (Rle_dec (seg_dist2 p a b) m) as [K|K].
      * exists 0%nat, a, b. rewrite Rmin_left by exact K. auto.
      * exists (S i), x, y. rewrite Rmin_right by lra. auto.
    + intros [|j] u v H1 H2.
      * cbn in H1, H2. injection H1 as <-. injection H2 as <-. apply Rmin_l.
      * eapply Rle_trans; [apply Rmin_r|]. exact (Hm j u v H1 H2).
Qed.

Lemma increasing_iff (s : list R) : increasing s = true <-> forall i, (S i < length s)%nat -> nth i s 0 < nth (S i) s 0.
Proof.
  induction s as [|a s IH]; [split; [intros _ i H; cbn in H; lia|reflexivity]|].
  destruct s as [|b s]; [split; [intros _ i H; cbn in H; lia|reflexivity]|].
  change (increasing (a :: b :: s)) with (Rltb a b && increasing (b :: s)).
  destruct (Rltb_spec a b) as [H|H]; cbn [andb].
  - rewrite IH. split; intros G i Hi.
    + destruct i as [|i]; [exact H|]. apply (G i). cbn [length] in *. lia.
    + apply (G (S i)). cbn [length] in *. lia.
  - split; [discriminate|]. intros G. specialize (G 0%nat ltac:(cbn; lia)). cbn in G. lra.
Qed.
Lemma fold_add (f : nat -> pt) js : forall acc, pts (fold_left (fun acc j => add_point acc (f j)) js acc) = pts acc ++ map f js.
Proof.
  induction js as [|j js IH]; intros acc; cbn [fold_left map]; [rewrite app_nil_r; reflexivity|]. rewrite IH. cbn [add_point of_points pts].
  rewrite <- app_assoc. reflexivity.
Qed.
Lemma fold_add_ss (f : nat -> pt) js : forall acc, ss acc = recompute (pts acc) ->
  ss (fold_left (fun acc j => add_point acc (f j)) js acc) = recompute (pts (fold_left (fun acc j => add_point acc (f j)) js acc)).
Proof. induction js as [|j js IH]; intros acc H; cbn [fold_left]; [exact H|]. apply IH. reflexivity. Qed.
