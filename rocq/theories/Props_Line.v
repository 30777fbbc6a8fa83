(** C23, C24, C25, C48, C49: polylines (bark/geometry/line.hpp). *)
From Coq Require Import Reals List Bool Lra Lia Psatz Arith.
From Verif Require Import Base_Real Base_Geom Model_Line Spec_Line Proof_Line.
Import ListNotations.
Local Open Scope R_scope.

(** Lines a client can obtain by building and editing without Reverse/Translate. *)
Inductive built : line -> Prop :=
| b_empty : built empty_line
| b_matrix rows : built (line_of_matrix rows)
| b_add l p : built l -> built (add_point l p)
| b_adds l ps : built l -> built (add_points l ps)
| b_append l m : built l -> built (append_linestring l m)
| b_unique l : built l -> built (remove_duplicates l)
| b_rotate l h : built l -> built (rotate_line l h)
| b_simplify f l d : built l -> built (simplify_line f l d).

Theorem C23_stored_arc_lengths : forall l, built l -> arc_lengths_of (pts l) (ss l).
Proof. intros l H. destruct H; apply recompute_spec. Qed.
Print Assumptions C23_stored_arc_lengths.

(** What that means: s starts at 0, its differences are the segment lengths, it never decreases, and it
    ends with Length(). *)
Theorem C23_arc_lengths_meaning : forall l, arc_lengths_of (pts l) (ss l) ->
  (forall s0, nth_error (ss l) 0 = Some s0 -> s0 = 0) /\
  (forall i p q si sj, nth_error (pts l) i = Some p -> nth_error (pts l) (S i) = Some q ->
     nth_error (ss l) i = Some si -> nth_error (ss l) (S i) = Some sj -> sj - si = dist p q) /\
  (forall i j si sj, (i <= j)%nat -> nth_error (ss l) i = Some si -> nth_error (ss l) j = Some sj -> si <= sj) /\
  (forall s, last_opt (ss l) = Some s -> s = line_length l) /\
  length (ss l) = length (pts l).
Proof.
  intros l C. pose proof (proj1 C) as L. repeat split.
  - intros s0 H. pose proof (nth_lt _ _ _ H). rewrite (cons_nth l 0 C) in H by lia. inversion H. apply S_0.
  - intros i p q si sj Hp Hq Hi Hj. pose proof (nth_lt _ _ _ Hq). rewrite (cons_nth l) in Hi, Hj by (auto; lia).
    inversion Hi. inversion Hj. rewrite (S_step _ i p q) by auto. ring.
  - intros i j si sj Hij Hi Hj. pose proof (nth_lt _ _ _ Hj). rewrite (cons_nth l) in Hi, Hj by (auto; lia).
    inversion Hi. inversion Hj. apply S_mono; lia.
  - intros s H. pose proof (nth_lt (ss l) _ _ H). rewrite (cons_last l) in H by (auto; lia).
    inversion H. reflexivity.
  - exact L.
Qed.
Print Assumptions C23_arc_lengths_meaning.

(** GetPointAtS: defined for every s, the unique point at that distance along the line; arguments
    outside [0, Length] are clamped. *)
Theorem C23_point_at_arc_length : forall l s, arc_lengths_of (pts l) (ss l) -> (2 <= length (pts l))%nat ->
  exists P, get_point_at_s l s = Some P /\
    at_arclength (pts l) (clamp 0 (line_length l) s) P /\
    forall Q, at_arclength (pts l) (clamp 0 (line_length l) s) Q -> Q = P.
Proof.
  intros l s C L. destruct (get_point_spec l s C L) as (P & E & H). exists P. repeat split; auto.
  intros Q HQ. eapply at_arclength_unique; eauto.
Qed.
Print Assumptions C23_point_at_arc_length.

Lemma clamp_in lo hi x : lo <= x <= hi -> clamp lo hi x = x.
Proof. intros H. unfold clamp. rewrite Rmin_right by lra. apply Rmax_right. lra. Qed.
Lemma clamp_range lo hi x : lo <= hi -> lo <= clamp lo hi x <= hi.
Proof.
  intros H. unfold clamp. split; [apply Rmax_l|]. apply Rmax_lub; [auto|apply Rmin_l].
Qed.
Lemma clamp_lip lo hi x y : lo <= hi -> Rabs (clamp lo hi x - clamp lo hi y) <= Rabs (x - y).
Proof.
  intros H.
  assert (K : forall z, (z <= lo /\ clamp lo hi z = lo) \/ (lo <= z <= hi /\ clamp lo hi z = z) \/ (hi <= z /\ clamp lo hi z = hi)).
  { intros z. unfold clamp. destruct (Rle_dec z lo); [left|destruct (Rle_dec z hi); [right; left|right; right]].
    - rewrite Rmin_right by lra. rewrite Rmax_left; lra.
    - rewrite Rmin_right by lra. rewrite Rmax_right; lra.
    - rewrite Rmin_left by lra. rewrite Rmax_right; lra. }
  destruct (K x) as [[? ->]|[[? ->]|[? ->]]], (K y) as [[? ->]|[[? ->]|[? ->]]]; unfold Rabs;
    repeat destruct (Rcase_abs _); lra.
Qed.

(** The i-th vertex is found at the i-th stored arc length; the ends at 0 and Length. *)
Theorem C23_vertices : forall l i p si, arc_lengths_of (pts l) (ss l) -> (2 <= length (pts l))%nat ->
  nth_error (pts l) i = Some p -> nth_error (ss l) i = Some si -> get_point_at_s l si = Some p.
Proof.
  intros l i p si C L Hp Hs. pose proof (nth_lt _ _ _ Hp). rewrite (cons_nth l i C) in Hs by auto. inversion Hs.
  destruct (get_point_spec l (S_ (pts l) i) C L) as (P & E & A). rewrite E. f_equal.
  pose proof (at_arclength_vertex (pts l) i p Hp L) as V. rewrite clamp_in in A by (eapply at_arclength_range; eauto).
  eapply at_arclength_unique; eauto.
Qed.
Print Assumptions C23_vertices.
Theorem C23_ends : forall l s, arc_lengths_of (pts l) (ss l) -> (2 <= length (pts l))%nat ->
  (s <= 0 -> get_point_at_s l s = nth_error (pts l) 0) /\
  (line_length l <= s -> get_point_at_s l s = last_opt (pts l)).
Proof.
  intros l s C L. destruct (get_point_spec l s C L) as (P & E & A). split; intros H.
  - unfold get_point_at_s. cbv zeta. destruct (Nat.leb_spec (length (pts l)) 1); [lia|].
    destruct (Rleb_spec s 0); [reflexivity|lra].
  - destruct (nth_some (pts l) (length (pts l) - 1)) as [q Hq]; [lia|]. unfold last_opt. rewrite Hq, E. f_equal.
    unfold clamp, line_length in *. rewrite bg_length_plen in H.
    rewrite Rmin_left in A by auto. rewrite Rmax_right in A by apply plen_nonneg.
    pose proof (at_arclength_vertex (pts l) _ q Hq L) as V. rewrite S_last in V by lia.
    eapply at_arclength_unique; eauto.
Qed.
Print Assumptions C23_ends.

(** Moving along the line by ds moves the point by at most |ds| (continuity). *)
Theorem C23_no_jumps : forall l s s' P Q, arc_lengths_of (pts l) (ss l) -> (2 <= length (pts l))%nat ->
  get_point_at_s l s = Some P -> get_point_at_s l s' = Some Q -> dist P Q <= Rabs (s - s').
Proof.
  intros l s s' P Q C L HP HQ. destruct (get_point_spec l s C L) as (P' & E & A).
  destruct (get_point_spec l s' C L) as (Q' & E' & A'). assert (P' = P) by congruence. assert (Q' = Q) by congruence. subst.
  eapply Rle_trans; [eapply at_arclength_lip; eauto|]. apply clamp_lip. apply plen_nonneg.
Qed.
Print Assumptions C23_no_jumps.

(** A line with a single point does not return that point but the origin. *)
Theorem C23_single_point_refuted :
  exists l p, built l /\ pts l = [p] /\ forall s, get_point_at_s l s <> Some p.
Proof.
  exists (add_point empty_line (1, 1)), (1, 1). split; [repeat constructor|]. split; [reflexivity|].
  intros s H. cbn in H. inversion H. lra.
Qed.
Print Assumptions C23_single_point_refuted.

(** Tangent and normal strictly inside a segment: the tangent is the direction of the segment, the normal
    is the unit vector to its left. *)
Lemma asin1 : asin 1 = PI / 2.
Proof. apply asin_1. Qed.
Lemma seg_angle_polar p q :
  dist p q * cos (seg_angle p q) = fst q - fst p /\ dist p q * sin (seg_angle p q) = snd q - snd p.
Proof.
  unfold seg_angle. pose proof (atan2_polar (fst q - fst p) (snd q - snd p)) as [A B].
  replace (sqrt _) with (dist p q) in A, B; auto. rewrite dist_sym. reflexivity.
Qed.
Lemma lower_eq_upper l s i : consistent l -> (2 <= length (pts l))%nat -> 0 <= s < polyline_length (pts l) ->
  upper_bound (ss l) s = S i -> S_ (pts l) i < s -> lower_bound (ss l) s = S i.
Proof.
  intros C L H E Hs. destruct (upper_bound_spec (ss l) s) as [U1 [U2 U3]]. rewrite E in *.
  destruct (lower_bound_spec (ss l) s) as [L1 [L2 L3]]. pose proof (proj1 C) as LS.
  destruct (lt_eq_lt_dec (lower_bound (ss l) s) (S i)) as [[X|X]|X]; auto.
  - exfalso. specialize (L3 _ (cons_nth l (lower_bound (ss l) s) C ltac:(lia))).
    pose proof (S_mono (pts l) (lower_bound (ss l) s) i ltac:(lia) ltac:(lia)). lra.
  - exfalso. assert (Li : (S i < length (pts l))%nat) by lia.
    specialize (U3 _ (cons_nth l (S i) C Li)). specialize (L2 (S i) _ X (cons_nth l (S i) C Li)). lra.
Qed.
Theorem C23_tangent_inside_segment : forall l s i p q si sj, arc_lengths_of (pts l) (ss l) ->
  nth_error (pts l) i = Some p -> nth_error (pts l) (S i) = Some q ->
  nth_error (ss l) i = Some si -> nth_error (ss l) (S i) = Some sj -> si < s < sj ->
  exists a n, get_tangent_angle_at_s l s = Some a /\ get_normal_at_s l s = Some n /\
    dist p q * cos a = fst q - fst p /\ dist p q * sin a = snd q - snd p /\
    fst n * fst n + snd n * snd n = 1 /\
    fst n * (fst q - fst p) + snd n * (snd q - snd p) = 0 /\
    (fst q - fst p) * snd n - (snd q - snd p) * fst n = dist p q.
Proof.
  intros l s i p q si sj C Hp Hq Hi Hj Hs. pose proof (nth_lt _ _ _ Hq) as Lq.
  rewrite (cons_nth l) in Hi, Hj by (auto; lia). inversion Hi; subst si. inversion Hj; subst sj. clear Hi Hj.
  assert (L2 : (2 <= length (pts l))%nat) by lia.
  pose proof (S_mono (pts l) 0 i ltac:(lia) ltac:(lia)) as M0. rewrite S_0 in M0.
  pose proof (S_mono (pts l) (S i) (length (pts l) - 1) ltac:(lia) ltac:(lia)) as M1. rewrite S_last in M1 by lia.
  assert (T : get_tangent_angle_at_s l s = Some (seg_angle p q)).
  { unfold get_tangent_angle_at_s. rewrite cons_last by (auto; lia).
    destruct (Rleb_spec (polyline_length (pts l)) s); [lra|]. destruct (Rleb_spec s 0); [lra|].
    destruct (segment_end_cons l s C L2 ltac:(lra)) as (j & p' & q' & E & Hp' & Hq' & HS & EU).
    assert (j = i).
    { pose proof (nth_lt _ _ _ Hq'). destruct (lt_eq_lt_dec i j) as [[X|X]|X]; auto; exfalso.
      - pose proof (S_mono (pts l) (S i) j X ltac:(lia)). lra.
      - pose proof (S_mono (pts l) (S j) i X ltac:(lia)). lra. }
    subst j. unfold at_vertex. rewrite E, (lower_eq_upper l s i C L2) by (auto; lra). rewrite Nat.eqb_refl. cbn [negb].
    unfold nth_seg. rewrite Hp, Hq. reflexivity. }
  destruct (seg_angle_polar p q) as [PC PS].
  exists (seg_angle p q), (cos (seg_angle p q + PI / 2), sin (seg_angle p q + PI / 2)).
  split; [exact T|]. split; [unfold get_normal_at_s; rewrite T, asin1; reflexivity|].
  split; [exact PC|]. split; [exact PS|]. cbn [fst snd].
  replace (cos (seg_angle p q + PI / 2)) with (- sin (seg_angle p q)).
  2:{ rewrite cos_plus, cos_PI2, sin_PI2. ring. }
  replace (sin (seg_angle p q + PI / 2)) with (cos (seg_angle p q)).
  2:{ rewrite sin_plus, cos_PI2, sin_PI2. ring. }
  pose proof (sin2_cos2 (seg_angle p q)) as T1. unfold Rsqr in T1.
  rewrite <- PC, <- PS. split; [|split].
  - rewrite <- T1. ring.
  - ring.
  - transitivity (dist p q * (sin (seg_angle p q) * sin (seg_angle p q) + cos (seg_angle p q) * cos (seg_angle p q))); [ring|].
    rewrite T1. ring.
Qed.
Print Assumptions C23_tangent_inside_segment.

Example C23_nonvacuous :
  let l := add_points empty_line [(0, 0); (3, 4); (3, 4); (3, 14)] in
  built l /\ line_length l = 15 /\ get_point_at_s l 10 = Some (3, 9) /\ get_point_at_s l 5 = Some (3, 4) /\
  get_point_at_s l 99 = Some (3, 14).
Proof.
  intros l. assert (B : built l) by repeat constructor.
  pose proof (C23_stored_arc_lengths l B) as C.
  assert (D1 : dist (0, 0) (3, 4) = 5).
  { unfold dist. cbn. replace (_ + _) with (5 * 5) by ring. apply sqrt_square. lra. }
  assert (D2 : dist (3, 4) (3, 14) = 10).
  { unfold dist. cbn. replace (_ + _) with (10 * 10) by ring. apply sqrt_square. lra. }
  assert (EL : line_length l = 15). { unfold line_length, l. cbn. rewrite D1, D2, dist_refl. lra. }
  assert (L2 : (2 <= length (pts l))%nat) by (cbn; lia).
  split; [exact B|]. split; [exact EL|].
  assert (G : forall s P, 0 <= s <= 15 -> at_arclength (pts l) s P -> get_point_at_s l s = Some P).
  { intros s P Hs A. destruct (C23_point_at_arc_length l s C L2) as (Q & E & _ & U). rewrite E. f_equal.
    symmetry. apply U. rewrite EL, clamp_in by lra. exact A. }
  repeat split.
  - apply G; [lra|]. exists 2%nat, (3, 4), (3, 14), (1/2). repeat split; try lra.
    + unfold lerp. cbn. f_equal; lra.
    + assert (D3 : dist (3, 4) (3, 9) = 5).
      { unfold dist. cbn. replace (_ + _) with (5 * 5) by ring. apply sqrt_square. lra. }
      rewrite D3. cbn. rewrite D1, dist_refl. lra.
  - apply G; [lra|]. exists 1%nat, (3, 4), (3, 4), 0. repeat split; try lra.
    + now rewrite lerp0.
    + cbn. rewrite D1, dist_refl. lra.
  - rewrite (proj2 (C23_ends l 99 C L2)) by lra. reflexivity.
Qed.

(** C24. *)
Theorem C24_nearest_point : forall l p p0 p1 r, arc_lengths_of (pts l) (ss l) -> pts l = p0 :: p1 :: r -> p0 <> p1 ->
  exists P s i t, get_nearest_point_and_s l p = Some (P, s, i) /\
    on_segment (pts l) i t P /\ at_arclength (pts l) s P /\
    (forall Q, on_polyline (pts l) Q -> dist p P <= dist p Q).
Proof.
  intros l p p0 p1 r C EP NE.
  assert (L2 : (2 <= length (pts l))%nat) by (rewrite EP; cbn; lia).
  destruct (min_seg_cons (pts l) p L2) as (a & b & Ha & Hb & Hmin & Hfirst). cbv zeta in *.
  set (i := min_seg (pts l) p 0 None 0) in *.
  assert (Hab : a <> b).
  { intros ->. destruct i as [|j].
    - rewrite EP in Ha, Hb. cbn in Ha, Hb. congruence.
    - destruct (nth_some (pts l) j) as [c Hc]; [apply nth_lt in Ha; lia|].
      specialize (Hfirst j (seg_dist2 p c b) ltac:(lia)). unfold seg_d2 in Hfirst. rewrite Hc, Ha in Hfirst.
      specialize (Hfirst eq_refl). rewrite seg_dist2_degenerate in Hfirst. pose proof (seg_dist2_end p c b). lra. }
  pose proof (nth_lt _ _ _ Hb) as Lb.
  destruct (nearest_on_segment_spec a b p (S_ (pts l) i) (S_ (pts l) (S i)) i Hab) as (P & t & E & Ht & EPt & ED).
  exists P, ((1 - t) * S_ (pts l) i + t * S_ (pts l) (S i)), i, t. repeat split.
  - unfold get_nearest_point_and_s. rewrite EP at 1. cbv zeta. fold i.
    rewrite Ha, Hb, (cons_nth l i), (cons_nth l (S i)) by (auto; lia). exact E.
  - exists a, b. auto.
  - exists i, a, b, t. repeat split; auto; try lra. fold (S_ (pts l) i). rewrite (S_step _ i a b Ha Hb).
    rewrite EPt, dist_lerp_l by lra. ring.
  - intros Q (j & u & c & d & Hc & Hd & Hu & ->). apply dist_le_iff. rewrite ED.
    eapply Rle_trans; [apply (Hmin j (seg_dist2 p c d))|apply seg_dist2_min; auto].
    unfold seg_d2. rewrite Hc, Hd. reflexivity.
Qed.
Print Assumptions C24_nearest_point.

(** If the line starts with two equal points, the result is not a number as soon as that start is the
    nearest part of the line. *)
Theorem C24_repeated_start_refuted :
  exists l p, built l /\ length (pts l) = 3%nat /\ get_nearest_point_and_s l p = None.
Proof.
  exists (add_points empty_line [(0, 0); (0, 0); (1, 0)]), (-1, 0). split; [repeat constructor|]. split; [reflexivity|].
  set (l := add_points _ _). assert (E : pts l = [(0, 0); (0, 0); (1, 0)]) by reflexivity.
  unfold get_nearest_point_and_s. rewrite E.
  assert (M : min_seg [(0, 0); (0, 0); (1, 0)] (-1, 0) 0 None 0 = 0%nat).
  { cbn [min_seg]. rewrite seg_dist2_degenerate.
    replace (seg_dist2 (-1, 0) (0, 0) (1, 0)) with 1.
    - replace (dist2 (-1, 0) (0, 0)) with 1 by (unfold dist2; cbn; ring).
      destruct (Rltb_spec 1 1); [lra|reflexivity].
    - unfold seg_dist2. cbn [fst snd]. destruct (Rleb_spec ((-1 - 0) * (1 - 0) + (0 - 0) * (0 - 0)) 0); [|lra].
      unfold dist2. cbn. ring. }
  rewrite M. cbn [nth_error]. destruct (ss l) as [|s0 [|s1 sr]]; [reflexivity|reflexivity|].
  unfold nearest_on_segment. cbn [fst snd]. cbv zeta.
  match goal with |- context [Reqb ?d 0] => destruct (Reqb_spec d 0) as [|N] end; [reflexivity|]. exfalso. apply N. ring.
Qed.
Print Assumptions C24_repeated_start_refuted.

Theorem C24_short_lines : forall p,
  get_nearest_point_and_s empty_line p = Some ((0, 0), 0, 0%nat) /\
  forall q, get_nearest_point_and_s (add_point empty_line q) p = Some (q, 0, 0%nat).
Proof. intros p. split; [reflexivity|]. intros q. reflexivity. Qed.
Print Assumptions C24_short_lines.

Example C24_nonvacuous : exists l p, built l /\ arc_lengths_of (pts l) (ss l) /\
  (exists r, pts l = (0, 0) :: (2, 0) :: r) /\ get_nearest_point l p = Some (1, 0).
Proof.
  exists (add_points empty_line [(0, 0); (2, 0); (2, 5)]), (1, -1).
  assert (B : built (add_points empty_line [(0, 0); (2, 0); (2, 5)])) by repeat constructor.
  pose proof (C23_stored_arc_lengths _ B) as C. split; [exact B|]. split; [exact C|].
  split; [exists [(2, 5)]; reflexivity|].
  destruct (C24_nearest_point _ (1, -1) (0, 0) (2, 0) [(2, 5)] C eq_refl ltac:(intros H; inversion H; lra))
    as (P & s & i & t & E & (a & b & Ha & Hb & Ht & EP) & _ & M).
  unfold get_nearest_point. rewrite E. cbn. f_equal.
  assert (D : dist (1, -1) P <= 1).
  { replace 1 with (dist (1, -1) (1, 0)) at 2.
    - apply M. exists 0%nat, (1/2), (0, 0), (2, 0). repeat split; auto; try lra. unfold lerp. cbn. f_equal; lra.
    - unfold dist. cbn. replace (_ + _) with (1 * 1) by ring. apply sqrt_square. lra. }
  assert (D2 : dist2 (1, -1) P <= 1). { rewrite <- dist_sq. pose proof (dist_nonneg (1, -1) P). nra. }
  destruct i as [|[|[|i]]]; cbn in Ha, Hb; inversion Ha; inversion Hb; subst a b.
  - subst P. unfold dist2, lerp in D2. cbn in D2. assert (t = 1/2) by nra. subst t. unfold lerp. cbn. f_equal; lra.
  - exfalso. subst P. unfold dist2, lerp in D2. cbn in D2. nra.
Qed.

(** C25. *)
Lemma plen_app l a r : polyline_length (l ++ a :: r) = polyline_length (l ++ [a]) + polyline_length (a :: r).
Proof.
  induction l as [|x l IH].
  - cbn [app]. cbn [polyline_length]. lra.
  - destruct l as [|y l].
    + cbn [app]. cbn [polyline_length]. lra.
    + cbn [app] in *. cbn [polyline_length] in *. rewrite IH. ring.
Qed.
Lemma plen_rev l : polyline_length (rev l) = polyline_length l.
Proof.
  induction l as [|p [|q r] IH]; auto.
  cbn [rev] in *. rewrite <- app_assoc. cbn [app]. rewrite plen_app. rewrite IH. cbn [polyline_length].
  rewrite (dist_sym q p). ring.
Qed.
Lemma plen_join l m a b : last_opt l = Some a -> nth_error m 0 = Some b ->
  polyline_length (l ++ m) = polyline_length l + dist a b + polyline_length m.
Proof.
  intros Hl Hm. destruct m as [|b' m]; [discriminate|]. cbn in Hm. inversion Hm; subst b'.
  rewrite plen_app. f_equal. unfold last_opt in Hl.
  destruct (exists_last (l := l)) as (l' & a' & ->). { intros ->. discriminate. }
  rewrite app_length in Hl. cbn in Hl. rewrite nth_error_app2 in Hl by lia.
  replace (length l' + 1 - 1 - length l')%nat with 0%nat in Hl by lia. cbn in Hl. inversion Hl; subst a'.
  rewrite <- app_assoc. cbn [app]. rewrite plen_app. cbn [polyline_length]. lra.
Qed.
Lemma rot_dist h p q : dist (rot_cw h p) (rot_cw h q) = dist p q.
Proof.
  rewrite <- (Rmult_1_l (dist p q)). apply dist_scale; [lra|]. unfold dist2, rot_cw. cbn [fst snd].
  pose proof (sin2_cos2 h) as E. unfold Rsqr in E.
  replace (1 * 1) with ((sin h * sin h + cos h * cos h)) by lra. ring.
Qed.
Lemma plen_map f l : (forall p q, dist (f p) (f q) = dist p q) -> polyline_length (map f l) = polyline_length l.
Proof.
  intros H. induction l as [|p [|q r] IH]; auto. cbn [map] in *. cbn [polyline_length] in *. rewrite IH, H. reflexivity.
Qed.

(** Appending: arc lengths continue after the gap; the second line is not reinterpreted. *)
Theorem C25_append : forall l m a b,
  arc_lengths_of (pts (append_linestring l m)) (ss (append_linestring l m)) /\
  pts (append_linestring l m) = pts l ++ pts m /\
  (last_opt (pts l) = Some a -> nth_error (pts m) 0 = Some b ->
   line_length (append_linestring l m) = line_length l + dist a b + line_length m).
Proof. intros. split; [apply recompute_spec|]. split; [reflexivity|]. intros. apply plen_join; auto. Qed.
Print Assumptions C25_append.

(** Rotate keeps length and turns every point clockwise (!) by the angle. *)
Theorem C25_rotate : forall l h,
  arc_lengths_of (pts (rotate_line l h)) (ss (rotate_line l h)) /\
  line_length (rotate_line l h) = line_length l /\
  (forall i r a, nth_error (pts l) i = Some (r * cos a, r * sin a) ->
     nth_error (pts (rotate_line l h)) i = Some (r * cos (a - h), r * sin (a - h))).
Proof.
  intros l h. split; [apply recompute_spec|]. split.
  - apply plen_map. intros. apply rot_dist.
  - intros i r a H. cbn. rewrite nth_error_map, H. cbn. unfold rot_cw. cbn.
    rewrite cos_minus, sin_minus. f_equal. f_equal; ring.
Qed.
Print Assumptions C25_rotate.

(** Translate leaves the arc lengths empty; afterwards GetPointAtS is undefined inside the line. *)
Theorem C25_translate_refuted : forall l x y, (2 <= length (pts l))%nat ->
  ~ arc_lengths_of (pts (translate_line l x y)) (ss (translate_line l x y)) /\
  forall s, 0 < s -> get_point_at_s (translate_line l x y) s = None.
Proof.
  intros l x y L. split.
  - intros [H _]. cbn in H. rewrite map_length in H. lia.
  - intros s Hs. unfold get_point_at_s. cbn [pts translate_line ss]. rewrite map_length. cbv zeta.
    destruct (Nat.leb_spec (length (pts l)) 1); [lia|]. destruct (Rleb_spec s 0); [lra|]. reflexivity.
Qed.
Print Assumptions C25_translate_refuted.

(** Reverse keeps the old arc lengths: they are right exactly if the sequence of segment lengths is a
    palindrome, and the length is unchanged. *)
Theorem C25_reverse : forall l, arc_lengths_of (pts l) (ss l) ->
  line_length (reverse l) = line_length l /\
  (arc_lengths_of (pts (reverse l)) (ss (reverse l)) <->
   forall i, (i < length (pts l))%nat ->
     polyline_length (firstn (S i) (pts l)) = polyline_length (firstn (S i) (rev (pts l)))).
Proof.
  intros l C. split; [apply plen_rev|]. cbn [reverse pts ss]. split.
  - intros [_ H] i Hi. specialize (H i). rewrite rev_length in H. specialize (H Hi).
    rewrite (cons_nth l i C Hi) in H. injection H. intros X. exact X.
  - intros H. split; [rewrite rev_length; apply C|]. intros i Hi. rewrite rev_length in Hi.
    rewrite (cons_nth l i C Hi). f_equal. apply H, Hi.
Qed.
Print Assumptions C25_reverse.

Lemma dist_h x y : dist (x, 0) (y, 0) = Rabs (x - y).
Proof. unfold dist. cbn. replace (_ + _) with ((x - y)²) by (unfold Rsqr; ring). apply sqrt_Rsqr_abs. Qed.

(** A concrete line for which Reverse yields wrong arc lengths and GetPointAtS a wrong point. *)
Theorem C25_reverse_refuted :
  exists l, built l /\ ~ arc_lengths_of (pts (reverse l)) (ss (reverse l)) /\
    exists P, at_arclength (pts (reverse l)) 9 P /\ get_point_at_s (reverse l) 9 <> Some P.
Proof.
  set (l := add_points empty_line [(0, 0); (1, 0); (10, 0)]). exists l.
  assert (B : built l) by repeat constructor. pose proof (C23_stored_arc_lengths l B) as C.
  assert (D1 : dist (0, 0) (1, 0) = 1) by (rewrite dist_h; unfold Rabs; destruct (Rcase_abs _); lra).
  assert (D2 : dist (1, 0) (10, 0) = 9) by (rewrite dist_h; unfold Rabs; destruct (Rcase_abs _); lra).
  assert (D3 : dist (10, 0) (1, 0) = 9) by (rewrite dist_sym; auto).
  split; [exact B|]. split.
  - rewrite (proj2 (C25_reverse l C)). intros H. specialize (H 1%nat ltac:(cbn; lia)). cbn in H. rewrite D1, D3 in H. lra.
  - exists (1, 0). split.
    + exists 0%nat, (10, 0), (1, 0), 1. repeat split; try lra. now rewrite lerp1. cbn. rewrite D3. lra.
    + assert (ES : ss (reverse l) = [0; 1; 10]).
      { cbn. rewrite dist_refl, (dist_sym (1, 0) (0, 0)), D1, (dist_sym (10, 0)), D2.
        repeat (f_equal; try lra). }
      unfold get_point_at_s, segment_end_idx. rewrite ES. cbn [last_opt length nth_error Nat.sub].
      change (length (pts (reverse l))) with 3%nat. cbn [Nat.leb]. cbv zeta.
      destruct (Rleb_spec 9 0); [lra|]. unfold last_opt. cbn [length Nat.sub nth_error].
      destruct (Rleb_spec 10 9); [lra|]. cbn [upper_bound].
      destruct (Rltb_spec 9 0); [lra|]. destruct (Rltb_spec 9 1); [lra|]. destruct (Rltb_spec 9 10); [|lra].
      cbn [Nat.eqb nth_error]. cbn. destruct (Reqb_spec (10 - 1) 0); [lra|]. intros X. inversion X. lra.
Qed.
Print Assumptions C25_reverse_refuted.

(** Concatenating: whatever orientation is chosen, the result's arc lengths are right. *)
Theorem C25_concatenate : forall isect selfx simp l1 l2 l,
  concatenate isect selfx simp l1 l2 = Some l -> arc_lengths_of (pts l) (ss l).
Proof.
  intros isect selfx simp l1 l2 l H.
  assert (G : forall a b, append_no_intersect isect selfx simp a b = Some l -> arc_lengths_of (pts l) (ss l)).
  { intros a b X. unfold append_no_intersect in X.
    match type of X with match ?m with _ => _ end = _ => destruct m as [lo|]; [|discriminate] end. cbv zeta in X.
    inversion X. destruct (selfx _); apply recompute_spec. }
  unfold concatenate in H. destruct (nth_error (pts l1) 0), (last_opt (pts l1)), (nth_error (pts l2) 0), (last_opt (pts l2)); try discriminate.
  cbv zeta in H. repeat match type of H with (if ?c then _ else _) = _ => destruct c end; eauto.
Qed.
Print Assumptions C25_concatenate.

Definition no_consecutive_duplicates (l : list pt) : Prop :=
  forall i p q, nth_error l i = Some p -> nth_error l (S i) = Some q -> p <> q.
Lemma bg_unique_head l : nth_error (bg_unique l) 0 = nth_error l 0.
Proof.
  induction l as [|p [|q r] IH]; auto. cbn [bg_unique] in *. destruct (pt_eq_dec p q); [|reflexivity].
  rewrite IH. cbn. congruence.
Qed.
Lemma bg_unique_nodup l : no_consecutive_duplicates (bg_unique l).
Proof.
  induction l as [|p [|q r] IH].
  - intros i a b H. destruct i; discriminate.
  - intros i a b H H'. cbn in H'. destruct i; discriminate.
  - change (bg_unique (p :: q :: r)) with (if pt_eq_dec p q then bg_unique (q :: r) else p :: bg_unique (q :: r)).
    destruct (pt_eq_dec p q) as [|N]; [exact IH|].
    intros [|i] a b Ha Hb.
    + cbn in Ha. inversion Ha; subst a. change (nth_error (bg_unique (q :: r)) 0 = Some b) in Hb.
      rewrite bg_unique_head in Hb. cbn in Hb. congruence.
    + cbn [nth_error] in Ha, Hb. eapply IH; eauto.
Qed.
Lemma plen_unique l : polyline_length (bg_unique l) = polyline_length l.
Proof.
  induction l as [|p [|q r] IH]; auto.
  change (bg_unique (p :: q :: r)) with (if pt_eq_dec p q then bg_unique (q :: r) else p :: bg_unique (q :: r)).
  destruct (pt_eq_dec p q) as [->|N].
  - rewrite IH. cbn [polyline_length]. rewrite dist_refl. lra.
  - pose proof (bg_unique_head (q :: r)) as HH. revert HH IH.
    destruct (bg_unique (q :: r)) as [|a u]; intros HH IH; cbn in HH; [discriminate|]. inversion HH; subst a.
    cbn [polyline_length] in *. lra.
Qed.
Lemma last_opt_cons {A} (a b : A) l : last_opt (a :: b :: l) = last_opt (b :: l).
Proof. unfold last_opt. cbn. rewrite Nat.sub_0_r. reflexivity. Qed.
Lemma bg_unique_last l : last_opt (bg_unique l) = last_opt l.
Proof.
  induction l as [|p [|q r] IH]; auto.
  change (bg_unique (p :: q :: r)) with (if pt_eq_dec p q then bg_unique (q :: r) else p :: bg_unique (q :: r)).
  rewrite last_opt_cons. destruct (pt_eq_dec p q) as [->|N]; [exact IH|].
  pose proof (bg_unique_head (q :: r)) as HH. revert HH IH.
  destruct (bg_unique (q :: r)) as [|a u]; intros HH IH; cbn in HH; [discriminate|]. rewrite last_opt_cons. exact IH.
Qed.

(** RemoveDuplicates: no two consecutive points are equal, ends and length are unchanged. *)
Theorem C25_remove_duplicates : forall l,
  let l' := remove_duplicates l in
  arc_lengths_of (pts l') (ss l') /\ no_consecutive_duplicates (pts l') /\ line_length l' = line_length l /\
  nth_error (pts l') 0 = nth_error (pts l) 0 /\ last_opt (pts l') = last_opt (pts l).
Proof.
  intros l l'. split; [apply recompute_spec|]. split; [apply bg_unique_nodup|]. split; [apply plen_unique|].
  split; [apply bg_unique_head|apply bg_unique_last].
Qed.
Print Assumptions C25_remove_duplicates.

(** Lines that do not intersect are joined at the closest pair of ends: of the four possible
    orientations the chosen one has the least gap. *)
Theorem C25_concatenate_joins_closest_ends : forall isect selfx simp l1 l2 f1 e1 f2 e2,
  (forall a b, length (isect a b) <> 1%nat) -> (forall a, selfx a = false) ->
  nth_error (pts l1) 0 = Some f1 -> last_opt (pts l1) = Some e1 ->
  nth_error (pts l2) 0 = Some f2 -> last_opt (pts l2) = Some e2 ->
  exists a b ea fb, (a = pts l1 \/ a = rev (pts l1)) /\ (b = pts l2 \/ b = rev (pts l2)) /\
    last_opt a = Some ea /\ nth_error b 0 = Some fb /\
    dist ea fb <= dist f1 f2 /\ dist ea fb <= dist f1 e2 /\ dist ea fb <= dist e1 f2 /\ dist ea fb <= dist e1 e2 /\
    exists l, concatenate isect selfx simp l1 l2 = Some l /\ pts l = pts (remove_duplicates (mkLine (a ++ b) [])) /\
      line_length l = line_length l1 + dist ea fb + line_length l2.
Proof.
  intros isect selfx simp l1 l2 f1 e1 f2 e2 NI NS H1 H2 H3 H4.
  assert (RL : forall (l : list pt) x, nth_error l 0 = Some x -> last_opt (rev l) = Some x).
  { intros l x H. destruct l; [discriminate|]. cbn in H. inversion H; subst. unfold last_opt. cbn [rev].
    rewrite app_length, nth_error_app2; cbn; [|lia]. replace (_ - _)%nat with 0%nat by lia. reflexivity. }
  assert (RF : forall (l : list pt) x, last_opt l = Some x -> nth_error (rev l) 0 = Some x).
  { intros l x H. destruct (exists_last (l := l)) as (l' & a & ->). { intros ->. discriminate. }
    unfold last_opt in H. rewrite app_length in H. cbn in H. rewrite nth_error_app2 in H by lia.
    replace (length l' + 1 - 1 - length l')%nat with 0%nat in H by lia. cbn in H. inversion H; subst.
    rewrite rev_app_distr. reflexivity. }
  assert (AP : forall a b, exists l, append_no_intersect isect selfx simp a b = Some l /\
             pts l = pts (remove_duplicates (mkLine (pts a ++ pts b) []))).
  { intros a b. unfold append_no_intersect. specialize (NI (pts a) (pts b)).
    destruct (isect (pts a) (pts b)) as [|x [|y z]]; cbn in NI; try lia;
      cbv zeta; rewrite NS; eexists; split; reflexivity. }
  assert (LN : forall a b ea fb, last_opt a = Some ea -> nth_error b 0 = Some fb ->
    (a = pts l1 \/ a = rev (pts l1)) -> (b = pts l2 \/ b = rev (pts l2)) ->
    polyline_length (pts (remove_duplicates (mkLine (a ++ b) []))) = line_length l1 + dist ea fb + line_length l2).
  { intros a b ea fb Ha Hb Oa Ob. cbn [pts remove_duplicates of_points]. rewrite plen_unique.
    rewrite (plen_join a b ea fb Ha Hb). unfold line_length. change bg_length with polyline_length.
    destruct Oa as [->| ->], Ob as [->| ->]; rewrite ?plen_rev; reflexivity. }
  unfold concatenate. rewrite H1, H2, H3, H4. cbv zeta. unfold min3.
  assert (M : forall a b c d, a <= Rmin b (Rmin c d) <-> a <= b /\ a <= c /\ a <= d).
  { intros a b c d. pose proof (Rmin_l b (Rmin c d)). pose proof (Rmin_r b (Rmin c d)).
    pose proof (Rmin_l c d). pose proof (Rmin_r c d). split; [intros; lra|]. intros (X & Y & Z). repeat apply Rmin_glb; auto. }
  destruct (Rleb_spec (dist f1 f2) (Rmin (dist f1 e2) (Rmin (dist e1 f2) (dist e1 e2)))) as [Q1|Q1].
  { apply M in Q1. exists (rev (pts l1)), (pts l2), f1, f2. repeat (split; [now (eauto || lra)|]).
    destruct (AP (reverse l1) l2) as (l & E & EP). exists l. split; [exact E|]. split; [exact EP|].
    unfold line_length at 1. rewrite EP. apply (LN (rev (pts l1)) (pts l2) f1 f2); [now eauto|now eauto|now auto|now auto]. }
  apply Rlt_not_le in Q1. rewrite M in Q1.
  destruct (Rleb_spec (dist f1 e2) (Rmin (dist f1 f2) (Rmin (dist e1 f2) (dist e1 e2)))) as [Q2|Q2].
  { apply M in Q2. exists (rev (pts l1)), (rev (pts l2)), f1, e2. repeat (split; [now (eauto || lra)|]).
    destruct (AP (reverse l1) (reverse l2)) as (l & E & EP). exists l. split; [exact E|]. split; [exact EP|].
    unfold line_length at 1. rewrite EP. apply (LN (rev (pts l1)) (rev (pts l2)) f1 e2); [now eauto|now eauto|now auto|now auto]. }
  apply Rlt_not_le in Q2. rewrite M in Q2.
  destruct (Rleb_spec (dist e1 f2) (Rmin (dist f1 f2) (Rmin (dist f1 e2) (dist e1 e2)))) as [Q3|Q3].
  { apply M in Q3. exists (pts l1), (pts l2), e1, f2. repeat (split; [now (eauto || lra)|]).
    destruct (AP l1 l2) as (l & E & EP). exists l. split; [exact E|]. split; [exact EP|].
    unfold line_length at 1. rewrite EP. apply (LN (pts l1) (pts l2) e1 f2); [now eauto|now eauto|now auto|now auto]. }
  apply Rlt_not_le in Q3. rewrite M in Q3.
  exists (pts l1), (rev (pts l2)), e1, e2. repeat (split; [now (eauto || lra)|]).
  destruct (AP l1 (reverse l2)) as (l & E & EP). exists l. split; [exact E|]. split; [exact EP|].
  unfold line_length at 1. rewrite EP. apply (LN (pts l1) (rev (pts l2)) e1 e2); [now eauto|now eauto|now auto|now auto].
Qed.
Print Assumptions C25_concatenate_joins_closest_ends.
Example C25_nonvacuous : exists l1 l2,
  nth_error (pts l1) 0 = Some (0, 0) /\ last_opt (pts l1) = Some (5, 0) /\
  nth_error (pts l2) 0 = Some (9, 0) /\ last_opt (pts l2) = Some (6, 0) /\
  exists l, concatenate (fun _ _ => []) (fun _ => false) (fun l _ => l) l1 l2 = Some l /\ line_length l = 9.
Proof.
  set (l1 := add_points empty_line [(0, 0); (5, 0)]). set (l2 := add_points empty_line [(9, 0); (6, 0)]).
  exists l1, l2. repeat (split; [reflexivity|]).
  destruct (C25_concatenate_joins_closest_ends (fun _ _ => []) (fun _ => false) (fun l _ => l) l1 l2
     (0, 0) (5, 0) (9, 0) (6, 0)) as (a & b & ea & fb & Oa & Ob & Ha & Hb & _ & _ & _ & D & l & E & _ & EL); auto.
  exists l. split; [exact E|]. rewrite EL.
  assert (line_length l1 = 5) by (cbn; rewrite dist_h; unfold Rabs; destruct (Rcase_abs _); lra).
  assert (line_length l2 = 3) by (cbn; rewrite dist_h; unfold Rabs; destruct (Rcase_abs _); lra).
  assert (dist ea fb = 1); [|lra].
  rewrite (dist_h 5 6) in D. replace (Rabs (5 - 6)) with 1 in D by (unfold Rabs; destruct (Rcase_abs _); lra).
  destruct Oa as [->| ->], Ob as [->| ->]; cbn in Ha, Hb; inversion Ha; inversion Hb; subst ea fb;
    rewrite dist_h in *; unfold Rabs in *; destruct (Rcase_abs _); lra.
Qed.
