(** C26, C51: Frenet coordinates (bark/commons/transformation/frenet.cpp, frenet_state.cpp). *)
From Coq Require Import Reals List Bool ZArith Lra Lia Psatz.
From Verif Require Import Base_Real Base_Geom Model_Angle Spec_Angle Proof_Angle Props_Angle Model_Line Spec_Line Proof_Line Props_Line Props_Line2 Model_Shape Model_Frenet Spec_Frenet Proof_Frenet.
Import ListNotations.
Local Open Scope R_scope.

(** The lateral offset: its sign is that of the side of the tangent, its size the distance to the nearest
    point. On the tangent's own line beyond an end: 0 ahead, the distance behind. *)
Lemma lateral_cases pos near t : let v := psub pos near in
  (0 < left_of_dir t v -> lateral pos near t = dist pos near) /\
  (left_of_dir t v < 0 -> lateral pos near t = - dist pos near) /\
  (pos = near -> lateral pos near t = 0) /\
  (left_of_dir t v = 0 -> 0 < along_dir t v -> lateral pos near t = 0) /\
  (left_of_dir t v = 0 -> along_dir t v < 0 -> lateral pos near t = dist pos near).
Proof.
  intros v. rewrite lateral_abs. cbv zeta. destruct (lateral_polar pos near t) as [A B]. cbv zeta in A, B. fold v in A, B.
  set (d := sad t (atan2 (snd pos - snd near) (fst pos - fst near))) in *.
  assert (R : - PI <= d < PI) by apply sad_facts. pose proof PI_RGT_0. destruct (sin_sign d R) as [S1 S2].
  pose proof (dist_nonneg pos near) as HD. rewrite A, B. clear A B.
  destruct (Rltb_spec 0 d), (Rltb_spec d 0); try lra; repeat split; intros; try lra.
  - apply S1 in H0. nra.
  - subst. rewrite dist_refl. ring.
  - exfalso. apply S1 in H0. assert (dist pos near = 0) by nra. rewrite H4 in H3. lra.
  - exfalso. apply S1 in H0. assert (dist pos near = 0) by nra. rewrite H4 in H3. lra.
  - exfalso. destruct (Req_dec d (- PI)) as [E|E].
    + rewrite E, sin_neg, sin_PI in H2. lra.
    + assert (sin d < 0) by (apply S2; lra). nra.
  - subst. rewrite dist_refl. ring.
  - exfalso. destruct (Req_dec d (- PI)) as [E|E].
    + rewrite E, cos_neg, cos_PI in H3. lra.
    + assert (sin d < 0) by (apply S2; lra). assert (dist pos near = 0) by nra. rewrite H5 in H3. lra.
  - assert (d = 0) by lra. rewrite H3, sin_0 in H2. lra.
  - assert (d = 0) by lra. rewrite H3, sin_0 in H2. lra.
  - assert (d = 0) by lra. rewrite H4, cos_0 in H3. lra.
Qed.

Theorem C26_lateral_offset : forall path pos p0 p1 r, arc_lengths_of (pts path) (ss path) ->
  pts path = p0 :: p1 :: r -> p0 <> p1 ->
  exists f near a, frenet_position pos path = Some f /\
    (* longitudinal coordinate: arc length of the nearest point of the line *)
    at_arclength (pts path) (p_lon f) near /\ (forall Q, on_polyline (pts path) Q -> dist pos near <= dist pos Q) /\
    (* lateral coordinate: distance, positive on the left of the tangent *)
    get_tangent_angle_at_s path (p_lon f) = Some a /\
    (0 < left_of_dir a (psub pos near) -> p_lat f = dist pos near) /\
    (left_of_dir a (psub pos near) < 0 -> p_lat f = - dist pos near) /\
    (on_polyline (pts path) pos -> p_lat f = 0).
Proof.
  intros path pos p0 p1 r C EP NE. destruct (C24_nearest_point path pos p0 p1 r C EP NE) as (P & s & i & t & E & OS & AA & M).
  assert (L2 : (2 <= length (pts path))%nat) by (rewrite EP; cbn; lia).
  destruct (tangent_defined path s C L2) as [a Ea].
  exists (mkFP s (lateral pos P a)), P, a. unfold frenet_position. rewrite E, Ea. cbn [p_lon p_lat].
  destruct (lateral_cases pos P a) as (A & B & D & _). repeat split; auto.
  intros H. apply D. apply M in H. rewrite dist_refl in H. apply dist_zero. pose proof (dist_nonneg pos P). lra.
Qed.
Print Assumptions C26_lateral_offset.

(** Foot of the perpendicular. *)
Lemma interior_perp pos p q t : 0 < t < 1 -> p <> q ->
  (forall u, 0 <= u <= 1 -> dist pos (lerp t p q) <= dist pos (lerp u p q)) ->
  (fst pos - fst (lerp t p q)) * (fst q - fst p) + (snd pos - snd (lerp t p q)) * (snd q - snd p) = 0.
Proof.
  intros Ht Hpq M. set (k := _ + _). set (c := dist2 p q).
  assert (Hc : 0 < c). { unfold c. pose proof (dist_pos p q Hpq). rewrite <- dist_sq. nra. }
  assert (D : forall u, dist2 pos (lerp u p q) = dist2 pos (lerp t p q) + (u - t) * (u - t) * c - 2 * (u - t) * k).
  { intros u. unfold k, c, dist2, lerp. cbn. ring. }
  assert (N : forall u, 0 <= u <= 1 -> 0 <= (u - t) * ((u - t) * c - 2 * k)).
  { intros u Hu. specialize (M u Hu). apply dist_le_iff in M. rewrite (D u) in M. lra. }
  destruct (Rtotal_order k 0) as [X|[X|X]]; auto; exfalso.
  - set (e := Rmin t (- k / c)). assert (0 < - k / c) by (apply Rmult_lt_0_compat; [lra|apply Rinv_0_lt_compat; lra]).
    assert (0 < e <= t). { unfold e. split; [apply Rmin_glb_lt; lra|apply Rmin_l]. }
    assert (e * c <= - k). { apply Rle_trans with (- k / c * c); [apply Rmult_le_compat_r; [lra|apply Rmin_r]|]. right. field. lra. }
    specialize (N (t - e) ltac:(lra)). replace (t - e - t) with (- e) in N by ring. nra.
  - set (e := Rmin (1 - t) (k / c)). assert (0 < k / c) by (apply Rmult_lt_0_compat; [lra|apply Rinv_0_lt_compat; lra]).
    assert (0 < e <= 1 - t). { unfold e. split; [apply Rmin_glb_lt; lra|apply Rmin_l]. }
    assert (e * c <= k). { apply Rle_trans with (k / c * c); [apply Rmult_le_compat_r; [lra|apply Rmin_r]|]. right. field. lra. }
    specialize (N (t + e) ltac:(lra)). replace (t + e - t) with e in N by ring. nra.
Qed.

Lemma lateral_perp pos near a : along_dir a (psub pos near) = 0 -> lateral pos near a = left_of_dir a (psub pos near).
Proof.
  intros H. destruct (lateral_cases pos near a) as (A & B & D & _).
  assert (N : dist pos near * dist pos near = left_of_dir a (psub pos near) * left_of_dir a (psub pos near)).
  { rewrite dist_sq. transitivity (along_dir a (psub pos near) * along_dir a (psub pos near) + left_of_dir a (psub pos near) * left_of_dir a (psub pos near)).
    - pose proof (sin2_cos2 a) as T. unfold Rsqr in T. unfold dist2, along_dir, left_of_dir, psub. cbn [fst snd].
      transitivity ((sin a * sin a + cos a * cos a) * ((fst pos - fst near) * (fst pos - fst near) + (snd pos - snd near) * (snd pos - snd near))); [rewrite T; ring|ring].
    - rewrite H. ring. }
  pose proof (dist_nonneg pos near) as HD. set (x := left_of_dir a (psub pos near)) in *.
  destruct (Rtotal_order x 0) as [X|[X|X]].
  - rewrite B by auto. nra.
  - rewrite X in *. apply D. apply dist_zero. nra.
  - rewrite A by auto. nra.
Qed.

(** [s] lies strictly inside segment [i]: then the point at [s] is on that segment, strictly inside. *)
Lemma inside_segment path i p q si sj s P : arc_lengths_of (pts path) (ss path) ->
  nth_error (pts path) i = Some p -> nth_error (pts path) (S i) = Some q ->
  nth_error (ss path) i = Some si -> nth_error (ss path) (S i) = Some sj -> si < s < sj ->
  at_arclength (pts path) s P -> exists t, 0 < t < 1 /\ P = lerp t p q /\ p <> q.
Proof.
  intros C Hp Hq Hi Hj Hs (j & p' & q' & t & Hp' & Hq' & Ht & EP & Es).
  pose proof (nth_lt _ _ _ Hq) as Lq. pose proof (nth_lt _ _ _ Hq') as Lq'.
  rewrite (cons_nth path) in Hi, Hj by (auto; lia). injection Hi as <-. injection Hj as <-.
  change (polyline_length (firstn (S j) (pts path))) with (S_ (pts path) j) in Es.
  pose proof (S_step _ j p' q' Hp' Hq') as SJ.
  assert (Es' : s = S_ (pts path) j + t * dist p' q') by (rewrite Es, EP, dist_lerp_l by lra; ring).
  pose proof (dist_nonneg p' q').
  assert (j = i).
  { destruct (lt_eq_lt_dec i j) as [[X|X]|X]; auto; exfalso.
    - pose proof (S_mono (pts path) (S i) j X ltac:(lia)). nra.
    - pose proof (S_mono (pts path) (S j) i X ltac:(lia)). nra. }
  subst j. rewrite Hp in Hp'. rewrite Hq in Hq'. injection Hp' as <-. injection Hq' as <-.
  exists t. split; [|split; [exact EP|]].
  - split; [destruct (Req_dec t 0); [subst t|]; lra|destruct (Req_dec t 1); [subst t|]; lra].
  - intros ->. rewrite dist_refl in *. lra.
Qed.

(** Strictly inside a segment the lateral coordinate is the signed distance from the segment's line, and
    the point is recovered as nearest point plus lateral offset along the normal. *)
Lemma frenet_inside path pos i p q si sj near s k : arc_lengths_of (pts path) (ss path) ->
  (exists p0 p1 r, pts path = p0 :: p1 :: r /\ p0 <> p1) ->
  nth_error (pts path) i = Some p -> nth_error (pts path) (S i) = Some q ->
  nth_error (ss path) i = Some si -> nth_error (ss path) (S i) = Some sj ->
  get_nearest_point_and_s path pos = Some (near, s, k) -> si < s < sj ->
  exists a n, get_tangent_angle_at_s path s = Some a /\ get_point_at_s path s = Some near /\ get_normal_at_s path s = Some n /\
    n = (- sin a, cos a) /\
    along_dir a (psub pos near) = 0 /\ lateral pos near a = left_of_dir a (psub pos near) /\
    pos = padd near (pscale n (lateral pos near a)) /\
    dist p q * cos a = fst q - fst p /\ dist p q * sin a = snd q - snd p /\ p <> q.
Proof.
  intros C (p0 & p1 & r & EP & NE) Hp Hq Hi Hj EN Hs.
  destruct (C24_nearest_point path pos p0 p1 r C EP NE) as (P & s' & k' & t' & E & OS & AA & M).
  rewrite EN in E. injection E as <- <- <-.
  destruct (inside_segment path i p q si sj s near C Hp Hq Hi Hj Hs AA) as (t & Ht & EPt & Hpq).
  destruct (C23_tangent_inside_segment path s i p q si sj C Hp Hq Hi Hj Hs) as (a & n & Ta & Tn & Ca & Sa & _).
  assert (L2 : (2 <= length (pts path))%nat) by (rewrite EP; cbn; lia).
  pose proof (dist_pos p q Hpq) as HD.
  assert (En : n = (- sin a, cos a)).
  { unfold get_normal_at_s in Tn. rewrite Ta, asin1 in Tn. inversion Tn. f_equal.
    - rewrite cos_plus, cos_PI2, sin_PI2. ring.
    - rewrite sin_plus, cos_PI2, sin_PI2. ring. }
  assert (PR : along_dir a (psub pos near) = 0).
  { assert (dist p q * along_dir a (psub pos near) = 0); [|nra].
    transitivity ((fst pos - fst near) * (fst q - fst p) + (snd pos - snd near) * (snd q - snd p)).
    - rewrite <- Ca, <- Sa. unfold along_dir, psub. cbn [fst snd]. ring.
    - rewrite EPt. apply interior_perp; auto. intros u Hu. rewrite <- EPt. apply M. exists i, u, p, q. auto. }
  exists a, n. split; [exact Ta|]. split.
  { destruct (get_point_spec path s C L2) as (X & EX & AX). rewrite clamp_in in AX by (eapply at_arclength_range; eauto).
    rewrite EX. f_equal. eapply at_arclength_unique; eauto. }
  split; [exact Tn|]. split; [exact En|]. split; [exact PR|]. split; [apply lateral_perp; exact PR|].
  split; [|auto].
  rewrite (lateral_perp _ _ _ PR), En. pose proof (sin2_cos2 a) as T. unfold Rsqr in T.
  unfold along_dir, psub in PR. cbn [fst snd] in PR.
  unfold padd, pscale, left_of_dir, psub. cbn [fst snd]. destruct pos as [x y], near as [u v]. cbn [fst snd] in *. f_equal.
  - transitivity (u + (sin a * sin a + cos a * cos a) * (x - u)); [rewrite T; ring|].
    transitivity (u + - sin a * (cos a * (y - v) - sin a * (x - u)) + cos a * (cos a * (x - u) + sin a * (y - v))); [ring|].
    rewrite PR. ring.
  - transitivity (v + (sin a * sin a + cos a * cos a) * (y - v)); [rewrite T; ring|].
    transitivity (v + cos a * (cos a * (y - v) - sin a * (x - u)) + sin a * (cos a * (x - u) + sin a * (y - v))); [ring|].
    rewrite PR. ring.
Qed.

Theorem C26_signed_distance_inside_segment : forall path pos i p q si sj near s k,
  arc_lengths_of (pts path) (ss path) -> (exists p0 p1 r, pts path = p0 :: p1 :: r /\ p0 <> p1) ->
  nth_error (pts path) i = Some p -> nth_error (pts path) (S i) = Some q ->
  nth_error (ss path) i = Some si -> nth_error (ss path) (S i) = Some sj ->
  get_nearest_point_and_s path pos = Some (near, s, k) -> si < s < sj ->
  exists f, frenet_position pos path = Some f /\ p_lon f = s /\
    p_lat f * dist p q = (fst q - fst p) * (snd pos - snd p) - (snd q - snd p) * (fst pos - fst p).
Proof.
  intros path pos i p q si sj near s k C E Hp Hq Hi Hj EN Hs.
  destruct (frenet_inside path pos i p q si sj near s k C E Hp Hq Hi Hj EN Hs) as (a & n & Ta & _ & _ & _ & _ & L & _ & Ca & Sa & Hpq).
  unfold frenet_position. rewrite EN, Ta. eexists. split; [reflexivity|]. split; [reflexivity|]. cbn [p_lat]. rewrite L.
  destruct E as (p0 & p1 & r & EP & NE).
  destruct (C24_nearest_point path pos p0 p1 r C EP NE) as (P & s' & k' & t' & E & OS & AA & M).
  rewrite EN in E. injection E as <- <- <-.
  destruct (inside_segment path i p q si sj s near C Hp Hq Hi Hj Hs AA) as (t & Ht & EPt & _).
  rewrite EPt. unfold left_of_dir, psub, lerp. cbn [fst snd].
  transitivity ((dist p q * cos a) * (snd pos - (snd p + t * (snd q - snd p))) - (dist p q * sin a) * (fst pos - (fst p + t * (fst q - fst p)))); [ring|].
  rewrite Ca, Sa. ring.
Qed.
Print Assumptions C26_signed_distance_inside_segment.

(** Round trip: a vehicle whose nearest point is strictly inside a segment is recovered by
    FrenetStateToDynamicState (position, speed, and heading modulo a full turn). *)
Theorem C26_round_trip : forall path st f i si sj,
  arc_lengths_of (pts path) (ss path) -> (exists p0 p1 r, pts path = p0 :: p1 :: r /\ p0 <> p1) ->
  frenet_state st path = Some f ->
  nth_error (ss path) i = Some si -> nth_error (ss path) (S i) = Some sj -> si < lon f < sj ->
  exists st', to_dynamic_state f path = Some st' /\
    sx st' = sx st /\ sy st' = sy st /\ sv st' = Rabs (sv st) /\
    (0 < sv st -> same_direction PI (sth st') (sth st)) /\
    (sv st < 0 -> same_direction PI (sth st') (sth st + PI)).
Proof.
  intros path st f i si sj C E HF Hi Hj Hs. unfold frenet_state in HF. cbv zeta in HF.
  destruct (get_nearest_point_and_s path (sx st, sy st)) as [[[near s] k]|] eqn:EN; [|discriminate].
  destruct (get_tangent_angle_at_s path s) as [a0|] eqn:ET; [|discriminate]. inversion HF; subst f. clear HF. cbn [lon] in Hs.
  pose proof (proj1 C) as LS.
  destruct (nth_some (pts path) i) as [p Hp]; [apply nth_lt in Hi; lia|].
  destruct (nth_some (pts path) (S i)) as [q Hq]; [apply nth_lt in Hj; lia|].
  destruct (frenet_inside path (sx st, sy st) i p q si sj near s k C E Hp Hq Hi Hj EN Hs)
    as (a & n & Ta & TP & Tn & En & _ & _ & RP & _). rewrite ET in Ta. injection Ta as <-.
  unfold to_dynamic_state. cbn [lon lat vlon vlat]. rewrite TP, ET, Tn. eexists. split; [reflexivity|].
  cbn [sx sy sth sv]. rewrite <- RP. cbn [fst snd]. split; [reflexivity|]. split; [reflexivity|].
  destruct (sad_facts (sth st) a0) as (_ & CA & SA & SD). set (d := sad (sth st) a0) in *. set (v := sv st).
  assert (SQ : sqrt (cos d * v * (cos d * v) + sin d * v * (sin d * v)) = Rabs v).
  { replace (_ + _) with (v * v). 2:{ pose proof (sin2_cos2 d) as T. unfold Rsqr in T.
      transitivity ((sin d * sin d + cos d * cos d) * (v * v)); [rewrite T; ring|ring]. }
    rewrite <- sqrt_Rsqr_abs. reflexivity. }
  split; [exact SQ|].
  destruct (atan2_polar (cos d * v) (sin d * v)) as [PX PY]. cbv zeta in PX, PY. rewrite SQ in PX, PY.
  set (phi := atan2 (sin d * v) (cos d * v)) in *.
  destruct (C20_normtopi PI (phi + a0) PI_RGT_0) as (_ & NS & _). unfold ntp.
  assert (TR : forall x, same_direction PI phi x -> same_direction PI (NormToPI PI exact (phi + a0)) (x + a0)).
  { intros x [m Hm]. destruct NS as [m' Hm']. exists (m + m')%Z. rewrite plus_IZR. lra. }
  split; intros Hv.
  - rewrite Rabs_pos_eq in PX, PY by lra.
    assert (same_direction PI phi d) by (apply trig_same_dir; nra).
    destruct (TR d H) as [m Hm]. destruct SD as [m' Hm']. exists (m + m')%Z. rewrite plus_IZR. lra.
  - rewrite Rabs_left in PX, PY by lra.
    assert (same_direction PI phi (d + PI)) by (apply trig_same_dir; rewrite ?neg_cos, ?neg_sin; nra).
    destruct (TR (d + PI) H) as [m Hm]. destruct SD as [m' Hm']. exists (m + m')%Z. rewrite plus_IZR. lra.
Qed.
Print Assumptions C26_round_trip.

(** The other direction: coordinates whose foot is the only nearest point are recovered. *)
Theorem C26_round_trip_coordinates : forall path f st i si sj P,
  arc_lengths_of (pts path) (ss path) -> (exists p0 p1 r, pts path = p0 :: p1 :: r /\ p0 <> p1) ->
  nth_error (ss path) i = Some si -> nth_error (ss path) (S i) = Some sj -> si < lon f < sj ->
  to_dynamic_state f path = Some st -> get_point_at_s path (lon f) = Some P ->
  (forall s' Q, at_arclength (pts path) s' Q -> s' <> lon f -> dist (sx st, sy st) P < dist (sx st, sy st) Q) ->
  exists f', frenet_state st path = Some f' /\ lon f' = lon f /\ lat f' = lat f /\ vlon f' = vlon f /\ vlat f' = vlat f.
Proof.
  intros path f st i si sj P C E Hi Hj Hs HT HP HU. pose proof (proj1 C) as LS.
  destruct (nth_some (pts path) i) as [p Hp]; [apply nth_lt in Hi; lia|].
  destruct (nth_some (pts path) (S i)) as [q Hq]; [apply nth_lt in Hj; lia|].
  destruct (C23_tangent_inside_segment path (lon f) i p q si sj C Hp Hq Hi Hj Hs) as (a & n & Ta & Tn & _).
  assert (En : n = (- sin a, cos a)).
  { unfold get_normal_at_s in Tn. rewrite Ta, asin1 in Tn. inversion Tn. f_equal.
    - rewrite cos_plus, cos_PI2, sin_PI2. ring.
    - rewrite sin_plus, cos_PI2, sin_PI2. ring. }
  unfold to_dynamic_state in HT. rewrite HP, Ta, Tn in HT. inversion HT as [HT']. clear HT.
  destruct E as (p0 & p1 & r & EP & NE). assert (L2 : (2 <= length (pts path))%nat) by (rewrite EP; cbn; lia).
  destruct (C24_nearest_point path (sx st, sy st) p0 p1 r C EP NE) as (N & s & k & t' & EN & OS & AA & M).
  assert (AP : at_arclength (pts path) (lon f) P).
  { destruct (get_point_spec path (lon f) C L2) as (X & EX & AX). rewrite HP in EX. injection EX as <-.
    rewrite clamp_in in AX; auto. rewrite (cons_nth path) in Hi, Hj by (auto; apply nth_lt in Hq; lia).
    injection Hi as <-. injection Hj as <-.
    pose proof (S_mono (pts path) 0 i ltac:(lia) ltac:(apply nth_lt in Hq; lia)) as M0. rewrite S_0 in M0.
    pose proof (S_mono (pts path) (S i) (length (pts path) - 1) ltac:(apply nth_lt in Hq; lia) ltac:(lia)) as M1. rewrite S_last in M1 by lia. lra. }
  assert (Es : s = lon f).
  { destruct (Req_dec s (lon f)) as [|X]; auto. exfalso. specialize (HU s N AA X).
    destruct AP as (j & x & y & u & A1 & A2 & A3 & A4 & _). assert (OP : on_polyline (pts path) P) by (exists j, u, x, y; auto).
    specialize (M P OP). lra. }
  subst s. assert (N = P) by (eapply at_arclength_unique; eauto). subst N.
  unfold frenet_state. cbv zeta. rewrite HT', EN, Ta. eexists. split; [reflexivity|]. cbn [lon lat vlon vlat].
  split; [reflexivity|]. subst st. cbn [sx sy sth sv] in *. rewrite En. unfold padd, pscale. cbn [fst snd].
  pose proof (sin2_cos2 a) as T. unfold Rsqr in T. split.
  - rewrite lateral_perp; unfold left_of_dir, along_dir, psub; cbn [fst snd].
    + transitivity ((sin a * sin a + cos a * cos a) * lat f); [ring|rewrite T; ring].
    + ring.
  - set (phi := atan2 (vlat f) (vlon f)). destruct (atan2_polar (vlon f) (vlat f)) as [PX PY]. fold phi in PX, PY.
    destruct (C20_normtopi PI (phi + a) PI_RGT_0) as (_ & [m Hm] & _).
    destruct (sad_facts (ntp (phi + a)) a) as (_ & CA & SA & _). rewrite CA, SA. unfold ntp. rewrite Hm.
    replace (phi + a + IZR m * (2 * PI) - a) with (phi + IZR m * (2 * PI)) by ring. rewrite cos_Zperiod, sin_Zperiod.
    split; [rewrite <- PX at 3; ring|rewrite <- PY at 3; ring].
Qed.
Print Assumptions C26_round_trip_coordinates.

(** Past the end of the line the round trip loses the position: a vehicle one metre past the end is put on
    the end point. *)
Theorem C26_beyond_end_refuted : exists path st f st',
  arc_lengths_of (pts path) (ss path) /\ pts path = [(0, 0); (1, 0)] /\
  frenet_state st path = Some f /\ sx st = 2 /\ sy st = 0 /\ lat f = 0 /\
  to_dynamic_state f path = Some st' /\ sx st' = 1 /\ sy st' = 0.
Proof.
  set (path := add_points empty_line [(0, 0); (1, 0)]). assert (C : arc_lengths_of (pts path) (ss path)) by apply recompute_spec.
  assert (D : dist (0, 0) (1, 0) = 1). { unfold dist. cbn. replace (_ + _) with (1 * 1) by ring. apply sqrt_square. lra. }
  assert (ES : ss path = [0; 1]).
  { cbn. rewrite dist_refl, (dist_sym (1, 0)), D. f_equal; [ring|]. f_equal. ring. }
  assert (EN : get_nearest_point_and_s path (2, 0) = Some ((1, 0), 1, 0%nat)).
  { destruct (C24_nearest_point path (2, 0) (0, 0) (1, 0) [] C eq_refl) as (N & s & k & t & EN & (p & q & Hp & Hq & Ht & EL) & AA & M).
    - intros X. inversion X. lra.
    - assert (k = 0%nat). { destruct k as [|k]; auto. cbn in Hq. destruct k; discriminate. } subst k. cbn in Hp, Hq. injection Hp as <-. injection Hq as <-.
      assert (HN : dist (2, 0) N <= dist (2, 0) (1, 0)).
      { apply M. exists 0%nat, 1, (0, 0), (1, 0). repeat split; try lra. now rewrite lerp1. }
      assert (t = 1). { rewrite EL in HN. apply dist_le_iff in HN. unfold dist2, lerp in HN. cbn in HN. nra. }
      subst t. rewrite lerp1 in EL. subst N. rewrite EN. do 2 f_equal.
      assert (A1 : at_arclength (pts path) 1 (1, 0)).
      { exists 0%nat, (0, 0), (1, 0), 1. rewrite lerp1, D. cbn. repeat split; try lra. }
      f_equal. destruct AA as (j & x & y & u & H1 & H2 & H3 & H4 & ->).
      assert (j = 0%nat). { destruct j as [|j]; auto. cbn in H2. destruct j; discriminate. } subst j. cbn in H1, H2. injection H1 as <-. injection H2 as <-.
      cbn. rewrite D. lra. }
  assert (T1 : get_tangent_angle_at_s path 1 = Some 0).
  { unfold get_tangent_angle_at_s. rewrite ES. cbn [last_opt length nth_error]. unfold last_opt. cbn [length Nat.sub nth_error].
    destruct (Rleb_spec 1 1); [|lra]. cbn. unfold nth_seg. cbn [nth_error]. unfold seg_angle, atan2. cbn [fst snd].
    destruct (Rlt_dec 0 (1 - 0)); [|lra]. replace ((0 - 0) / (1 - 0)) with 0 by field. now rewrite atan_0. }
  assert (LAT : lateral (2, 0) (1, 0) 0 = 0).
  { apply lateral_cases; unfold left_of_dir, along_dir, psub; cbn [fst snd]; rewrite sin_0, cos_0; lra. }
  assert (P1 : get_point_at_s path 1 = Some (1, 0)).
  { unfold get_point_at_s. cbn [pts path add_points of_points fold_left empty_line app length Nat.leb]. destruct (Rleb_spec 1 0); [lra|].
    change (ss (add_points empty_line [(0, 0); (1, 0)])) with (ss path). rewrite ES. cbn.
    destruct (Rleb_spec 1 1); [reflexivity|lra]. }
  exists path, (mkDS 2 0 0 5). eexists. eexists. split; [exact C|]. split; [reflexivity|].
  split; [unfold frenet_state; cbn [sx sy sth sv]; rewrite EN, T1; reflexivity|].
  split; [reflexivity|]. split; [reflexivity|]. cbn [lat]. split; [exact LAT|].
  split; [unfold to_dynamic_state; cbn [lon]; unfold get_normal_at_s; rewrite P1, T1; reflexivity|].
  cbn [sx sy lat]. rewrite LAT. unfold padd, pscale. cbn [fst snd]. split; ring.
Qed.
Print Assumptions C26_beyond_end_refuted.

(** Velocities: components of the velocity vector along and to the left of the tangent. *)
Theorem C26_velocity_components : forall path st f a,
  frenet_state st path = Some f -> get_tangent_angle_at_s path (lon f) = Some a ->
  let v := (sv st * cos (sth st), sv st * sin (sth st)) in
  vlon f = along_dir a v /\ vlat f = left_of_dir a v /\
  - PI <= angle f < PI /\ same_direction PI (sth st) (a - angle f).
Proof.
  intros path st f a HF Ha v. unfold frenet_state in HF. cbv zeta in HF.
  destruct (get_nearest_point_and_s path (sx st, sy st)) as [[[near s] k]|]; [|discriminate].
  destruct (get_tangent_angle_at_s path s) as [a0|] eqn:ET; [|discriminate]. inversion HF; subst f. clear HF. cbn [lon] in Ha.
  rewrite ET in Ha. injection Ha as <-. cbn [vlon vlat angle].
  destruct (sad_facts (sth st) a0) as (_ & CA & SA & _). rewrite CA, SA, cos_minus, sin_minus.
  destruct (sad_facts a0 (sth st)) as (R & _ & _ & [m Hm]).
  unfold v, along_dir, left_of_dir. cbn [fst snd]. repeat split; try ring; try apply R.
  exists m. lra.
Qed.
Print Assumptions C26_velocity_components.

(** Shape extents along the road. *)
Lemma ntp_id a : - PI <= a < PI -> ntp a = a.
Proof.
  intros H. destruct (C20_normtopi PI a PI_RGT_0) as (_ & _ & U & _). symmetry. apply U; auto. exists 0%Z. lra.
Qed.
Lemma pa_facts a : - PI <= a < PI ->
  let pa := if Rltb (Rabs a) (PI / 2) then Rabs (ntp a) else Rabs (Rabs (ntp a) - PI) in
  cos pa = Rabs (cos a) /\ sin pa = Rabs (sin a).
Proof.
  intros H pa. unfold pa. rewrite ntp_id by auto. pose proof PI_RGT_0 as HP.
  assert (CA : cos (Rabs a) = cos a). { unfold Rabs. destruct (Rcase_abs a); auto. apply cos_neg. }
  assert (HA : 0 <= Rabs a <= PI). { unfold Rabs. destruct (Rcase_abs a); lra. }
  assert (SA : sin (Rabs a) = Rabs (sin a)).
  { assert (0 <= sin (Rabs a)) by (apply sin_ge_0; lra). unfold Rabs in *. destruct (Rcase_abs a).
    - rewrite sin_neg in *. destruct (Rcase_abs (sin a)); lra.
    - destruct (Rcase_abs (sin a)); lra. }
  destruct (Rltb_spec (Rabs a) (PI / 2)).
  - rewrite CA, SA. split; auto. rewrite Rabs_pos_eq; auto. rewrite <- CA. apply cos_ge_0; lra.
  - rewrite Rabs_minus_sym, Rabs_pos_eq by lra. split.
    + rewrite <- CA. rewrite (Rabs_left1 (cos (Rabs a))).
      * replace (PI - Rabs a) with (- (Rabs a - PI)) by ring. rewrite cos_neg, cos_minus, cos_PI, sin_PI. ring.
      * apply cos_le_0; lra.
    + rewrite <- SA. rewrite sin_minus, cos_PI, sin_PI. ring.
Qed.

Lemma reach_unique h f r w d m m' : reach h f r w d m -> reach h f r w d m' -> m = m'.
Proof. intros [(p & Ip & Ep) A] [(q & Iq & Eq) B]. specialize (A q Iq). specialize (B p Ip). lra. Qed.

Ltac corner_cases := intros pp Hpp; cbn in Hpp; destruct Hpp as [<-|[<-|[<-|[<-|[]]]]]; cbn [fst snd turned].
Ltac corner_val x := exists x; split; [cbn; tauto|]; unfold turned; cbn [fst snd].

Lemma reach_values h f r w : 0 <= f -> 0 <= r -> 0 <= w ->
  (0 <= cos h -> reach h f r w ahead (f * cos h + w * Rabs (sin h)) /\ reach h f r w backward (r * cos h + w * Rabs (sin h))) /\
  (cos h <= 0 -> reach h f r w ahead (r * - cos h + w * Rabs (sin h)) /\ reach h f r w backward (f * - cos h + w * Rabs (sin h))) /\
  (0 <= sin h -> reach h f r w leftward (f * sin h + w * Rabs (cos h)) /\ reach h f r w rightward (r * sin h + w * Rabs (cos h))) /\
  (sin h <= 0 -> reach h f r w leftward (r * - sin h + w * Rabs (cos h)) /\ reach h f r w rightward (f * - sin h + w * Rabs (cos h))).
Proof.
  intros Hf Hr Hw. unfold reach, ahead, backward, leftward, rightward, turned. cbn [fst snd].
  set (c := cos h). set (s := sin h). clearbody c s.
  assert (G : forall m x, In x (corners f r w) -> forall g : pt -> R, g x = m -> (forall p, In p (corners f r w) -> g p <= m) ->
     (exists p, In p (corners f r w) /\ g p = m) /\ forall p, In p (corners f r w) -> g p <= m) by (intros; eauto).
  split; [|split; [|split]]; intros H.
  - split; unfold Rabs; destruct (Rcase_abs s);
      [apply (G _ (f, w))|apply (G _ (f, - w))|apply (G _ (- r, - w))|apply (G _ (- r, w))]; try (cbn; tauto); cbn [fst snd]; try ring; corner_cases; nra.
  - split; unfold Rabs; destruct (Rcase_abs s);
      [apply (G _ (- r, w))|apply (G _ (- r, - w))|apply (G _ (f, - w))|apply (G _ (f, w))]; try (cbn; tauto); cbn [fst snd]; try ring; corner_cases; nra.
  - split; unfold Rabs; destruct (Rcase_abs c);
      [apply (G _ (f, - w))|apply (G _ (f, w))|apply (G _ (- r, w))|apply (G _ (- r, - w))]; try (cbn; tauto); cbn [fst snd]; try ring; corner_cases; nra.
  - split; unfold Rabs; destruct (Rcase_abs c);
      [apply (G _ (- r, - w))|apply (G _ (- r, w))|apply (G _ (f, w))|apply (G _ (f, - w))]; try (cbn; tauto); cbn [fst snd]; try ring; corner_cases; nra.
Qed.

Definition good_shape (s : shape) : Prop := 0 <= front_dist s /\ 0 <= rear_dist s /\ 0 <= left_dist s.

Lemma extension_unfold a s : - PI <= a < PI ->
  let f := front_dist s in let r := rear_dist s in let w := left_dist s in
  let c := Rabs (cos a) in let n := Rabs (sin a) in
  shape_extension a s = if Rltb (PI/2) a then mkExt (c * r + n * w) (c * f + n * w) (n * f + c * w) (n * r + c * w)
    else if Rltb a (- (PI/2)) then mkExt (c * r + n * w) (c * f + n * w) (n * r + c * w) (n * f + c * w)
    else mkExt (c * f + n * w) (c * r + n * w) (n * r + c * w) (n * f + c * w).
Proof.
  intros H f r w c n. unfold shape_extension. cbv zeta. destruct (pa_facts a H) as [A B]. cbv zeta in A, B. rewrite A, B. reflexivity.
Qed.

Lemma cos_sign_range a : - PI <= a < PI -> (- (PI/2) <= a <= PI/2 -> 0 <= cos a) /\ (PI/2 < a \/ a < - (PI/2) -> cos a <= 0).
Proof.
  intros H. pose proof PI_RGT_0. split; intros X.
  - apply cos_ge_0; lra.
  - destruct X as [X|X]; [apply cos_le_0; lra|]. rewrite <- cos_neg. apply cos_le_0; lra.
Qed.
Lemma sin_sign_range a : - PI <= a < PI -> (0 <= a -> 0 <= sin a) /\ (a <= 0 -> sin a <= 0).
Proof.
  intros H. pose proof PI_RGT_0. split; intros X.
  - apply sin_ge_0; lra.
  - assert (0 <= sin (- a)) by (apply sin_ge_0; lra). rewrite sin_neg in *. lra.
Qed.

(** Front and rear reach of the turned vehicle, for every angle, whichever way the angle is counted. *)
Theorem C26_extension_front_rear : forall a s, - PI <= a < PI -> good_shape s ->
  forall h, h = a \/ h = - a ->
  reach h (front_dist s) (rear_dist s) (left_dist s) ahead (e_front (shape_extension a s)) /\
  reach h (front_dist s) (rear_dist s) (left_dist s) backward (e_rear (shape_extension a s)).
Proof.
  intros a s H (Hf & Hr & Hw) h Hh. rewrite extension_unfold by auto. cbv zeta.
  assert (CH : cos h = cos a) by (destruct Hh as [->| ->]; [reflexivity|apply cos_neg]).
  assert (SH : Rabs (sin h) = Rabs (sin a)) by (destruct Hh as [->| ->]; [reflexivity|rewrite sin_neg; apply Rabs_Ropp]).
  destruct (cos_sign_range a H) as [C1 C2]. pose proof PI_RGT_0 as HP.
  destruct (reach_values h (front_dist s) (rear_dist s) (left_dist s) Hf Hr Hw) as (V1 & V2 & _ & _).
  rewrite CH, SH in V1, V2.
  destruct (Rltb_spec (PI/2) a); [|destruct (Rltb_spec a (- (PI/2)))]; cbn [e_front e_rear].
  - specialize (C2 ltac:(lra)). destruct (V2 C2) as [A B]. rewrite (Rabs_left1 (cos a)) by auto.
    split; [replace (_ + _) with (rear_dist s * - cos a + left_dist s * Rabs (sin a)) by ring|replace (_ + _) with (front_dist s * - cos a + left_dist s * Rabs (sin a)) by ring]; auto.
  - specialize (C2 ltac:(lra)). destruct (V2 C2) as [A B]. rewrite (Rabs_left1 (cos a)) by auto.
    split; [replace (_ + _) with (rear_dist s * - cos a + left_dist s * Rabs (sin a)) by ring|replace (_ + _) with (front_dist s * - cos a + left_dist s * Rabs (sin a)) by ring]; auto.
  - specialize (C1 ltac:(lra)). destruct (V1 C1) as [A B]. rewrite (Rabs_pos_eq (cos a)) by auto.
    split; [replace (_ + _) with (front_dist s * cos a + left_dist s * Rabs (sin a)) by ring|replace (_ + _) with (rear_dist s * cos a + left_dist s * Rabs (sin a)) by ring]; auto.
Qed.
Print Assumptions C26_extension_front_rear.

(** Side reach. The angle stored in a FrenetState is road minus vehicle heading, so the vehicle is turned by
    [- a]: right for angles from 0 to a quarter turn, for oncoming vehicles, and for shapes whose center is
    in the middle. *)
Definition side_ok (a : R) (s : shape) : Prop := 0 <= a <= PI / 2 \/ a = - PI \/ front_dist s = rear_dist s.
Theorem C26_extension_sides_partial : forall a s, - PI <= a < PI -> good_shape s -> side_ok a s ->
  reach (- a) (front_dist s) (rear_dist s) (left_dist s) leftward (e_left (shape_extension a s)) /\
  reach (- a) (front_dist s) (rear_dist s) (left_dist s) rightward (e_right (shape_extension a s)).
Proof.
  intros a s H (Hf & Hr & Hw) Hok. rewrite extension_unfold by auto. cbv zeta.
  destruct (reach_values (- a) (front_dist s) (rear_dist s) (left_dist s) Hf Hr Hw) as (_ & _ & V1 & V2).
  rewrite cos_neg, sin_neg in V1, V2. destruct (sin_sign_range a H) as [S1 S2]. pose proof PI_RGT_0 as HP.
  assert (G : forall x y z u : R, x = y -> z = u -> reach (- a) (front_dist s) (rear_dist s) (left_dist s) leftward x /\
     reach (- a) (front_dist s) (rear_dist s) (left_dist s) rightward z ->
     reach (- a) (front_dist s) (rear_dist s) (left_dist s) leftward y /\
     reach (- a) (front_dist s) (rear_dist s) (left_dist s) rightward u) by (intros; subst; auto).
  destruct Hok as [X|[X|X]].
  - destruct (Rltb_spec (PI/2) a); [lra|]. destruct (Rltb_spec a (- (PI/2))); [lra|]. cbn [e_left e_right].
    specialize (S1 ltac:(lra)). rewrite (Rabs_pos_eq (sin a)) by auto.
    refine (G _ _ _ _ _ _ (V2 ltac:(lra))); ring.
  - destruct (Rltb_spec (PI/2) a); [lra|]. destruct (Rltb_spec a (- (PI/2))); [|lra]. cbn [e_left e_right].
    assert (SZ : sin a = 0) by (rewrite X, sin_neg, sin_PI; ring). rewrite SZ in *. rewrite Rabs_R0.
    refine (G _ _ _ _ _ _ (V2 ltac:(lra))); ring.
  - rewrite <- X in *. destruct (Rle_dec 0 (sin a)) as [Y|Y].
    + rewrite (Rabs_pos_eq (sin a)) by auto.
      destruct (Rltb_spec (PI/2) a); [|destruct (Rltb_spec a (- (PI/2)))]; cbn [e_left e_right];
      refine (G _ _ _ _ _ _ (V2 ltac:(lra))); ring.
    + rewrite (Rabs_left (sin a)) by lra.
      destruct (Rltb_spec (PI/2) a); [|destruct (Rltb_spec a (- (PI/2)))]; cbn [e_left e_right];
      refine (G _ _ _ _ _ _ (V1 ltac:(lra))); ring.
Qed.
Print Assumptions C26_extension_sides_partial.

(** Everywhere else the left and right reach are exchanged. *)
Theorem C26_extension_sides_refuted : forall a s, - PI < a < PI -> good_shape s -> a < 0 \/ PI / 2 < a ->
  front_dist s <> rear_dist s ->
  ~ reach (- a) (front_dist s) (rear_dist s) (left_dist s) leftward (e_left (shape_extension a s)) /\
  reach (- a) (front_dist s) (rear_dist s) (left_dist s) rightward (e_left (shape_extension a s)).
Proof.
  intros a s H (Hf & Hr & Hw) X N. rewrite extension_unfold by lra. cbv zeta. pose proof PI_RGT_0 as HP.
  destruct (reach_values (- a) (front_dist s) (rear_dist s) (left_dist s) Hf Hr Hw) as (_ & _ & V1 & V2).
  rewrite cos_neg, sin_neg in V1, V2. destruct X as [X|X].
  - assert (SN : sin a < 0). { assert (0 < sin (- a)) by (apply sin_gt_0; lra). rewrite sin_neg in *. lra. }
    rewrite (Rabs_left (sin a)) by auto. destruct (V1 ltac:(lra)) as [A B].
    assert (E : e_left (if Rltb (PI/2) a then mkExt (Rabs (cos a) * rear_dist s + - sin a * left_dist s) (Rabs (cos a) * front_dist s + - sin a * left_dist s) (- sin a * front_dist s + Rabs (cos a) * left_dist s) (- sin a * rear_dist s + Rabs (cos a) * left_dist s)
      else if Rltb a (- (PI/2)) then mkExt (Rabs (cos a) * rear_dist s + - sin a * left_dist s) (Rabs (cos a) * front_dist s + - sin a * left_dist s) (- sin a * rear_dist s + Rabs (cos a) * left_dist s) (- sin a * front_dist s + Rabs (cos a) * left_dist s)
      else mkExt (Rabs (cos a) * front_dist s + - sin a * left_dist s) (Rabs (cos a) * rear_dist s + - sin a * left_dist s) (- sin a * rear_dist s + Rabs (cos a) * left_dist s) (- sin a * front_dist s + Rabs (cos a) * left_dist s))
      = rear_dist s * - sin a + left_dist s * Rabs (cos a)).
    { destruct (Rltb_spec (PI/2) a); [lra|]. destruct (Rltb_spec a (- (PI/2))); cbn [e_left]; ring. }
    rewrite E. split; [|exact B]. intros R. pose proof (reach_unique _ _ _ _ _ _ _ A R). apply N. nra.
  - assert (SP : 0 < sin a) by (apply sin_gt_0; lra). rewrite (Rabs_pos_eq (sin a)) by lra. destruct (V2 ltac:(lra)) as [A B].
    destruct (Rltb_spec (PI/2) a); [|lra]. cbn [e_left]. split.
    + intros R. pose proof (reach_unique _ _ _ _ _ _ _ A R). apply N. nra.
    + replace (sin a * front_dist s + Rabs (cos a) * left_dist s) with (front_dist s * - - sin a + left_dist s * Rabs (cos a)) by ring. exact B.
Qed.
Print Assumptions C26_extension_sides_refuted.

(** Differences. *)
Lemma ext_nonneg a s : - PI <= a < PI -> good_shape s ->
  0 <= e_front (shape_extension a s) /\ 0 <= e_rear (shape_extension a s) /\
  0 <= e_left (shape_extension a s) /\ 0 <= e_right (shape_extension a s).
Proof.
  intros H (Hf & Hr & Hw). rewrite extension_unfold by auto. cbv zeta.
  pose proof (Rabs_pos (cos a)). pose proof (Rabs_pos (sin a)).
  assert (forall x y u v : R, 0 <= x -> 0 <= y -> 0 <= u -> 0 <= v -> 0 <= x * y + u * v) by (intros; nra).
  destruct (Rltb (PI/2) a); [|destruct (Rltb a (- (PI/2)))]; cbn; repeat split; auto.
Qed.

Definition valid_frenet (f : fstate) : Prop := - PI <= angle f < PI.
Definition reach_of (f : fstate) (s : shape) : pt -> R -> Prop :=
  reach (- angle f) (front_dist s) (rear_dist s) (left_dist s).

(** Longitudinal difference: the gap between the vehicles' ranges, or the flagged difference of the
    coordinates if the ranges meet. *)
Theorem C26_longitudinal_difference : forall f1 s1 f2 s2 F1 B1 F2 B2,
  valid_frenet f1 -> valid_frenet f2 -> good_shape s1 -> good_shape s2 ->
  reach_of f1 s1 ahead F1 -> reach_of f1 s1 backward B1 -> reach_of f2 s2 ahead F2 -> reach_of f2 s2 backward B2 ->
  let d := frenet_difference f1 s1 f2 s2 in
  (forall g, interval_gap (lon f1) B1 F1 (lon f2) B2 F2 g -> d_lon d = g /\ lon_zeroed d = false) /\
  (intervals_meet (lon f1) B1 F1 (lon f2) B2 F2 -> d_lon d = lon f2 - lon f1 /\ lon_zeroed d = true).
Proof.
  intros f1 s1 f2 s2 F1 B1 F2 B2 V1 V2 G1 G2 RF1 RB1 RF2 RB2 d.
  destruct (C26_extension_front_rear _ _ V1 G1 _ (or_intror eq_refl)) as [X1 Y1].
  destruct (C26_extension_front_rear _ _ V2 G2 _ (or_intror eq_refl)) as [X2 Y2].
  destruct (ext_nonneg _ _ V1 G1) as (P1 & P2 & _). destruct (ext_nonneg _ _ V2 G2) as (P3 & P4 & _).
  rewrite (reach_unique _ _ _ _ _ _ _ RF1 X1), (reach_unique _ _ _ _ _ _ _ RB1 Y1), (reach_unique _ _ _ _ _ _ _ RF2 X2), (reach_unique _ _ _ _ _ _ _ RB2 Y2).
  unfold d, frenet_difference, lon_difference. cbn [d_lon lon_zeroed].
  set (e1 := shape_extension (angle f1) s1) in *. set (e2 := shape_extension (angle f2) s2) in *. unfold interval_gap, intervals_meet.
  destruct (Rleb_spec (lon f1) (lon f2)); cbn [fst snd].
  - destruct (Rltb_spec 0 (lon f2 - e_rear e2 - (lon f1 + e_front e1))), (Rleb_spec (lon f2 - e_rear e2 - (lon f1 + e_front e1)) 0);
      split; intros; split; try reflexivity; lra.
  - destruct (Rltb_spec (lon f2 + e_front e2 - (lon f1 - e_rear e1)) 0), (Rleb_spec 0 (lon f2 + e_front e2 - (lon f1 - e_rear e1)));
      split; intros; split; try reflexivity; lra.
Qed.
Print Assumptions C26_longitudinal_difference.

Theorem C26_lateral_difference_partial : forall f1 s1 f2 s2 L1 R1 L2 R2,
  valid_frenet f1 -> valid_frenet f2 -> good_shape s1 -> good_shape s2 ->
  side_ok (angle f1) s1 -> side_ok (angle f2) s2 ->
  reach_of f1 s1 leftward L1 -> reach_of f1 s1 rightward R1 -> reach_of f2 s2 leftward L2 -> reach_of f2 s2 rightward R2 ->
  lat f1 <= lat f2 \/ L2 = R2 ->
  let d := frenet_difference f1 s1 f2 s2 in
  (forall g, interval_gap (lat f1) R1 L1 (lat f2) R2 L2 g -> d_lat d = g /\ lat_zeroed d = false) /\
  (intervals_meet (lat f1) R1 L1 (lat f2) R2 L2 -> d_lat d = lat f2 - lat f1 /\ lat_zeroed d = true).
Proof.
  intros f1 s1 f2 s2 L1 R1 L2 R2 V1 V2 G1 G2 O1 O2 RF1 RB1 RF2 RB2 HC d.
  destruct (C26_extension_sides_partial _ _ V1 G1 O1) as [X1 Y1].
  destruct (C26_extension_sides_partial _ _ V2 G2 O2) as [X2 Y2].
  destruct (ext_nonneg _ _ V1 G1) as (_ & _ & P1 & P2). destruct (ext_nonneg _ _ V2 G2) as (_ & _ & P3 & P4).
  revert HC. rewrite (reach_unique _ _ _ _ _ _ _ RF1 X1), (reach_unique _ _ _ _ _ _ _ RB1 Y1), (reach_unique _ _ _ _ _ _ _ RF2 X2), (reach_unique _ _ _ _ _ _ _ RB2 Y2).
  intros HC. unfold d, frenet_difference, lat_difference. cbn [d_lat lat_zeroed].
  set (e1 := shape_extension (angle f1) s1) in *. set (e2 := shape_extension (angle f2) s2) in *. unfold interval_gap, intervals_meet.
  destruct (Rleb_spec (lat f1) (lat f2)); cbn [fst snd].
  - destruct (Rltb_spec 0 (lat f2 - e_right e2 - (lat f1 + e_left e1))), (Rleb_spec (lat f2 - e_right e2 - (lat f1 + e_left e1)) 0);
      split; intros; split; try reflexivity; lra.
  - destruct (Rltb_spec (lat f2 + e_right e1 - (lat f1 - e_right e2)) 0), (Rleb_spec 0 (lat f2 + e_right e1 - (lat f1 - e_right e2)));
      split; intros; split; try reflexivity; lra.
Qed.
Print Assumptions C26_lateral_difference_partial.

(** Swapping the vehicles negates the longitudinal difference and the velocity differences, always. *)
Theorem C26_swap_longitudinal : forall f1 s1 f2 s2,
  valid_frenet f1 -> valid_frenet f2 -> good_shape s1 -> good_shape s2 ->
  let d := frenet_difference f1 s1 f2 s2 in let d' := frenet_difference f2 s2 f1 s1 in
  d_lon d' = - d_lon d /\ lon_zeroed d' = lon_zeroed d /\ d_vlon d' = - d_vlon d /\ d_vlat d' = - d_vlat d.
Proof.
  intros f1 s1 f2 s2 V1 V2 G1 G2 d d'.
  destruct (ext_nonneg _ _ V1 G1) as (P1 & P2 & _). destruct (ext_nonneg _ _ V2 G2) as (P3 & P4 & _).
  unfold d, d', frenet_difference, lon_difference. cbn [d_lon lon_zeroed d_vlon d_vlat].
  set (e1 := shape_extension (angle f1) s1) in *. set (e2 := shape_extension (angle f2) s2) in *.
  split; [|split; [|split; ring]].
  - destruct (Rleb_spec (lon f1) (lon f2)), (Rleb_spec (lon f2) (lon f1)); cbn [fst snd];
      repeat match goal with |- context [Rltb ?x ?y] => destruct (Rltb_spec x y) end; lra.
  - destruct (Rleb_spec (lon f1) (lon f2)), (Rleb_spec (lon f2) (lon f1)); cbn [fst snd];
      repeat match goal with |- context [Rleb ?x ?y] => destruct (Rleb_spec x y) end; try reflexivity; lra.
Qed.
Print Assumptions C26_swap_longitudinal.

(** ... but not the lateral one: a car across the road, seen from a car beside it. *)
Theorem C26_swap_lateral_refuted : exists f1 s1 f2 s2,
  valid_frenet f1 /\ valid_frenet f2 /\ good_shape s1 /\ good_shape s2 /\ side_ok (angle f1) s1 /\ side_ok (angle f2) s2 /\
  d_lat (frenet_difference f1 s1 f2 s2) = -6 /\ d_lat (frenet_difference f2 s2 f1 s1) = 8.
Proof.
  set (s := mkShape [] (0, 0, 0) 1 3 1 1).
  exists (mkFS 0 10 0 0 0 0), s, (mkFS 0 0 0 0 (PI/2) 0), s. pose proof PI_RGT_0 as HP.
  unfold valid_frenet, good_shape, side_ok. cbn [angle front_dist rear_dist left_dist s].
  repeat split; try lra.
  - unfold frenet_difference, lat_difference. cbn [d_lat lat angle]. rewrite !extension_unfold by lra. cbv zeta.
    cbn [front_dist rear_dist left_dist s]. rewrite cos_0, sin_0, cos_PI2, sin_PI2, Rabs_R0, Rabs_R1.
    destruct (Rltb_spec (PI/2) 0); [lra|]. destruct (Rltb_spec 0 (- (PI/2))); [lra|].
    destruct (Rltb_spec (PI/2) (PI/2)); [lra|]. destruct (Rltb_spec (PI/2) (- (PI/2))); [lra|].
    destruct (Rleb_spec 10 0); [lra|]. cbn [e_right e_left fst snd].
    match goal with |- context [Rltb ?x ?y] => destruct (Rltb_spec x y) end; lra.
  - unfold frenet_difference, lat_difference. cbn [d_lat lat angle]. rewrite !extension_unfold by lra. cbv zeta.
    cbn [front_dist rear_dist left_dist s]. rewrite cos_0, sin_0, cos_PI2, sin_PI2, Rabs_R0, Rabs_R1.
    destruct (Rltb_spec (PI/2) 0); [lra|]. destruct (Rltb_spec 0 (- (PI/2))); [lra|].
    destruct (Rltb_spec (PI/2) (PI/2)); [lra|]. destruct (Rltb_spec (PI/2) (- (PI/2))); [lra|].
    destruct (Rleb_spec 0 10); [|lra]. cbn [e_right e_left fst snd].
    match goal with |- context [Rltb ?x ?y] => destruct (Rltb_spec x y) end; lra.
Qed.
Print Assumptions C26_swap_lateral_refuted.

(** Touching vehicles do not have distance zero: the distance of their reference points is reported. *)
Theorem C26_touching_zero_refuted : forall f1 s1 f2 s2 F1 B2,
  valid_frenet f1 -> valid_frenet f2 -> good_shape s1 -> good_shape s2 ->
  reach_of f1 s1 ahead F1 -> reach_of f2 s2 backward B2 ->
  lon f1 + F1 = lon f2 - B2 -> lon f1 < lon f2 ->
  d_lon (frenet_difference f1 s1 f2 s2) = F1 + B2 /\ d_lon (frenet_difference f1 s1 f2 s2) <> 0.
Proof.
  intros f1 s1 f2 s2 F1 B2 V1 V2 G1 G2 RF RB T L.
  destruct (C26_extension_front_rear _ _ V1 G1 _ (or_intror eq_refl)) as [X1 Y1].
  destruct (C26_extension_front_rear _ _ V2 G2 _ (or_intror eq_refl)) as [X2 Y2].
  assert (d_lon (frenet_difference f1 s1 f2 s2) = lon f2 - lon f1).
  { unfold frenet_difference, lon_difference. cbn [d_lon]. rewrite <- (reach_unique _ _ _ _ _ _ _ RF X1), <- (reach_unique _ _ _ _ _ _ _ RB Y2).
    destruct (Rleb_spec (lon f1) (lon f2)); [|lra]. cbn [fst]. match goal with |- context [Rltb ?x ?y] => destruct (Rltb_spec x y) end; lra. }
  lra.
Qed.
Print Assumptions C26_touching_zero_refuted.

(** The angle difference has the sign opposite to the documented one ("positive if state2 is turned more to
    the left"): a vehicle at the same place turned left by h gets the difference -h. *)
Theorem C26_angle_difference_sign_refuted : forall path st1 st2 f1 f2 s1 s2 h,
  frenet_state st1 path = Some f1 -> frenet_state st2 path = Some f2 ->
  sx st2 = sx st1 -> sy st2 = sy st1 -> sth st2 = sth st1 + h -> 0 < h < PI ->
  d_angle (frenet_difference f1 s1 f2 s2) = - h.
Proof.
  intros path st1 st2 f1 f2 s1 s2 h H1 H2 HX HY HT Hh. unfold frenet_difference. cbn [d_angle].
  unfold frenet_state in H1, H2. cbv zeta in H1, H2. rewrite HX, HY in H2.
  destruct (get_nearest_point_and_s path (sx st1, sy st1)) as [[[near s] k]|]; [|discriminate].
  destruct (get_tangent_angle_at_s path s) as [a|]; [|discriminate]. inversion H1; subst f1. inversion H2; subst f2. cbn [angle].
  destruct (sad_facts a (sth st1)) as (_ & _ & _ & [k1 E1]). destruct (sad_facts a (sth st2)) as (_ & _ & _ & [k2 E2]).
  destruct (C20_norm0to2pi PI (sad a (sth st2) - sad a (sth st1)) PI_RGT_0) as (_ & [k3 E3] & _).
  symmetry. unfold ntp. apply C20_normtopi; [apply PI_RGT_0| |lra].
  exists (k1 - k2 - k3)%Z. rewrite !minus_IZR. lra.
Qed.
Print Assumptions C26_angle_difference_sign_refuted.

(** C51. Lateral acceleration: if the lateral speed across the street v sin(theta - theta_street) changes at
    the rate A, then the result is the vehicle's own lateral acceleration v * theta'. *)
Theorem C51_lateral_acceleration : forall (th ths v : R -> R) t w ws a A dt last,
  derivable_pt_lim th t w -> derivable_pt_lim ths t ws -> derivable_pt_lim v t a ->
  derivable_pt_lim (fun u => v u * sin (th u - ths u)) t A ->
  cos (th t - ths t) <> 0 -> dt <> 0 -> sad (ths t) last / dt = ws ->
  lat_acc_street_to_vehicle A a dt (th t) (v t) (ths t) last = Some (v t * w).
Proof.
  intros th ths v t w ws a A dt last Dth Dths Dv DA HC Hdt HR.
  assert (E : A = a * sin (th t - ths t) + v t * (cos (th t - ths t) * (w - ws))).
  { eapply uniqueness_limite; [exact DA|].
    apply (derivable_pt_lim_mult v (fun u => sin (th u - ths u)) t a); [exact Dv|].
    apply (derivable_pt_lim_comp (fun u => th u - ths u) sin t (w - ws)).
    - apply derivable_pt_lim_minus; assumption.
    - apply derivable_pt_lim_sin. }
  unfold lat_acc_street_to_vehicle. cbv zeta. destruct (sad_facts (th t) (ths t)) as (_ & CA & SA & _). rewrite CA, SA.
  destruct (Reqb_spec dt 0); [tauto|]. destruct (Reqb_spec (cos (th t - ths t)) 0); [tauto|].
  rewrite HR, E. f_equal. field. auto.
Qed.
Print Assumptions C51_lateral_acceleration.

(** Not defined across the street. *)
Theorem C51_undefined_across : forall A a dt theta v road last, same_direction PI theta (road + PI / 2) ->
  lat_acc_street_to_vehicle A a dt theta v road last = None.
Proof.
  intros A a dt theta v road last [k ->]. unfold lat_acc_street_to_vehicle. cbv zeta.
  destruct (sad_facts (road + PI / 2 + IZR k * (2 * PI)) road) as (_ & CA & _ & _). rewrite CA.
  replace (road + PI / 2 + IZR k * (2 * PI) - road) with (PI / 2 + IZR k * (2 * PI)) by ring. rewrite cos_Zperiod, cos_PI2.
  destruct (Reqb_spec dt 0); auto. destruct (Reqb_spec 0 0); [reflexivity|tauto].
Qed.
Print Assumptions C51_undefined_across.

(** A vehicle two metres left of a straight road, turned left by a quarter turn. *)
Example C26_nonvacuous : exists path st f,
  arc_lengths_of (pts path) (ss path) /\ (exists p0 p1 r, pts path = p0 :: p1 :: r /\ p0 <> p1) /\
  frenet_state st path = Some f /\ ss path = [0; 10] /\ 0 < lon f < 10 /\ lat f = 2 /\ valid_frenet f /\
  good_shape (mkShape [] (0, 0, 0) 1 3 1 1).
Proof.
  set (path := add_points empty_line [(0, 0); (10, 0)]). assert (C : arc_lengths_of (pts path) (ss path)) by apply recompute_spec.
  assert (D : dist (0, 0) (10, 0) = 10). { unfold dist. cbn. replace (_ + _) with (10 * 10) by ring. apply sqrt_square. lra. }
  assert (ES : ss path = [0; 10]).
  { cbn. rewrite dist_refl, (dist_sym (10, 0)), D. f_equal; [ring|]. f_equal. ring. }
  assert (NE : (0, 0) <> (10, 0)) by (intros X; inversion X; lra).
  destruct (C24_nearest_point path (4, 2) (0, 0) (10, 0) [] C eq_refl NE) as (N & s & k & t & EN & (p & q & Hp & Hq & Ht & EL) & AA & M).
  assert (k = 0%nat). { destruct k as [|k]; auto. cbn in Hq. destruct k; discriminate. } subst k. cbn in Hp, Hq. injection Hp as <-. injection Hq as <-.
  assert (HN : dist (4, 2) N <= dist (4, 2) (4, 0)).
  { apply M. exists 0%nat, (4/10), (0, 0), (10, 0). repeat split; try lra. unfold lerp. cbn. f_equal; field. }
  assert (Et : t = 4/10).
  { rewrite EL in HN. apply dist_le_iff in HN. unfold dist2, lerp in HN. cbn in HN.
    assert ((4 - 10 * t) * (4 - 10 * t) <= 0) by nra. nra. }
  assert (EN' : N = (4, 0)). { rewrite EL, Et. unfold lerp. cbn. f_equal; field. }
  assert (Es : s = 4).
  { destruct AA as (j & x & y & u & H1 & H2 & H3 & H4 & ->).
    assert (j = 0%nat). { destruct j as [|j]; auto. cbn in H2. destruct j; discriminate. } subst j. cbn in H1, H2. injection H1 as <-. injection H2 as <-.
    rewrite EN'. cbn [firstn polyline_length pts path add_points of_points fold_left empty_line app].
    unfold dist. cbn. replace (_ + (0 - 0) * (0 - 0)) with (4 * 4) by ring. rewrite sqrt_square by lra. ring. }
  assert (T1 : get_tangent_angle_at_s path 4 = Some 0).
  { destruct (C23_tangent_inside_segment path 4 0 (0, 0) (10, 0) 0 10 C eq_refl eq_refl) as (a & n & Ta & _ & _).
    - rewrite ES. reflexivity.
    - rewrite ES. reflexivity.
    - lra.
    - rewrite Ta. f_equal. revert Ta. unfold get_tangent_angle_at_s. rewrite ES. unfold last_opt. cbn [length Nat.sub nth_error].
      destruct (Rleb_spec 10 4); [lra|]. destruct (Rleb_spec 4 0); [lra|].
      unfold at_vertex, segment_end_idx. rewrite ES. cbn [upper_bound lower_bound length].
      destruct (Rltb_spec 4 0); [lra|]. destruct (Rltb_spec 4 10); [|lra]. destruct (Rltb_spec 0 4); [|lra]. destruct (Rltb_spec 10 4); [lra|].
      cbn. unfold nth_seg. cbn [nth_error]. unfold seg_angle, atan2. cbn [fst snd].
      destruct (Rlt_dec 0 (10 - 0)); [|lra]. replace ((0 - 0) / (10 - 0)) with 0 by field. rewrite atan_0. congruence. }
  exists path, (mkDS 4 2 (PI/2) 5). eexists. split; [exact C|]. split; [exists (0, 0), (10, 0), []; auto|].
  split; [unfold frenet_state; cbn [sx sy sth sv]; rewrite EN, Es, T1; reflexivity|]. split; [exact ES|]. cbn [lon lat].
  split; [lra|]. split.
  - rewrite EN'. rewrite lateral_perp; unfold left_of_dir, along_dir, psub; cbn [fst snd]; rewrite sin_0, cos_0; ring.
  - split; [apply sad_facts|]. unfold good_shape. cbn. lra.
Qed.

(** A vehicle turning at rate 1/2 with constant speed 4 on a straight street, at heading 0. *)
Example C51_nonvacuous :
  lat_acc_street_to_vehicle 2 0 1 0 4 0 0 = Some 2.
Proof.
  assert (S0 : sad 0 0 = 0).
  { destruct (C21_signed_angle_difference PI 0 0 PI_RGT_0) as (_ & _ & _ & Z & _). apply Z. exists 0%Z. lra. }
  pose proof (C51_lateral_acceleration (fun u => / 2 * u) (fun _ => 0) (fun _ => 4) 0 (/ 2) 0 0 2 1 0) as T.
  assert (E0 : / 2 * 0 = 0) by ring.
  cbv beta in T. rewrite E0 in T. rewrite T; [f_equal; field| | | | | | |].
  - replace (/ 2) with (/ 2 * 1) at 1 by ring. apply (derivable_pt_lim_scal id (/ 2) 0 1). apply derivable_pt_lim_id.
  - apply derivable_pt_lim_const.
  - apply derivable_pt_lim_const.
  - assert (E2 : 2 = 4 * (1 * / 2)) by field. match goal with |- derivable_pt_lim ?f ?x _ => enough (X : derivable_pt_lim f x (4 * (1 * / 2))) by (rewrite <- E2 in X; exact X) end.
    apply (derivable_pt_lim_scal (fun u => sin (/ 2 * u - 0)) 4 0 (1 * / 2)).
    apply (derivable_pt_lim_comp (fun u => / 2 * u - 0) sin 0 (/ 2) 1).
    + replace (/ 2) with (/ 2 * 1 - 0) at 1 by ring. apply derivable_pt_lim_minus; [|apply derivable_pt_lim_const].
      apply (derivable_pt_lim_scal id (/ 2) 0 1). apply derivable_pt_lim_id.
    + replace (/ 2 * 0 - 0) with 0 by ring. rewrite <- cos_0. apply derivable_pt_lim_sin.
  - rewrite Rminus_0_r, cos_0. lra.
  - lra.
  - rewrite S0. field.
Qed.
