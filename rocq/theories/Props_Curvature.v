(** C116. Curvature, signed distance and smoothing of lines. *)
From Coq Require Import Reals List Bool ZArith Lra Lia Psatz.
From Verif Require Import Base_Real Base_Geom Model_Line Spec_Line Proof_Line Props_Line Model_Angle Model_Frenet Proof_Frenet Model_Curvature Spec_Curvature Proof_Curvature.
Import ListNotations.
Local Open Scope R_scope.

(** There is a curvature for every point of a line with at least three points, and for no other line. *)
Theorem C116_defined : forall l,
  (get_curvature l = None <-> (length (pts l) < 3)%nat) /\
  (forall ks, get_curvature l = Some ks -> length ks = length (pts l)).
Proof.
  intros l. split; [apply curvature_none|]. intros ks E.
  destruct (Nat.lt_ge_cases (length (pts l)) 3) as [K|K]; [rewrite (proj2 (curvature_none l) K) in E; discriminate|].
  destruct (curvature_spec l K) as (ks' & E' & L & _). congruence.
Qed.
Print Assumptions C116_defined.

(** Each is the signed curvature for the derivatives estimated from the neighbours (at the ends: the neighbours of the next inner
    point). *)
Theorem C116_formula : forall l ks i k, get_curvature l = Some ks -> nth_error ks i = Some k ->
  let n := length (pts l) in
  let x := slope n (fun j => fst (nth j (pts l) (0, 0))) in
  let y := slope n (fun j => snd (nth j (pts l) (0, 0))) in
  is_curvature (x i) (y i) (slope n x i) (slope n y i) k.
Proof.
  intros l ks i k E Hk n x y.
  destruct (Nat.lt_ge_cases (length (pts l)) 3) as [K|K]; [rewrite (proj2 (curvature_none l) K) in E; discriminate|].
  destruct (curvature_spec l K) as (ks' & E' & L & N). rewrite E in E'. injection E' as <-.
  assert (Hi : (i < length (pts l))%nat) by (rewrite <- L; apply nth_error_Some; congruence).
  specialize (N i Hi). rewrite (nth_error_nth _ _ _ Hk) in N. unfold kap, cx, cy in N. fold n x y in N.
  unfold is_curvature. set (r := x i * x i + y i * y i). assert (P : 0 <= r) by (unfold r; nra).
  unfold curvature_at in N. cbv zeta in N. fold r in N. pose proof (r_sqrt_zero r P) as Z. pose proof (sqrt_sqrt r P) as SS.
  destruct (Req_EM_T r 0) as [Er|Er]; destruct (Reqb_spec (r * sqrt r) 0) as [E1|E1]; try tauto.
  rewrite N, SS. field. split; [|exact Er]. intros X. apply E1. rewrite X. ring.
Qed.
Print Assumptions C116_formula.

(** Moving, turning and mirroring: the curvature does not change, or changes its sign; enlarging divides it. *)
Theorem C116_similarity : forall ps m a t, 0 < m ->
  get_curvature (of_points (map (similarity m a t) ps)) = option_map (map (fun k => k / m)) (get_curvature (of_points ps)).
Proof.
  intros ps m a t Hm. apply curvature_rel; [apply map_length|]. cbn [of_points pts]. set (n := length ps). intros i Hn Hi.
  rewrite (kap_ext n (cx (map (similarity m a t) ps)) (cy (map (similarity m a t) ps))
    (fun k => (m * cos a) * cx ps k + (- (m * sin a)) * cy ps k + fst t) (fun k => (m * sin a) * cx ps k + (m * cos a) * cy ps k + snd t)); auto.
  2:{ intros k Hk. rewrite cx_map by exact Hk. unfold similarity, cx, cy. cbn [fst snd]. ring. }
  2:{ intros k Hk. rewrite cy_map by exact Hk. unfold similarity, cx, cy. cbn [fst snd]. ring. }
  unfold kap. rewrite !slope_lin, !slope2_lin by exact Hn.
  set (dx := slope n (cx ps) i). set (dy := slope n (cy ps) i). set (ddx := slope n (slope n (cx ps)) i). set (ddy := slope n (slope n (cy ps)) i).
  pose proof (sin2_cos2 a) as T. unfold Rsqr in T.
  rewrite (curvature_at_scaled m 1 dx dy ddx ddy); [ring|exact Hm| |].
  - transitivity (m * m * (sin a * sin a + cos a * cos a) * (dx * dx + dy * dy)); [ring|rewrite T; ring].
  - transitivity (m * m * (sin a * sin a + cos a * cos a) * (dx * ddy - ddx * dy)); [ring|rewrite T; ring].
Qed.
Print Assumptions C116_similarity.
Theorem C116_mirror : forall ps,
  get_curvature (of_points (map mirror ps)) = option_map (map Ropp) (get_curvature (of_points ps)).
Proof.
  intros ps. apply curvature_rel; [apply map_length|]. cbn [of_points pts]. set (n := length ps). intros i Hn Hi.
  rewrite (kap_ext n (cx (map mirror ps)) (cy (map mirror ps)) (fun k => 1 * cx ps k + 0 * cy ps k + 0) (fun k => 0 * cx ps k + - (1) * cy ps k + 0)); auto.
  2:{ intros k Hk. rewrite cx_map by exact Hk. unfold mirror, cx, cy. cbn [fst snd]. ring. }
  2:{ intros k Hk. rewrite cy_map by exact Hk. unfold mirror, cx, cy. cbn [fst snd]. ring. }
  unfold kap. rewrite !slope_lin, !slope2_lin by exact Hn.
  set (dx := slope n (cx ps) i). set (dy := slope n (cy ps) i). set (ddx := slope n (slope n (cx ps)) i). set (ddy := slope n (slope n (cy ps)) i).
  rewrite (curvature_at_scaled 1 (- (1)) dx dy ddx ddy); [field|lra|ring|ring].
Qed.
Print Assumptions C116_mirror.

(** Travelling the points backwards reverses the sequence and changes the signs. *)
Theorem C116_reversed : forall ps,
  get_curvature (of_points (rev ps)) = option_map (fun ks => map Ropp (rev ks)) (get_curvature (of_points ps)).
Proof.
  intros ps. set (n := length ps). assert (LR : length (rev ps) = n) by apply rev_length.
  destruct (Nat.lt_ge_cases n 3) as [K|K].
  { rewrite (proj2 (curvature_none (of_points ps))), (proj2 (curvature_none (of_points (rev ps)))) by (cbn [of_points pts]; lia). reflexivity. }
  destruct (curvature_spec (of_points ps)) as (ks & E & L & N); [exact K|]. destruct (curvature_spec (of_points (rev ps))) as (ks' & E' & L' & N').
  { cbn [of_points pts]. lia. }
  cbn [of_points pts] in *. rewrite LR in *. fold n in L, N. rewrite E, E'. cbn [option_map]. f_equal.
  apply (list_nth_eq _ _ n); [exact L'|rewrite map_length, rev_length; exact L|]. intros i Hi. rewrite N' by exact Hi.
  rewrite (nth_indep _ 0 (- 0)) by (rewrite map_length, rev_length; lia). rewrite map_nth, rev_nth by lia. rewrite L, N by lia.
  rewrite (kap_ext n _ _ (fun k => cx ps (n - 1 - k)) (fun k => cy ps (n - 1 - k))); auto.
  2:{ intros k Hk. unfold cx. rewrite rev_nth by exact Hk. do 2 f_equal. fold n. lia. }
  2:{ intros k Hk. unfold cy. rewrite rev_nth by exact Hk. do 2 f_equal. fold n. lia. }
  assert (D : forall f k, (k < n)%nat -> slope n (fun j => f (n - 1 - j)%nat) k = - slope n f (n - 1 - k)).
  { intros f k Hk. unfold slope. replace (n - 1 - S (inner n k))%nat with (inner n (n - 1 - k) - 1)%nat by (unfold inner; lia).
    replace (n - 1 - (inner n k - 1))%nat with (S (inner n (n - 1 - k))) by (unfold inner; lia). field. }
  assert (D2 : forall f k, (k < n)%nat -> slope n (slope n (fun j => f (n - 1 - j)%nat)) k = slope n (slope n f) (n - 1 - k)).
  { intros f k Hk. rewrite (slope_ext n _ (fun j => (fun j => - slope n f j) (n - 1 - j)%nat)); [|exact K|intros; apply D; assumption].
    rewrite (D (fun j => - slope n f j)) by exact Hk. unfold slope at 1 3. field. }
  unfold kap. rewrite !D, !D2 by exact Hi. replace (n - 1 - i)%nat with (n - S i)%nat by lia.
  rewrite (curvature_at_scaled 1 (- (1)) (slope n (cx ps) (n - S i)) (slope n (cy ps) (n - S i)) (slope n (slope n (cx ps)) (n - S i)) (slope n (slope n (cy ps)) (n - S i)));
    [field|lra|ring|ring].
Qed.
Print Assumptions C116_reversed.

(** Points on a straight line, however spaced and ordered, have curvature 0. *)
Theorem C116_straight : forall (ps : list pt) a d ks, (forall p : pt, In p ps -> exists t, p = (fst a + t * fst d, snd a + t * snd d)) ->
  get_curvature (of_points ps) = Some ks -> Forall (fun k => k = 0) ks.
Proof.
  intros ps a d ks H E. destruct (Nat.lt_ge_cases (length ps) 3) as [K|K].
  { rewrite (proj2 (curvature_none (of_points ps)) K) in E. discriminate. }
  destruct (curvature_spec (of_points ps) K) as (ks' & E' & L & N). rewrite E in E'. injection E' as <-. cbn [of_points pts] in *.
  assert (Hd : forall (u : R), (forall p : pt, In p ps -> snd d * fst p - fst d * snd p = snd d * fst a - fst d * snd a)).
  { intros _ p I. destruct (H p I) as [t ->]. cbn [fst snd]. ring. }
  specialize (Hd 0). set (n := length ps) in *.
  assert (C : forall k, (k < n)%nat -> snd d * cx ps k + (- fst d) * cy ps k + 0 = snd d * fst a - fst d * snd a).
  { intros k Hk. unfold cx, cy. rewrite <- (Hd (nth k ps (0, 0))) by (apply nth_In; exact Hk). ring. }
  set (c := snd d * fst a - fst d * snd a) in *.
  assert (S1 : forall k, snd d * slope n (cx ps) k + (- fst d) * slope n (cy ps) k = 0).
  { intros k. rewrite <- (slope_lin n _ _ _ _ 0). rewrite (slope_ext n _ (fun _ => c)) by assumption. unfold slope. field. }
  assert (S2 : forall k, snd d * slope n (slope n (cx ps)) k + (- fst d) * slope n (slope n (cy ps)) k = 0).
  { intros k. rewrite <- (slope_lin n _ _ _ _ 0). rewrite (slope_ext n _ (fun _ => 0)); [unfold slope; field|exact K|].
    intros j _. rewrite Rplus_0_r. apply S1. }
  apply Forall_forall. intros k I. apply (In_nth _ _ 0) in I. destruct I as (i & Hi & <-). rewrite N by lia.
  unfold kap. apply curvature_at_zero.
  destruct (Req_dec (fst d) 0) as [Z1|Z1]; [destruct (Req_dec (snd d) 0) as [Z2|Z2]|].
  - assert (A : forall k, (k < n)%nat -> cx ps k = fst a).
    { intros k Hk. unfold cx. destruct (H (nth k ps (0, 0))) as [t ->]; [apply nth_In; exact Hk|]. cbn [fst]. rewrite Z1. ring. }
    assert (B : forall k, slope n (cx ps) k = 0) by (intros k; rewrite (slope_ext n _ (fun _ => fst a)) by assumption; unfold slope; field).
    rewrite (slope_ext n (slope n (cx ps)) (fun _ => 0)) by auto. rewrite B. unfold slope. field.
  - specialize (S1 i). specialize (S2 i). rewrite Z1 in S1, S2.
    assert (A : slope n (cx ps) i = 0) by (apply Rmult_eq_reg_l with (snd d); [lra|exact Z2]).
    assert (B : slope n (slope n (cx ps)) i = 0) by (apply Rmult_eq_reg_l with (snd d); [lra|exact Z2]).
    rewrite A, B. ring.
  - specialize (S1 i). specialize (S2 i). apply Rmult_eq_reg_l with (fst d); [|exact Z1]. rewrite Rmult_0_r.
    set (x1 := slope n (cx ps) i) in *. set (y1 := slope n (cy ps) i) in *.
    set (x2 := slope n (slope n (cx ps)) i) in *. set (y2 := slope n (slope n (cy ps)) i) in *.
    transitivity (x1 * (fst d * y2) - x2 * (fst d * y1)); [ring|].
    replace (fst d * y2) with (snd d * x2) by lra. replace (fst d * y1) with (snd d * x1) by lra. ring.
Qed.
Print Assumptions C116_straight.

(** A line with three points has curvature 0 everywhere, also where it turns. *)
Theorem C116_three_points : forall p q r, get_curvature (of_points [p; q; r]) = Some [0; 0; 0].
Proof.
  intros p q r. destruct (curvature_spec (of_points [p; q; r])) as (ks & E & L & N); [cbn; lia|]. rewrite E. f_equal.
  cbn [of_points pts length] in *. apply (list_nth_eq _ _ 3); [exact L|reflexivity|]. intros i Hi. rewrite N by exact Hi.
  assert (K : forall f j, slope 3 (slope 3 f) j = 0).
  { intros f j. unfold slope. replace (inner 3 (S (inner 3 j))) with 1%nat by (unfold inner; lia).
    replace (inner 3 (inner 3 j - 1)) with 1%nat by (unfold inner; lia). field. }
  unfold kap. rewrite !K. rewrite curvature_at_zero by ring. destruct i as [|[|[|i]]]; reflexivity || lia.
Qed.
Print Assumptions C116_three_points.

(** Equally spaced points on a circle: at the inner points the curvature is exactly 1 / radius, with the sign of the direction of
    travel; at the first two and at the last two it is exactly half of that. *)
Theorem C116_circle : forall c r a phi n ks i k, 0 < r -> sin phi <> 0 -> (4 <= n)%nat ->
  get_curvature (of_points (map (circle_point c r a phi) (seq 0 n))) = Some ks -> nth_error ks i = Some k ->
  let sign := if Rlt_dec 0 (sin phi) then 1 else - (1) in
  k = if (Nat.leb 2 i && Nat.leb (i + 3) n)%bool then sign / r else sign / (2 * r).
Proof.
  intros c r a phi n ks i k Hr Hs Hn E Hk sign. set (ps := map (circle_point c r a phi) (seq 0 n)) in *.
  assert (LP : length ps = n) by (unfold ps; rewrite map_length, seq_length; reflexivity).
  destruct (curvature_spec (of_points ps)) as (ks' & E' & L & N); [cbn [of_points pts]; lia|]. rewrite E in E'. injection E' as <-.
  cbn [of_points pts] in L, N. rewrite LP in L, N.
  assert (Hi : (i < n)%nat) by (rewrite <- L; apply nth_error_Some; congruence).
  specialize (N i Hi). rewrite (nth_error_nth _ _ _ Hk) in N. subst k.
  assert (Q : forall j, (j < n)%nat -> nth j ps (0, 0) = circle_point c r a phi j).
  { intros j Hj. unfold ps. rewrite (nth_indep _ (0, 0) (circle_point c r a phi 0)) by (rewrite map_length, seq_length; exact Hj).
    rewrite map_nth, seq_nth by exact Hj. reflexivity. }
  rewrite (kap_ext n _ _ (fun j => fst c + r * cos (a + INR j * phi)) (fun j => snd c + r * sin (a + INR j * phi))); [|lia| |].
  2:{ intros j Hj. unfold cx. rewrite Q by exact Hj. reflexivity. }
  2:{ intros j Hj. unfold cy. rewrite Q by exact Hj. reflexivity. }
  set (th := fun j : nat => a + INR j * phi).
  assert (ST : forall j, (1 <= j)%nat -> th (S j) = th j + phi /\ th (j - 1)%nat = th j - phi).
  { intros j Hj. unfold th. rewrite S_INR, minus_INR by exact Hj. cbn [INR]. split; ring. }
  set (s := sin phi) in *.
  assert (DX : forall j, slope n (fun j => fst c + r * cos (th j)) j = - (r * s) * sin (th (inner n j))).
  { intros j. unfold slope. destruct (ST (inner n j)) as [-> ->]; [unfold inner; lia|]. rewrite cos_plus, cos_minus. unfold s. field. }
  assert (DY : forall j, slope n (fun j => snd c + r * sin (th j)) j = r * s * cos (th (inner n j))).
  { intros j. unfold slope. destruct (ST (inner n j)) as [-> ->]; [unfold inner; lia|]. rewrite sin_plus, sin_minus. unfold s. field. }
  change (kap n (fun j => fst c + r * cos (th j)) (fun j => snd c + r * sin (th j)) i =
    (if (Nat.leb 2 i && Nat.leb (i + 3) n)%bool then sign / r else sign / (2 * r))).
  unfold kap. rewrite (slope_ext n (slope n (fun j => fst c + r * cos (th j))) (fun j => - (r * s) * sin (th (inner n j)))) by (lia || auto).
  rewrite (slope_ext n (slope n (fun j => snd c + r * sin (th j))) (fun j => r * s * cos (th (inner n j)))) by (lia || auto).
  rewrite DX, DY. set (t := th (inner n i)). unfold slope.
  pose proof (sin2_cos2 t) as T. unfold Rsqr in T.
  assert (RR : (- (r * s) * sin t) * (- (r * s) * sin t) + r * s * cos t * (r * s * cos t) = (r * s) * (r * s)).
  { transitivity ((r * s) * (r * s) * (sin t * sin t + cos t * cos t)); [ring|rewrite T; ring]. }
  assert (SG : sign * Rabs s = s /\ sign * sign = 1).
  { unfold sign. destruct (Rlt_dec 0 s) as [P|P]; [rewrite Rabs_right by lra|rewrite Rabs_left by lra]; split; ring. }
  destruct SG as [SG1 SG2].
  assert (AP : 0 < Rabs s) by (apply Rabs_pos_lt; exact Hs).
  assert (RS : sqrt ((r * s) * (r * s)) = r * Rabs s).
  { rewrite sqrt_Rsqr_abs || (change ((r * s) * (r * s)) with (Rsqr (r * s)); rewrite sqrt_Rsqr_abs).
    rewrite Rabs_mult, (Rabs_right r) by lra. reflexivity. }
  assert (FIN : forall x2 y2 w, - (r * s) * sin t * y2 - x2 * (r * s * cos t) = r * s * (r * s) * (w * s) ->
    curvature_at (- (r * s) * sin t) (r * s * cos t) x2 y2 = w * (sign / r)).
  { intros x2 y2 w HN. unfold curvature_at. cbv zeta. rewrite RR, HN, RS.
    assert (NZ : r * s * (r * s) * (r * Rabs s) <> 0).
    { repeat apply Rmult_integral_contrapositive_currified; lra || exact Hs. }
    destruct (Reqb_spec (r * s * (r * s) * (r * Rabs s)) 0) as [X|X]; [contradiction|].
    rewrite <- SG1 at 3. field. repeat split; lra || exact Hs. }
  destruct (Nat.leb_spec 2 i) as [B1|B1]; [destruct (Nat.leb_spec (i + 3) n) as [B2|B2]|]; cbn [andb].
  - (* inner *)
    assert (I0 : inner n i = i) by (unfold inner; lia).
    rewrite I0. replace (inner n (S i)) with (S i) by (unfold inner; lia). replace (inner n (i - 1)) with (i - 1)%nat by (unfold inner; lia).
    destruct (ST i) as [-> ->]; [lia|]. replace (th i) with t by (unfold t; rewrite I0; reflexivity).
    rewrite (FIN _ _ 1); [ring|].
    rewrite !sin_plus, !sin_minus, !cos_plus, !cos_minus. fold s.
    transitivity (r * s * (r * s) * s * (sin t * sin t + cos t * cos t)); [field|rewrite T; ring].
  - (* last two *)
    assert (I0 : inner n i = (n - 2)%nat) by (unfold inner; lia).
    rewrite I0. replace (inner n (S (n - 2))) with (n - 2)%nat by (unfold inner; lia). replace (inner n (n - 2 - 1)) with (n - 2 - 1)%nat by (unfold inner; lia).
    destruct (ST (n - 2)%nat) as [_ ->]; [lia|]. replace (th (n - 2)%nat) with t by (unfold t; rewrite I0; reflexivity).
    rewrite (FIN _ _ (1 / 2)); [field; lra|].
    rewrite !sin_minus, !cos_minus. fold s.
    transitivity (r * s * (r * s) * (1 / 2) * s * (sin t * sin t + cos t * cos t)); [field|rewrite T; ring].
  - (* first two *)
    assert (I0 : inner n i = 1%nat) by (unfold inner; lia).
    rewrite I0. replace (inner n 2) with 2%nat by (unfold inner; lia). replace (inner n (1 - 1)) with 1%nat by (unfold inner; lia).
    change 2%nat with (S 1). destruct (ST 1%nat) as [-> _]; [lia|]. replace (th 1%nat) with t by (unfold t; rewrite I0; reflexivity).
    rewrite (FIN _ _ (1 / 2)); [field; lra|].
    rewrite !sin_plus, !cos_plus. fold s.
    transitivity (r * s * (r * s) * (1 / 2) * s * (sin t * sin t + cos t * cos t)); [field|rewrite T; ring].
Qed.
Print Assumptions C116_circle.

Lemma signed_core : forall l p o c, get_nearest_point l p = Some c -> bg_distance (pts l) p = Some (dist p c) ->
  exists d, signed_distance l p o = Some d /\
    let left := cos o * (snd c - snd p) - sin o * (fst c - fst p) in
    let ahead := cos o * (fst c - fst p) + sin o * (snd c - snd p) in
    (left < 0 -> d = dist p c) /\ (0 < left -> d = - dist p c) /\ (c = p -> d = 0) /\
    (left = 0 -> 0 < ahead -> d = 0) /\ (left = 0 -> ahead < 0 -> d = - dist p c).
Proof.
  intros l p o c EN BD. unfold signed_distance. rewrite EN, BD. eexists. split; [reflexivity|].
  cbv zeta. unfold psub. cbn [fst snd]. set (dx := fst c - fst p). set (dy := snd c - snd p).
  set (th := atan2 dy dx). pose proof (atan2_polar dx dy) as P. cbv zeta in P. fold th in P.
  assert (D : dist p c = sqrt (dx * dx + dy * dy)).
  { unfold dist, dx, dy. f_equal. ring. }
  rewrite <- D in P. destruct P as [Px Py]. pose proof (dist_nonneg p c) as D0.
  destruct (sad_facts o th) as (RG & CO & SI & _). rewrite cos_minus in CO. rewrite sin_minus in SI.
  set (diff := sad o th) in *. pose proof (sin_sign diff RG) as [SP SN]. pose proof PI_RGT_0 as HPI.
  assert (SL : dist p c * sin diff = - (cos o * dy - sin o * dx)) by (rewrite SI, <- Px, <- Py; ring).
  assert (CA : dist p c * cos diff = cos o * dx + sin o * dy) by (rewrite CO, <- Px, <- Py; ring).
  assert (ZC : sin diff = 0 -> diff = 0 \/ diff = - PI).
  { intros Z. destruct (Rtotal_order diff 0) as [X|[X|X]]; [|left; exact X|].
    - destruct (Req_dec diff (- PI)) as [Y|Y]; [right; exact Y|]. assert (sin diff < 0) by (apply SN; lra). lra.
    - assert (0 < sin diff) by (apply SP; exact X). lra. }
  split; [|split; [|split; [|split]]].
  - intros H. assert (0 < sin diff) by (destruct (Rle_lt_dec (sin diff) 0) as [X|X]; [exfalso; nra|exact X]).
    destruct (Rltb_spec 0 diff) as [X|X]; [ring|]. apply SP in H0. lra.
  - intros H. assert (H0 : sin diff < 0) by (destruct (Rle_lt_dec 0 (sin diff)) as [X|X]; [exfalso; nra|exact X]). apply SN in H0.
    destruct (Rltb_spec 0 diff) as [X|X]; [lra|]. destruct (Rltb_spec diff 0) as [Y|Y]; [ring|lra].
  - intros ->. rewrite dist_refl. ring.
  - intros L0 AH. assert (dist p c <> 0) by (intros Z; rewrite Z in CA; lra). assert (Z : sin diff = 0) by (apply Rmult_eq_reg_l with (dist p c); lra).
    destruct (ZC Z) as [X|X].
    + destruct (Rltb_spec 0 diff); [lra|]. destruct (Rltb_spec diff 0); [lra|]. ring.
    + rewrite X, cos_neg, cos_PI in CA. nra.
  - intros L0 AH. assert (dist p c <> 0) by (intros Z; rewrite Z in CA; lra). assert (Z : sin diff = 0) by (apply Rmult_eq_reg_l with (dist p c); lra).
    destruct (ZC Z) as [X|X].
    + rewrite X, cos_0 in CA. nra.
    + destruct (Rltb_spec 0 diff); [lra|]. destruct (Rltb_spec diff 0); [|lra]. ring.
Qed.
(** SignedDistance: for a point facing along [o], positive if the nearest point [c] of the line lies to its right, negative if it
    lies to its left; the absolute value is the distance to the line. *)
Theorem C116_signed_distance : forall l p p0 p1 r o, arc_lengths_of (pts l) (ss l) -> pts l = p0 :: p1 :: r -> p0 <> p1 ->
  exists c d, get_nearest_point l p = Some c /\ on_polyline (pts l) c /\ (forall q, on_polyline (pts l) q -> dist p c <= dist p q) /\
    signed_distance l p o = Some d /\
    let left := cos o * (snd c - snd p) - sin o * (fst c - fst p) in
    let ahead := cos o * (fst c - fst p) + sin o * (snd c - snd p) in
    (left < 0 -> d = dist p c) /\ (0 < left -> d = - dist p c) /\ (c = p -> d = 0) /\
    (left = 0 -> 0 < ahead -> d = 0) /\ (left = 0 -> ahead < 0 -> d = - dist p c).
Proof.
  intros l p p0 p1 r o A EP NE. destruct (C24_nearest_point l p p0 p1 r A EP NE) as (c & s & i & t & E & OS & AT & MIN).
  assert (EN : get_nearest_point l p = Some c) by (unfold get_nearest_point; rewrite E; reflexivity).
  assert (ON : on_polyline (pts l) c) by (exists i, t; exact OS).
  assert (BD : bg_distance (pts l) p = Some (dist p c)).
  { destruct (segs_dist2_spec (pts l) p) as (m & Em & (j & a & b & Ha & Hb & Em') & Hm); [rewrite EP; cbn; lia|].
    unfold bg_distance. rewrite EP. rewrite <- EP. rewrite Em. cbn [option_map]. f_equal. rewrite dist_sqrt. f_equal. apply Rle_antisym.
    - destruct OS as (u & v & Hu & Hv & Ht & ->). eapply Rle_trans; [apply (Hm i u v Hu Hv)|]. apply seg_dist2_min, Ht.
    - destruct (seg_dist2_attained p a b) as (w & Hw & Ew). rewrite Em', Ew. apply dist_le_iff. apply MIN.
      exists j, w, a, b. auto. }
  destruct (signed_core l p o c EN BD) as (d & ED & K). exists c, d. auto.
Qed.
Print Assumptions C116_signed_distance.
(** The same for a line with a single point [c]; a line without points has no distance. *)
Theorem C116_signed_distance_point : forall p c o,
  (exists d, signed_distance (of_points [c]) p o = Some d /\
    let left := cos o * (snd c - snd p) - sin o * (fst c - fst p) in
    let ahead := cos o * (fst c - fst p) + sin o * (snd c - snd p) in
    (left < 0 -> d = dist p c) /\ (0 < left -> d = - dist p c) /\ (c = p -> d = 0) /\
    (left = 0 -> 0 < ahead -> d = 0) /\ (left = 0 -> ahead < 0 -> d = - dist p c)) /\
  signed_distance empty_line p o = None.
Proof.
  intros p c o. split; [|reflexivity]. apply signed_core; [reflexivity|]. cbn. rewrite dist_sym. reflexivity.
Qed.
Print Assumptions C116_signed_distance_point.

(** A line straight ahead has signed distance 0, however far it is. *)
Theorem C116_ahead_refuted : forall a, 0 < a -> exists l,
  arc_lengths_of (pts l) (ss l) /\ signed_distance l (0, 0) 0 = Some 0 /\ (forall q, on_polyline (pts l) q -> a <= dist (0, 0) q).
Proof.
  intros a Ha. exists (of_points [(a, - (1)); (a, 1)]). split; [apply recompute_spec|].
  assert (X : forall q, on_polyline (pts (of_points [(a, - (1)); (a, 1)])) q -> fst q = a).
  { intros q (i & t & u & v & Hu & Hv & Ht & ->). cbn [of_points pts] in Hu, Hv. destruct i as [|[|i]]; cbn in Hu, Hv; try discriminate.
    injection Hu as <-. injection Hv as <-. unfold lerp. cbn [fst snd]. ring. }
  assert (B : forall q, fst q = a -> a <= dist (0, 0) q).
  { intros q Hq. unfold dist. cbn [fst snd]. rewrite Hq. rewrite <- (sqrt_square a) at 1 by lra. apply sqrt_le_1_alt. nra. }
  split; [|intros q Hq; apply B, X, Hq].
  destruct (C116_signed_distance (of_points [(a, - (1)); (a, 1)]) (0, 0) (a, - (1)) (a, 1) [] 0 (recompute_spec _) eq_refl) as (c & d & _ & ON & MIN & E & _ & _ & _ & Z & _).
  { intros H. apply (f_equal snd) in H. cbn in H. lra. }
  rewrite E. f_equal. pose proof (X c ON) as Xc.
  assert (C0 : on_polyline (pts (of_points [(a, - (1)); (a, 1)])) (a, 0)).
  { exists 0%nat, (1 / 2), (a, - (1)), (a, 1). repeat split; try lra. unfold lerp. cbn [fst snd].
    assert (PP : forall a b c d : R, a = c -> b = d -> (a, b) = (c, d) :> pt) by (intros; subst; reflexivity). apply PP; field. }
  specialize (MIN _ C0). apply dist_le_iff in MIN. unfold dist2 in MIN. cbn [fst snd] in MIN. rewrite Xc in MIN.
  assert (Yc : snd c = 0) by nra.
  apply Z; cbn [fst snd]; rewrite Xc, Yc, cos_0, sin_0; lra.
Qed.
Print Assumptions C116_ahead_refuted.

(** A spline goes through its points. *)
Definition interpolating (spline : list R -> list R -> R -> R) : Prop :=
  forall s v i, length s = length v -> (3 <= length s)%nat -> (forall j, (S j < length s)%nat -> nth j s 0 < nth (S j) s 0) ->
    (i < length s)%nat -> spline s v (nth i s 0) = nth i v 0.

(** SmoothLine: points at the multiples of [ds] of the splines through the vertices, and the last vertex; it starts and ends where
    the line does and passes through each vertex whose arc length is a multiple of [ds]. Lines with less than three points come
    back unchanged. *)
Theorem C116_smooth : forall spline l ds, interpolating spline ->
  ((length (pts l) < 3)%nat -> smooth_line spline l ds = Some l) /\
  ((3 <= length (pts l))%nat -> arc_lengths_of (pts l) (ss l) ->
   (forall i p q, nth_error (pts l) i = Some p -> nth_error (pts l) (S i) = Some q -> p <> q) ->
   0 < ds -> polyline_length (pts l) / ds < 2147483648 ->
   exists l' (n : nat), smooth_line spline l ds = Some l' /\ INR n * ds <= polyline_length (pts l) < INR (S n) * ds /\
     arc_lengths_of (pts l') (ss l') /\
     pts l' = map (fun j => (spline (ss l) (map fst (pts l)) (INR j * ds), spline (ss l) (map snd (pts l)) (INR j * ds))) (seq 0 (S n)) ++
              (if Rlt_dec (INR n * ds) (polyline_length (pts l)) then [last (pts l) (0, 0)] else []) /\
     hd (0, 0) (pts l') = hd (0, 0) (pts l) /\ last (pts l') (0, 0) = last (pts l) (0, 0) /\
     (forall i j p, nth_error (pts l) i = Some p -> nth_error (ss l) i = Some (INR j * ds) -> (j <= n)%nat -> nth_error (pts l') j = Some p)).
Proof.
  intros spline l ds SP. split.
  { intros H. unfold smooth_line. destruct (Nat.ltb_spec (length (pts l)) 3); [reflexivity|lia]. }
  intros H A NE Hd HM. unfold smooth_line.
  destruct (Nat.ltb_spec (length (pts l)) 3); [lia|]. destruct (Reqb_spec ds 0); [lra|].
  set (L := polyline_length (pts l)) in *. assert (EL : line_length l = L) by apply bg_length_plen. rewrite EL.
  assert (L0 : 0 <= L) by apply plen_nonneg.
  assert (Q0 : 0 <= L / ds) by (apply Rmult_le_pos; [lra|apply Rlt_le, Rinv_0_lt_compat; lra]).
  assert (ET : Ztrunc0 (L / ds) = Int_part (L / ds)) by (unfold Ztrunc0; destruct (Rlt_dec (L / ds) 0); [lra|reflexivity]).
  rewrite ET. cbv zeta. set (num := Int_part (L / ds)). destruct (base_Int_part (L / ds)) as [I1 I2]. fold num in I1, I2.
  assert (N0 : (0 <= num)%Z).
  { assert (X : IZR (-1) < IZR num) by (cbn; lra). apply lt_IZR in X. lia. }
  assert (N1 : (num <= INT_MAX)%Z).
  { assert (X : IZR num < IZR 2147483648) by lra. apply lt_IZR in X. unfold INT_MAX. lia. }
  destruct (Z.ltb_spec num 0); [lia|]. destruct (Z.ltb_spec INT_MAX num); [lia|]. cbn [orb].
  destruct A as [LS AL]. rewrite LS, Nat.eqb_refl. cbn [negb orb].
  assert (INC : forall j, (S j < length (ss l))%nat -> nth j (ss l) 0 < nth (S j) (ss l) 0).
  { intros j Hj. rewrite LS in Hj. pose proof (AL j ltac:(lia)) as A1. pose proof (AL (S j) Hj) as A2.
    rewrite (nth_error_nth _ _ 0 A1), (nth_error_nth _ _ 0 A2).
    destruct (nth_some (pts l) j ltac:(lia)) as [p Hp]. destruct (nth_some (pts l) (S j) Hj) as [q Hq].
    pose proof (S_step (pts l) j p q Hp Hq) as SS. unfold S_ in SS. rewrite SS.
    assert (0 < dist p q). { destruct (dist_nonneg p q) as [X|X]; [exact X|]. exfalso. apply (NE j p q Hp Hq). symmetry in X. apply dist_zero in X. exact X. }
    lra. }
  rewrite (proj2 (increasing_iff (ss l)) INC). cbn [negb]. set (n := Z.to_nat num).
  assert (En : IZR num = INR n) by (unfold n; rewrite INR_IZR_INZ, Z2Nat.id by exact N0; reflexivity).
  rewrite En in *. set (sx := spline (ss l) (map fst (pts l))). set (sy := spline (ss l) (map snd (pts l))).
  set (f := fun j => (sx (INR j * ds), sy (INR j * ds)) : pt).
  set (lss := fold_left (fun acc j => add_point acc (sx (INR j * ds), sy (INR j * ds))) (seq 0 (S n)) empty_line).
  assert (EPS : pts lss = map f (seq 0 (S n))) by (unfold lss; rewrite (fold_add f); reflexivity).
  assert (ESS : ss lss = recompute (pts lss)) by (unfold lss; apply (fold_add_ss f); reflexivity).
  assert (BND : INR n * ds <= L < INR (S n) * ds).
  { assert (X : L = L / ds * ds) by (field; lra). rewrite S_INR. split; rewrite X at 1; [apply Rmult_le_compat_r; lra|apply Rmult_lt_compat_r; lra]. }
  assert (VX : forall i p x, nth_error (pts l) i = Some p -> nth_error (ss l) i = Some x -> (sx x, sy x) = p :> pt).
  { intros i p x Hp Hx. assert (Hi : (i < length (ss l))%nat) by (apply nth_error_Some; congruence).
    assert (Ex : x = nth i (ss l) 0) by (symmetry; apply nth_error_nth, Hx).
    unfold sx, sy. rewrite Ex. rewrite !SP by (try rewrite map_length; (change (@length (R * R) (pts l)) with (@length pt (pts l))); try (rewrite LS; lia); auto; lia).
    rewrite nth_fst, nth_snd. unfold cx, cy. rewrite (nth_error_nth _ _ _ Hp). destruct p; reflexivity. }
  assert (ELAST : last_opt (pts l) = Some (last (pts l) (0, 0))).
  { unfold last_opt. clear - H. destruct (nth_some (pts l) (length (pts l) - 1) ltac:(lia)) as [z Hz]. rewrite Hz. f_equal.
    rewrite <- (nth_error_nth _ _ (0, 0) Hz). symmetry. generalize (pts l). intros q. induction q as [|a [|b q] IH]; [reflexivity|reflexivity|].
    change (last (a :: b :: q) (0, 0)) with (last (b :: q) (0, 0)). rewrite IH. cbn [length]. rewrite !Nat.sub_succ, !Nat.sub_0_r. reflexivity. }
  set (e := last (pts l) (0, 0)) in *. unfold last_opt in ELAST.
  assert (AEND : nth_error (ss l) (length (pts l) - 1) = Some L).
  { rewrite AL by lia. f_equal. unfold L. replace (S (length (pts l) - 1)) with (length (pts l)) by lia. rewrite firstn_all. reflexivity. }
  assert (HD : exists p0 rest, pts l = p0 :: rest) by (destruct (pts l) as [|p0 rest]; [cbn in H; lia|eauto]).
  destruct HD as (p0 & rest & EP).
  assert (F0 : f 0%nat = p0).
  { unfold f. cbn [INR]. rewrite Rmult_0_l. apply (VX 0%nat); [rewrite EP; reflexivity|]. rewrite AL by lia. rewrite EP. reflexivity. }
  destruct (Rlt_dec (INR n * ds) L) as [B|B].
  - assert (RL : Rltb (INR n * ds) L = true) by (apply Rltb_iff; exact B). rewrite RL. unfold last_opt. rewrite ELAST.
    exists (add_point lss e), n. split; [reflexivity|]. split; [exact BND|]. split; [apply recompute_spec|].
    cbn [add_point of_points pts]. rewrite EPS. split; [destruct (Rlt_dec (INR n * ds) L); [reflexivity|contradiction]|]. split; [|split].
    + rewrite EP. cbn [seq map app hd]. exact F0.
    + apply last_last.
    + intros i j p Hp Hj Hn. rewrite nth_error_app1 by (rewrite map_length, seq_length; lia).
      rewrite nth_error_map. rewrite (nth_error_nth' (seq 0 (S n)) 0%nat) by (rewrite seq_length; lia). rewrite seq_nth by lia. cbn [option_map plus].
      f_equal. apply (VX i); assumption.
  - assert (RL : Rltb (INR n * ds) L = false) by (destruct (Rltb_spec (INR n * ds) L); [contradiction|reflexivity]). rewrite RL.
    exists lss, n. split; [reflexivity|]. split; [exact BND|]. split; [rewrite ESS; apply recompute_spec|]. rewrite EPS.
    split; [destruct (Rlt_dec (INR n * ds) L); [contradiction|rewrite app_nil_r; reflexivity]|]. split; [|split].
    + rewrite EP. cbn [seq map hd]. exact F0.
    + rewrite seq_S, map_app. cbn [map]. rewrite last_last. cbn [plus]. unfold f. assert (X : INR n * ds = L) by lra. rewrite X.
      apply (VX _ _ _ ELAST AEND).
    + intros i j p Hp Hj Hn.
      rewrite nth_error_map. rewrite (nth_error_nth' (seq 0 (S n)) 0%nat) by (rewrite seq_length; lia). rewrite seq_nth by lia. cbn [option_map plus].
      f_equal. apply (VX i); assumption.
Qed.
Print Assumptions C116_smooth.

(** It is not defined for a spacing 0, for a negative spacing not larger than the line, and for lines with a repeated point. *)
Theorem C116_smooth_undefined : forall spline l ds, (3 <= length (pts l))%nat -> arc_lengths_of (pts l) (ss l) ->
  (ds = 0 \/ (ds < 0 /\ - ds <= polyline_length (pts l)) \/ (exists i p, nth_error (pts l) i = Some p /\ nth_error (pts l) (S i) = Some p)) ->
  smooth_line spline l ds = None.
Proof.
  intros spline l ds H A C. unfold smooth_line. destruct (Nat.ltb_spec (length (pts l)) 3); [lia|].
  destruct (Reqb_spec ds 0) as [E|E]; [reflexivity|]. rewrite (bg_length_plen (pts l) : line_length l = polyline_length (pts l)).
  set (L := polyline_length (pts l)) in *. assert (L0 : 0 <= L) by apply plen_nonneg. cbv zeta.
  destruct C as [C|[[D1 D2]|(i & p & H1 & H2)]]; [contradiction| |].
  - assert (Q : L / ds <= - (1)).
    { apply Rmult_le_reg_r with (- ds); [lra|]. replace (L / ds * - ds) with (- L) by (field; lra). lra. }
    assert (T : (Ztrunc0 (L / ds) < 0)%Z).
    { unfold Ztrunc0. destruct (Rlt_dec (L / ds) 0); [|lra]. destruct (base_Int_part (- (L / ds))) as [I1 I2].
      assert (X : 0 < IZR (Int_part (- (L / ds)))) by lra. apply lt_IZR in X. lia. }
    destruct (Z.ltb_spec (Ztrunc0 (L / ds)) 0); [reflexivity|lia].
  - assert (I : increasing (ss l) = false).
    { destruct (increasing (ss l)) eqn:X; [|reflexivity]. exfalso. destruct A as [LS AL].
      pose proof (nth_lt _ _ _ H2) as Hi. pose proof (proj1 (increasing_iff (ss l)) X i ltac:(rewrite LS; exact Hi)) as Y.
      rewrite (nth_error_nth _ _ 0 (AL i ltac:(lia))), (nth_error_nth _ _ 0 (AL (S i) Hi)) in Y.
      pose proof (S_step (pts l) i p p H1 H2) as SS. unfold S_ in SS. rewrite SS, dist_refl in Y. lra. }
    rewrite I. cbn [negb]. rewrite orb_true_r. destruct (_ || _)%bool; reflexivity.
Qed.
Print Assumptions C116_smooth_undefined.

(** With a negative spacing larger than the line only its ends are left. *)
Theorem C116_smooth_negative : forall spline l ds, interpolating spline -> (3 <= length (pts l))%nat -> arc_lengths_of (pts l) (ss l) ->
  (forall i p q, nth_error (pts l) i = Some p -> nth_error (pts l) (S i) = Some q -> p <> q) ->
  polyline_length (pts l) < - ds ->
  exists l', smooth_line spline l ds = Some l' /\ pts l' = [hd (0, 0) (pts l); last (pts l) (0, 0)].
Proof.
  intros spline l ds SP H A NE Hd. pose proof (plen_nonneg (pts l)) as L0.
  (* the same without the division: as for a spacing larger than the line *)
  destruct (C116_smooth spline l (- ds) SP) as [_ K].
  destruct K as (l' & n & E & B & _ & EP & HD & LA & _); try assumption; [lra| |].
  { apply Rmult_lt_reg_r with (- ds); [lra|]. unfold Rdiv. rewrite Rmult_assoc, Rinv_l by lra. lra. }
  assert (n = 0%nat).
  { destruct n as [|n]; [reflexivity|]. exfalso. rewrite S_INR in B. pose proof (pos_INR n). nra. }
  subst n. cbn [INR] in B, EP. rewrite Rmult_0_l in EP. cbn [seq map] in EP.
  exists l'. split.
  - rewrite <- E. unfold smooth_line. destruct (Nat.ltb_spec (length (pts l)) 3); [lia|].
    destruct (Reqb_spec ds 0); [lra|]. destruct (Reqb_spec (- ds) 0); [lra|].
    rewrite (bg_length_plen (pts l) : line_length l = polyline_length (pts l)). set (L := polyline_length (pts l)) in *.
    assert (T : forall q, -1 < q < 1 -> Ztrunc0 q = 0%Z).
    { assert (IP : forall q, 0 <= q < 1 -> Int_part q = 0%Z).
      { intros q Hq. destruct (base_Int_part q) as [I1 I2]. assert (X : IZR (-1) < IZR (Int_part q)) by (cbn; lra). apply lt_IZR in X.
        assert (Y : IZR (Int_part q) < IZR 1) by (cbn; lra). apply lt_IZR in Y. lia. }
      intros q Hq. unfold Ztrunc0. destruct (Rlt_dec q 0); [rewrite IP by lra; reflexivity|apply IP; lra]. }
    assert (Q : 0 <= L / - ds < 1).
    { split; [apply Rmult_le_pos; [lra|apply Rlt_le, Rinv_0_lt_compat; lra]|].
      apply Rmult_lt_reg_r with (- ds); [lra|]. unfold Rdiv. rewrite Rmult_assoc, Rinv_l by lra. lra. }
    assert (Q' : L / ds = - (L / - ds)) by (field; lra).
    rewrite (T (L / ds)), (T (L / - ds)) by lra. cbv zeta. change (Z.to_nat 0) with 0%nat. cbn [seq fold_left INR]. rewrite !Rmult_0_l. reflexivity.
  - assert (LP : 0 < polyline_length (pts l)).
    { clear - NE H. destruct (pts l) as [|p [|q r]]; [cbn in H; lia|cbn in H; lia|]. pose proof (plen_nonneg (q :: r)) as P1.
      assert (P2 : p <> q) by (apply (NE 0%nat); reflexivity).
      assert (P3 : 0 < dist p q). { destruct (dist_nonneg p q) as [Y|Y]; [exact Y|]. exfalso. symmetry in Y. apply dist_zero in Y. contradiction. }
      change (0 < dist p q + polyline_length (q :: r)). lra. }
    destruct (Rlt_dec 0 (polyline_length (pts l))); [|lra]. rewrite EP in HD. cbn [app hd] in HD. rewrite EP. cbn [app]. rewrite <- HD. reflexivity.
Qed.
Print Assumptions C116_smooth_negative.

(** Non-vacuity. *)
Fixpoint look (s v : list R) (x : R) : R :=
  match s, v with a :: s', b :: v' => if Req_EM_T a x then b else look s' v' x | _, _ => 0 end.
Example C116_interpolating_exists : interpolating look.
Proof.
  assert (M : forall s i, (forall j, (S j < length s)%nat -> nth j s 0 < nth (S j) s 0) -> (S i < length s)%nat -> nth 0 s 0 < nth (S i) s 0).
  { intros s i H. induction i as [|i IH]; intros Hi; [apply H; lia|]. eapply Rlt_trans; [apply IH; lia|apply H; exact Hi]. }
  assert (G : forall s v i, length s = length v -> (forall j, (S j < length s)%nat -> nth j s 0 < nth (S j) s 0) -> (i < length s)%nat ->
    look s v (nth i s 0) = nth i v 0).
  { induction s as [|a s IH]; intros [|b v] i L H Hi; cbn [length] in *; try lia.
    destruct i as [|i].
    - cbn [nth look]. destruct (Req_EM_T a a); [reflexivity|congruence].
    - pose proof (M (a :: s) i H ltac:(cbn [length]; lia)) as X. cbn [nth] in X. cbn [nth look]. destruct (Req_EM_T a (nth i s 0)); [lra|].
      apply IH; [lia| |lia]. intros j Hj. apply (H (S j)). lia. }
  intros s v i L _ H Hi. apply G; assumption.
Qed.
Example C116_smooth_nonvacuous : exists l', smooth_line look (of_points [(0, 0); (2, 0); (4, 0)]) 2 = Some l' /\ nth_error (pts l') 1 = Some (2, 0).
Proof.
  set (l := of_points [(0, 0); (2, 0); (4, 0)]).
  assert (D : forall a b, a < b -> dist (a, 0) (b, 0) = b - a).
  { intros a b H. unfold dist. cbn [fst snd]. replace ((a - b) * (a - b) + (0 - 0) * (0 - 0)) with ((b - a) * (b - a)) by ring. apply sqrt_square. lra. }
  assert (PL : polyline_length (pts l) = 4) by (cbn; rewrite !D by lra; ring).
  destruct (C116_smooth look l 2 C116_interpolating_exists) as [_ K].
  destruct K as (l' & n & E & B & _ & _ & _ & _ & V); [cbn; lia|apply recompute_spec| |lra|rewrite PL; lra|].
  - intros [|[|i]] p q Hp Hq; cbn in Hp, Hq; [| |destruct i; discriminate]; injection Hp as <-; injection Hq as <-; intros X; apply (f_equal fst) in X; cbn in X; lra.
  - exists l'. split; [exact E|]. apply (V 1%nat 1%nat); [reflexivity| |].
    + unfold l, of_points. cbn [ss recompute rs_loop nth_error INR]. f_equal. rewrite dist_refl. rewrite dist_sym, D by lra. ring.
    + rewrite PL in B. destruct n; [cbn in B; lra|lia].
Qed.
(** Five points around the unit circle. *)
Example C116_circle_nonvacuous : exists ks, get_curvature (of_points (map (circle_point (0, 0) 1 0 (PI / 2)) (seq 0 5))) = Some ks /\
  nth_error ks 2 = Some 1 /\ nth_error ks 0 = Some (1 / 2).
Proof.
  destruct (get_curvature (of_points (map (circle_point (0, 0) 1 0 (PI / 2)) (seq 0 5)))) as [ks|] eqn:E.
  - exists ks. pose proof (proj2 (C116_defined _) _ E) as L. cbn [of_points pts] in L. rewrite map_length, seq_length in L.
    pose proof (C116_circle (0, 0) 1 0 (PI / 2) 5 ks) as C. rewrite sin_PI2 in C.
    destruct (nth_some ks 2 ltac:(lia)) as [a Ha]. destruct (nth_some ks 0 ltac:(lia)) as [b Hb].
    pose proof (C 2%nat a ltac:(lra) ltac:(lra) ltac:(lia) E Ha) as Ca. pose proof (C 0%nat b ltac:(lra) ltac:(lra) ltac:(lia) E Hb) as Cb.
    cbn [Nat.leb andb plus] in Ca, Cb. destruct (Rlt_dec 0 1); [|lra]. rewrite Ha, Hb. split; [reflexivity|].
    split; f_equal; lra.
  - apply (proj1 (C116_defined _)) in E. cbn in E. lia.
Qed.
