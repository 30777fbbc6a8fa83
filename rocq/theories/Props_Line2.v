(** C48, C49: parts of lines, shifted lines and center lines (bark/geometry/line.hpp). *)
From Coq Require Import Reals List Bool Lra Lia Psatz Arith.
From Verif Require Import Base_Real Base_Geom Model_Line Spec_Line Proof_Line Props_Line.
Import ListNotations.
Local Open Scope R_scope.

Lemma seg_point l i p q s : nth_error l i = Some p -> nth_error l (S i) = Some q -> S_ l i <= s <= S_ l (S i) ->
  exists t, 0 <= t <= 1 /\ t * dist p q = s - S_ l i /\ at_arclength l s (lerp t p q).
Proof.
  intros Hp Hq Hs. pose proof (S_step l i p q Hp Hq) as E. pose proof (dist_nonneg p q) as D.
  assert (X : exists t, 0 <= t <= 1 /\ t * dist p q = s - S_ l i).
  { destruct D as [D|D].
    - exists ((s - S_ l i) / dist p q). split; [split|].
      + apply Rmult_le_pos; [lra|left; apply Rinv_0_lt_compat; lra].
      + apply Rmult_le_reg_r with (dist p q); auto. unfold Rdiv. rewrite Rmult_assoc, Rinv_l by lra. lra.
      + field. lra.
    - exists 0. lra. }
  destruct X as (t & Ht & Et). exists t. split; [auto|]. split; [auto|].
  exists i, p, q, t. repeat split; auto; try lra. fold (S_ l i). rewrite dist_lerp_l by lra. lra.
Qed.

(** [trace l s ps e]: the points [ps] lie on [l] at increasing arc lengths from [s] to [e], consecutive
    ones on a common segment. *)
Inductive trace (l : list pt) : R -> list pt -> R -> Prop :=
| tr_one s P : at_arclength l s P -> trace l s [P] s
| tr_cons s P s' Q r e i p q :
    nth_error l i = Some p -> nth_error l (S i) = Some q -> S_ l i <= s -> s <= s' -> s' <= S_ l (S i) ->
    at_arclength l s P -> trace l s' (Q :: r) e -> trace l s (P :: Q :: r) e.

Lemma trace_head l s Q r e : trace l s (Q :: r) e -> at_arclength l s Q.
Proof. intros H. inversion H; auto. Qed.
Lemma same_seg l i p q s s' P Q :
  nth_error l i = Some p -> nth_error l (S i) = Some q -> S_ l i <= s -> s <= s' -> s' <= S_ l (S i) ->
  at_arclength l s P -> at_arclength l s' Q ->
  exists t t', 0 <= t <= 1 /\ 0 <= t' <= 1 /\ P = lerp t p q /\ Q = lerp t' p q /\
    t * dist p q = s - S_ l i /\ t' * dist p q = s' - S_ l i /\ dist P Q = s' - s.
Proof.
  intros Hp Hq H1 H2 H3 HP HQ. destruct (seg_point l i p q s Hp Hq ltac:(lra)) as (t & Ht & Et & A).
  destruct (seg_point l i p q s' Hp Hq ltac:(lra)) as (t' & Ht' & Et' & A').
  exists t, t'. pose proof (at_arclength_unique _ _ _ _ HP A). pose proof (at_arclength_unique _ _ _ _ HQ A').
  subst. repeat split; auto; try lra.
  rewrite dist_lerp. rewrite <- (Rabs_pos_eq (dist p q)) by apply dist_nonneg. rewrite <- Rabs_mult.
  replace ((t - t') * dist p q) with (s - s') by lra. rewrite Rabs_minus_sym, Rabs_pos_eq; lra.
Qed.
Lemma trace_len l s ps e : trace l s ps e -> polyline_length ps = e - s.
Proof.
  induction 1 as [s P H|s P s' Q r e i p q Hp Hq H1 H2 H3 HP HT IH]; [cbn; lra|].
  change (polyline_length (P :: Q :: r)) with (dist P Q + polyline_length (Q :: r)). rewrite IH.
  destruct (same_seg l i p q s s' P Q Hp Hq H1 H2 H3 HP (trace_head _ _ _ _ _ HT)) as (t & t' & _ & _ & _ & _ & _ & _ & D). lra.
Qed.
Lemma trace_at l s ps e : trace l s ps e -> forall u X, at_arclength ps u X -> at_arclength l (s + u) X.
Proof.
  induction 1 as [s P H|s P s' Q r e i p q Hp Hq H1 H2 H3 HP HT IH]; intros u X (j & a & b & t & Ha & Hb & Ht & EX & Eu).
  - destruct j; cbn in Hb; [discriminate|]. destruct j; discriminate.
  - destruct (same_seg l i p q s s' P Q Hp Hq H1 H2 H3 HP (trace_head _ _ _ _ _ HT))
      as (tp & tq & Htp & Htq & EP & EQ & Ep & Eq & D).
    destruct j as [|j].
    + cbn in Ha, Hb. inversion Ha; subst a. inversion Hb; subst b.
      assert (DX : dist P X = t * (s' - s)). { rewrite EX, dist_lerp_l by lra. rewrite D. reflexivity. }
      cbn in Eu. rewrite Rplus_0_l, DX in Eu.
      assert (EX' : X = lerp (tp + t * (tq - tp)) p q).
      { rewrite EX, EP, EQ. unfold lerp. cbn [fst snd]. f_equal; ring. }
      assert (B : 0 <= tp + t * (tq - tp) <= 1) by nra.
      exists i, p, q, (tp + t * (tq - tp)). repeat split; auto; try lra.
      fold (S_ l i). rewrite EX', dist_lerp_l by lra.
      replace ((tp + t * (tq - tp)) * dist p q) with (tp * dist p q + t * (tq * dist p q - tp * dist p q)) by ring.
      rewrite Ep, Eq. subst u. ring.
    + cbn [nth_error] in Ha, Hb. replace (s + u) with (s' + (u - dist P Q)) by lra. apply IH.
      exists j, a, b, t. repeat split; auto; try lra. rewrite Eu.
      change (firstn (S (S j)) (P :: Q :: r)) with (P :: Q :: firstn j r).
      change (firstn (S j) (Q :: r)) with (Q :: firstn j r).
      change (polyline_length (P :: Q :: firstn j r)) with (dist P Q + polyline_length (Q :: firstn j r)). ring.
Qed.

Lemma vertices_trace l Q e m : forall j s P,
  at_arclength l s P -> at_arclength l e Q ->
  (1 <= j)%nat -> (j + m < length l)%nat ->
  S_ l (j - 1) <= s <= S_ l j -> S_ l (j + m - 1) <= e <= S_ l (j + m) -> s <= e ->
  trace l s (P :: firstn m (skipn j l) ++ [Q]) e.
Proof.
  induction m as [|m IH]; intros j s P HP HQ Hj Hl Hs He Hse.
  - cbn. rewrite Nat.add_0_r in *.
    destruct (nth_some l (j - 1)) as [p Hp]; [lia|]. destruct (nth_some l j) as [q Hq]; [lia|].
    apply (tr_cons l s P e Q [] e (j - 1) p q); auto; replace (S (j - 1)) with j by lia; auto; try lra.
    constructor. auto.
  - destruct (nth_some l (j - 1)) as [p Hp]; [lia|]. destruct (nth_some l j) as [q Hq]; [lia|].
    assert (ES : skipn j l = q :: skipn (S j) l).
    { clear -Hq. revert j Hq. induction l as [|a l IHl]; intros j Hq; [destruct j; discriminate|].
      destruct j as [|j]; cbn in Hq; [inversion Hq; reflexivity|]. cbn [skipn]. rewrite (IHl j Hq). reflexivity. }
    rewrite ES. cbn [firstn app].
    assert (V : at_arclength l (S_ l j) q) by (apply at_arclength_vertex; auto; lia).
    apply (tr_cons l s P (S_ l j) q _ e (j - 1) p q); auto; replace (S (j - 1)) with j by lia; auto; try lra.
    apply IH; auto; try lia.
    + replace (S j - 1)%nat with j by lia. pose proof (S_mono l j (S j) ltac:(lia) ltac:(lia)). lra.
    + replace (S j + m)%nat with (j + S m)%nat by lia. auto.
    + pose proof (S_mono l j (j + S m - 1) ltac:(lia) ltac:(lia)). lra.
Qed.

Lemma fold_add_pts ps : forall acc, pts (fold_left add_point ps acc) = pts acc ++ ps.
Proof.
  induction ps as [|p ps IH]; intros acc; cbn; [now rewrite app_nil_r|]. rewrite IH. cbn. rewrite <- app_assoc. reflexivity.
Qed.

(** C48. The part of a line between two arc lengths is that part: it starts and ends there, its length is
    the difference, and walking u along the part is walking begin+u along the line. *)
Theorem C48_line_from_interval : forall l b e, arc_lengths_of (pts l) (ss l) -> (2 <= length (pts l))%nat ->
  0 <= b -> b < e -> e <= line_length l ->
  exists m, get_line_from_s_interval l b e = Some m /\
    arc_lengths_of (pts m) (ss m) /\
    nth_error (pts m) 0 = get_point_at_s l b /\ last_opt (pts m) = get_point_at_s l e /\
    line_length m = e - b /\
    (forall u, 0 <= u <= e - b -> get_point_at_s m u = get_point_at_s l (b + u)) /\
    (forall i p si, nth_error (pts l) i = Some p -> nth_error (ss l) i = Some si -> b < si < e -> In p (pts m)).
Proof.
  intros l b e C L Hb Hbe He. unfold line_length in He. change bg_length with polyline_length in He.
  destruct (get_point_spec l b C L) as (Pb & Eb & Ab). destruct (get_point_spec l e C L) as (Pe & Ee & Ae).
  rewrite clamp_in in Ab, Ae by lra.
  destruct (segment_end_cons l b C L ltac:(lra)) as (i & p & q & _ & Hp & Hq & HS & EU).
  pose proof (nth_lt _ _ _ Hq) as Lq. pose proof (proj1 C) as LS.
  destruct (lower_bound_spec (ss l) e) as [L1 [L2 L3]].
  set (ei := lower_bound (ss l) e) in *.
  assert (Lei : (ei < length (pts l))%nat).
  { destruct (lt_dec ei (length (pts l))) as [|X]; auto. exfalso.
    specialize (L2 (length (pts l) - 1)%nat _ ltac:(lia) (cons_nth l (length (pts l) - 1) C ltac:(lia))). rewrite S_last in L2 by lia. lra. }
  specialize (L3 _ (cons_nth l ei C Lei)).
  assert (Hie : (S i <= ei)%nat).
  { destruct (le_lt_dec (S i) ei); auto. exfalso. pose proof (S_mono (pts l) ei i ltac:(lia) ltac:(lia)). lra. }
  assert (HL : S_ (pts l) (ei - 1) < e).
  { apply (L2 (ei - 1)%nat); [lia|]. apply cons_nth; auto. lia. }
  unfold get_line_from_s_interval, get_points_in_s_interval. rewrite Eb, Ee, EU. fold ei. cbv zeta.
  destruct (Nat.leb_spec (S i) ei); [|lia]. destruct (Nat.leb_spec ei (length (pts l))); [|lia]. cbn [andb].
  set (mid := firstn (ei - S i) (skipn (S i) (pts l))).
  eexists. split; [reflexivity|]. set (m := add_point _ Pe).
  assert (Em : pts m = Pb :: mid ++ [Pe]). { unfold m. cbn [add_point of_points pts]. rewrite fold_add_pts. reflexivity. }
  assert (Cm : arc_lengths_of (pts m) (ss m)) by apply recompute_spec.
  assert (T : trace (pts l) b (pts m) e).
  { rewrite Em. unfold mid. apply vertices_trace; auto; try lia.
    - replace (S i - 1)%nat with i by lia. lra.
    - replace (S i + (ei - S i))%nat with ei by lia. lra.
    - lra. }
  assert (EL : line_length m = e - b). { apply (trace_len _ _ _ _ T). }
  split; [exact Cm|]. split; [rewrite Em; reflexivity|]. split.
  { rewrite Em. unfold last_opt. rewrite app_comm_cons, app_length. cbn [length].
    rewrite nth_error_app2 by (cbn; lia). replace (_ - _ - _)%nat with 0%nat by (cbn; lia). reflexivity. }
  split; [exact EL|]. split.
  - intros u Hu. assert (Lm : (2 <= length (pts m))%nat). { rewrite Em. cbn. rewrite app_length. cbn. lia. }
    destruct (get_point_spec m u Cm Lm) as (X & EX & AX). unfold line_length in EL. change bg_length with polyline_length in EL.
    rewrite clamp_in in AX by lra. apply (trace_at _ _ _ _ T) in AX.
    destruct (get_point_spec l (b + u) C L) as (Y & EY & AY). rewrite clamp_in in AY by lra.
    rewrite EX, EY. f_equal. eapply at_arclength_unique; eauto.
  - intros k pk sk Hk Hsk Hbk. pose proof (nth_lt _ _ _ Hk) as Lk. rewrite (cons_nth l k C Lk) in Hsk. inversion Hsk; subst sk.
    rewrite Em. right. apply in_or_app. left. unfold mid.
    assert (S i <= k)%nat. { destruct (le_lt_dec (S i) k); auto. exfalso. pose proof (S_mono (pts l) k i ltac:(lia) ltac:(lia)). lra. }
    assert (k < ei)%nat. { destruct (le_lt_dec ei k); auto. exfalso. pose proof (S_mono (pts l) ei k ltac:(lia) ltac:(lia)). lra. }
    apply (nth_error_In _ (k - S i)).
    assert (NF : forall (A : Type) (x : list A) n j, (j < n)%nat -> nth_error (firstn n x) j = nth_error x j).
    { clear. intros A x. induction x as [|a x IH]; intros n j H; destruct n; try lia; [destruct j; reflexivity|].
      destruct j; cbn; auto. apply IH. lia. }
    assert (NS : forall (A : Type) (x : list A) n j, nth_error (skipn n x) j = nth_error x (n + j)).
    { clear. intros A x. induction x as [|a x IH]; intros n j; destruct n; cbn; auto. destruct j; reflexivity. }
    rewrite NF by lia. rewrite NS. replace (S i + (k - S i))%nat with k by lia. exact Hk.
Qed.
Print Assumptions C48_line_from_interval.
Example C48_nonvacuous : exists l, built l /\ arc_lengths_of (pts l) (ss l) /\ (2 <= length (pts l))%nat /\ 0 <= 1 /\ 1 < 3 /\ 3 <= line_length l.
Proof.
  exists (add_points empty_line [(0, 0); (2, 0); (9, 0)]). split; [repeat constructor|]. split; [apply recompute_spec|].
  split; [cbn; lia|]. repeat split; try lra. cbn. rewrite !dist_h. unfold Rabs. repeat destruct (Rcase_abs _); lra.
Qed.

(** An empty interval at a vertex makes the copied range run backwards: undefined. *)
Theorem C48_empty_interval_at_vertex_refuted : forall l i si, arc_lengths_of (pts l) (ss l) ->
  nth_error (ss l) i = Some si -> get_line_from_s_interval l si si = None.
Proof.
  intros l i si C Hi. unfold get_line_from_s_interval, get_points_in_s_interval. cbv zeta.
  assert (lower_bound (ss l) si < upper_bound (ss l) si)%nat.
  { destruct (upper_bound_spec (ss l) si) as [U1 [U2 U3]]. destruct (lower_bound_spec (ss l) si) as [L1 [L2 L3]].
    assert (i < upper_bound (ss l) si)%nat.
    { pose proof (nth_lt _ _ _ Hi). pose proof (proj1 C) as LS.
      destruct (lt_dec i (upper_bound (ss l) si)) as [|X]; auto. exfalso.
      destruct (nth_some (ss l) (upper_bound (ss l) si)) as [u Hu]; [lia|]. pose proof (U3 _ Hu).
      rewrite (cons_nth l) in Hu, Hi by (auto; lia). inversion Hu. inversion Hi. subst.
      pose proof (S_mono (pts l) (upper_bound (ss l) (S_ (pts l) i)) i ltac:(lia) ltac:(lia)). lra. }
    assert (lower_bound (ss l) si <= i)%nat; [|lia].
    destruct (le_lt_dec (lower_bound (ss l) si) i) as [|X]; auto. exfalso. specialize (L2 i si X Hi). lra. }
  destruct (Nat.leb_spec (upper_bound (ss l) si) (lower_bound (ss l) si)); [lia|]. cbn [andb].
  destruct (get_point_at_s l si); reflexivity.
Qed.
Print Assumptions C48_empty_interval_at_vertex_refuted.

(** Laterally shifted line: defined, as many points, every vertex moved by exactly |shift|. *)
Lemma tangent_defined l s : consistent l -> (2 <= length (pts l))%nat -> exists a, get_tangent_angle_at_s l s = Some a.
Proof.
  intros C L. unfold get_tangent_angle_at_s. rewrite cons_last by (auto; lia).
  assert (NS : forall i, (S i < length (pts l))%nat -> exists a, nth_seg (pts l) i = Some a).
  { intros i Hi. unfold nth_seg. destruct (nth_some (pts l) i) as [p Hp]; [lia|].
    destruct (nth_some (pts l) (S i)) as [q Hq]; [lia|]. rewrite Hp, Hq. eauto. }
  destruct (Rleb_spec (polyline_length (pts l)) s).
  { destruct (length (pts l)) as [|[|k]] eqn:E; try lia. apply NS. lia. }
  destruct (Rleb_spec s 0); [apply NS; lia|].
  destruct (segment_end_cons l s C L ltac:(lra)) as (i & p & q & E & Hp & Hq & HS & EU).
  pose proof (nth_lt _ _ _ Hq) as Lq. unfold at_vertex. rewrite E.
  destruct (Nat.eqb_spec (S i) (lower_bound (ss l) s)) as [X|X]; cbn [negb]; [apply NS; auto|].
  destruct i as [|j].
  - exfalso. apply X. symmetry. apply lower_eq_upper; auto; try lra. rewrite S_0. lra.
  - destruct (nth_some (pts l) j) as [r Hr]; [lia|]. rewrite Hr, Hp, Hq. eauto.
Qed.
Lemma shift_loop_pts l sh sl : forall acc m, shift_loop l sh sl acc = Some m ->
  exists ds, pts m = pts acc ++ ds /\ length ds = length sl /\
    forall i s d, nth_error sl i = Some s -> nth_error ds i = Some d ->
      exists n p, get_normal_at_s l s = Some n /\ get_point_at_s l s = Some p /\ d = padd p (pscale n sh).
Proof.
  induction sl as [|s sl IH]; intros acc m H; cbn in H.
  - inversion H; subst. exists []. rewrite app_nil_r. repeat split; auto. intros i x d Hi. destruct i; discriminate.
  - destruct (get_normal_at_s l s) as [n|] eqn:En; [|discriminate]. destruct (get_point_at_s l s) as [p|] eqn:Ep; [|discriminate].
    destruct (IH _ _ H) as (ds & E & EL & Hds). exists (padd p (pscale n sh) :: ds). repeat split.
    + rewrite E. cbn. rewrite <- app_assoc. reflexivity.
    + cbn. lia.
    + intros [|i] x d Hx Hd; cbn in Hx, Hd; [|eauto]. inversion Hx; inversion Hd; subst. eauto.
Qed.
Theorem C48_shifted_line : forall l sh, arc_lengths_of (pts l) (ss l) -> (2 <= length (pts l))%nat ->
  exists m, get_line_shifted_laterally l sh = Some m /\ length (pts m) = length (pts l) /\
    arc_lengths_of (pts m) (ss m) /\
    forall i p q, nth_error (pts l) i = Some p -> nth_error (pts m) i = Some q -> dist p q = Rabs sh.
Proof.
  intros l sh C L.
  assert (D : forall sl acc, arc_lengths_of (pts acc) (ss acc) ->
     exists m, shift_loop l sh sl acc = Some m /\ arc_lengths_of (pts m) (ss m)).
  { induction sl as [|s sl IH]; intros acc Ha; cbn; [eauto|].
    destruct (tangent_defined l s C L) as [a Ea]. unfold get_normal_at_s. rewrite Ea.
    destruct (get_point_spec l s C L) as (P & EP & _). rewrite EP. apply IH. apply recompute_spec. }
  destruct (D (ss l) empty_line (recompute_spec [])) as (m & Em & Cm). exists m. split; [exact Em|].
  destruct (shift_loop_pts _ _ _ _ _ Em) as (ds & E1 & E2 & E3). cbn in E1. subst ds.
  split; [rewrite E2; apply C|]. split; [exact Cm|].
  intros i p q Hp Hq. pose proof (nth_lt _ _ _ Hp) as Li.
  destruct (E3 i (S_ (pts l) i) q (cons_nth l i C Li) Hq) as (n & p' & En & Ep' & Eq).
  pose proof (C23_vertices l i p (S_ (pts l) i) C L Hp (cons_nth l i C Li)) as V.
  assert (p' = p) by congruence. subst p' q.
  assert (N : fst n * fst n + snd n * snd n = 1).
  { unfold get_normal_at_s in En. destruct (get_tangent_angle_at_s l (S_ (pts l) i)); [|discriminate]. inversion En. cbn.
    match goal with |- context [cos ?x] => pose proof (sin2_cos2 x) as T end. unfold Rsqr in T. lra. }
  unfold dist, padd, pscale. cbn [fst snd].
  replace (_ + _) with (sh² * (fst n * fst n + snd n * snd n)) by (unfold Rsqr; ring).
  rewrite N, Rmult_1_r. apply sqrt_Rsqr_abs.
Qed.
Print Assumptions C48_shifted_line.

(** A two-point line is shifted to its parallel on the left (positive shift). *)
Theorem C48_straight_line_shifted_left : forall p q sh, p <> q ->
  let l := add_points empty_line [p; q] in
  exists m p' q', get_line_shifted_laterally l sh = Some m /\ pts m = [p'; q'] /\
    psub q' p' = psub q p /\
    (* signed distance of p' from the line through p, q *)
    (fst q - fst p) * (snd p' - snd p) - (snd q - snd p) * (fst p' - fst p) = sh * dist p q.
Proof.
  intros p q sh Hpq l. assert (C : consistent l) by apply recompute_spec.
  assert (D : 0 < dist p q) by (apply dist_pos; auto).
  assert (ES : ss l = [0; dist p q]).
  { cbn. rewrite dist_refl, (dist_sym q p). f_equal; [lra|]. f_equal. lra. }
  assert (L : line_length l = dist p q) by (cbn; lra).
  assert (T : forall s, In s (ss l) -> get_tangent_angle_at_s l s = Some (seg_angle p q)).
  { intros s Hs. rewrite ES in Hs. unfold get_tangent_angle_at_s. rewrite ES. unfold last_opt. cbn [length Nat.sub nth_error].
    destruct (Rleb_spec (dist p q) s) as [Q|Q]; [reflexivity|]. destruct Hs as [<-|[<-|[]]]; [|lra].
    destruct (Rleb_spec 0 0); [reflexivity|lra]. }
  destruct (seg_angle_polar p q) as [PC PS].
  pose proof (C23_vertices l 0 p 0 C ltac:(cbn; lia) eq_refl ltac:(rewrite ES; reflexivity)) as V0.
  pose proof (C23_vertices l 1 q (dist p q) C ltac:(cbn; lia) eq_refl ltac:(rewrite ES; reflexivity)) as V1.
  unfold get_line_shifted_laterally. rewrite ES. cbn [shift_loop]. unfold get_normal_at_s.
  rewrite !T by (rewrite ES; cbn; auto). rewrite V0, V1.
  eexists. eexists. eexists. split; [reflexivity|]. split; [reflexivity|]. split.
  - unfold psub, padd, pscale. cbn [fst snd]. f_equal; ring.
  - unfold padd, pscale. cbn [fst snd]. rewrite asin1.
    replace (cos (seg_angle p q + PI / 2)) with (- sin (seg_angle p q)) by (rewrite cos_plus, cos_PI2, sin_PI2; ring).
    replace (sin (seg_angle p q + PI / 2)) with (cos (seg_angle p q)) by (rewrite sin_plus, cos_PI2, sin_PI2; ring).
    rewrite <- PC, <- PS. pose proof (sin2_cos2 (seg_angle p q)) as T1. unfold Rsqr in T1.
    transitivity (sh * dist p q * (sin (seg_angle p q) * sin (seg_angle p q) + cos (seg_angle p q) * cos (seg_angle p q))); [ring|].
    rewrite T1. ring.
Qed.
Print Assumptions C48_straight_line_shifted_left.

(** C49. The center line has one point per point of the boundary with more points, each half way between
    that point and its nearest point on the other boundary. *)
Lemma center_loop_spec less p0 p1 r : arc_lengths_of (pts less) (ss less) -> pts less = p0 :: p1 :: r -> p0 <> p1 ->
  forall more acc, arc_lengths_of (pts acc) (ss acc) -> exists m ds, center_loop less more acc = Some m /\ arc_lengths_of (pts m) (ss m) /\
  pts m = pts acc ++ ds /\
  Forall2 (fun p c => exists q, on_polyline (pts less) q /\ (forall x, on_polyline (pts less) x -> dist p q <= dist p x) /\
                      c = pdiv (padd p q) 2 /\ dist p c = dist p q / 2 /\ dist c q = dist p q / 2) more ds.
Proof.
  intros C E NE. induction more as [|p more IH]; intros acc Ha; cbn [center_loop].
  - exists acc, []. rewrite app_nil_r. auto.
  - destruct (C24_nearest_point less p p0 p1 r C E NE) as (P & s & i & t & EN & HS & _ & HM).
    unfold get_nearest_point. rewrite EN. cbn [option_map fst].
    destruct (IH (add_point acc (pdiv (padd p P) 2)) (recompute_spec _)) as (m & ds & Em & Cm & Ep & HF).
    exists m, (pdiv (padd p P) 2 :: ds). split; [exact Em|]. split; [exact Cm|]. split.
    + rewrite Ep. cbn. rewrite <- app_assoc. reflexivity.
    + constructor; auto. exists P. split; [exists i, t; auto|]. split; [exact HM|]. split; [reflexivity|].
      assert (EC : pdiv (padd p P) 2 = lerp (1/2) p P) by (unfold pdiv, padd, lerp; f_equal; cbn; field).
      rewrite EC, dist_lerp_l, dist_lerp_r by lra. split; lra.
Qed.
Theorem C49_center_line : forall outer inner po0 po1 ro pi0 pi1 ri,
  arc_lengths_of (pts outer) (ss outer) -> arc_lengths_of (pts inner) (ss inner) ->
  pts outer = po0 :: po1 :: ro -> po0 <> po1 -> pts inner = pi0 :: pi1 :: ri -> pi0 <> pi1 ->
  exists m more less, compute_center_line outer inner = Some m /\
    ((more = outer /\ less = inner) \/ (more = inner /\ less = outer)) /\
    (length (pts less) <= length (pts more))%nat /\
    arc_lengths_of (pts m) (ss m) /\
    Forall2 (fun p c => exists q, on_polyline (pts less) q /\ (forall x, on_polyline (pts less) x -> dist p q <= dist p x) /\
                        c = pdiv (padd p q) 2 /\ dist p c = dist p q / 2 /\ dist c q = dist p q / 2) (pts more) (pts m).
Proof.
  intros outer inner po0 po1 ro pi0 pi1 ri Co Ci Eo No Ei Ni. unfold compute_center_line.
  destruct (Nat.ltb_spec (length (pts outer)) (length (pts inner))).
  - destruct (center_loop_spec outer po0 po1 ro Co Eo No (pts inner) empty_line (recompute_spec [])) as (m & ds & E & Cm & Ep & F).
    exists m, inner, outer. cbn in Ep. subst ds. repeat (split; [now auto with arith|]). auto.
  - destruct (center_loop_spec inner pi0 pi1 ri Ci Ei Ni (pts outer) empty_line (recompute_spec [])) as (m & ds & E & Cm & Ep & F).
    exists m, outer, inner. cbn in Ep. subst ds. repeat (split; [now auto with arith|]). auto.
Qed.
Print Assumptions C49_center_line.
Example C49_nonvacuous : exists outer inner, arc_lengths_of (pts outer) (ss outer) /\ arc_lengths_of (pts inner) (ss inner) /\
  pts outer = [(0, 4); (10, 4)] /\ pts inner = [(0, 0); (5, 0); (10, 0)] /\ ((0, 0) : pt) <> (5, 0) /\ ((0, 4) : pt) <> (10, 4).
Proof.
  exists (add_points empty_line [(0, 4); (10, 4)]), (add_points empty_line [(0, 0); (5, 0); (10, 0)]).
  repeat split; try apply recompute_spec; intros H; inversion H; lra.
Qed.

(** C25, continued: joining a reversed line that crosses the other one near its end uses the stale arc
    lengths: the crossing at 95% of the reversed line is taken to be at 55%, so the overshooting end
    is not cut off and the joined line doubles back (its length exceeds that of the properly cut line). *)
Theorem C25_concatenate_stale_arc_lengths_refuted :
  exists l1 l2 x, built l1 /\ built l2 /\
    on_polyline (pts l1) x /\ on_polyline (pts l2) x /\
    (exists s, get_nearest_s (reverse l1) x = Some s /\ s / line_length l1 = 55 / 100) /\
    at_arclength (pts (reverse l1)) (95 / 100 * line_length l1) x /\
    cut_part (reverse l1) x = Some (reverse l1).
Proof.
  set (l1 := add_points empty_line [(0, 0); (1, 0); (10, 0)]).
  set (l2 := add_points empty_line [(1/2, 0); (1/2, 9)]).
  exists l1, l2, (1/2, 0).
  assert (D1 : dist (0, 0) (1, 0) = 1) by (rewrite dist_h; unfold Rabs; destruct (Rcase_abs _); lra).
  assert (D2 : dist (1, 0) (10, 0) = 9) by (rewrite dist_h; unfold Rabs; destruct (Rcase_abs _); lra).
  assert (EL : line_length l1 = 10) by (cbn; rewrite D1, D2; lra).
  assert (ELr : line_length (reverse l1) = 10) by (cbn; rewrite (dist_sym (10, 0)), (dist_sym (1, 0) (0, 0)), D1, D2; lra).
  split; [repeat constructor|]. split; [repeat constructor|]. split; [|split].
  { exists 0%nat, (1/2), (0, 0), (1, 0). repeat split; auto; try lra. unfold lerp. cbn. f_equal; lra. }
  { exists 0%nat, 0, (1/2, 0), (1/2, 9). repeat split; auto; try lra. now rewrite lerp0. }
  assert (ES : ss (reverse l1) = [0; 1; 10]).
  { cbn. rewrite dist_refl, (dist_sym (1, 0) (0, 0)), D1, (dist_sym (10, 0)), D2. repeat (f_equal; try lra). }
  assert (ENS : get_nearest_s (reverse l1) (1/2, 0) = Some (11/2)).
  { unfold get_nearest_s, get_nearest_point_and_s.
    change (pts (reverse l1)) with [(10, 0); (1, 0); (0, 0)]. cbv zeta.
    assert (A : seg_dist2 (1/2, 0) (10, 0) (1, 0) = 1/4).
    { unfold seg_dist2. cbn [fst snd]. cbv zeta.
      destruct (Rleb_spec ((1 / 2 - 10) * (1 - 10) + (0 - 0) * (0 - 0)) 0); [lra|].
      destruct (Rleb_spec ((1 - 10) * (1 - 10) + (0 - 0) * (0 - 0)) ((1 / 2 - 10) * (1 - 10) + (0 - 0) * (0 - 0))); [|lra].
      unfold dist2. cbn. lra. }
    assert (B : seg_dist2 (1/2, 0) (1, 0) (0, 0) = 0).
    { unfold seg_dist2. cbn [fst snd]. cbv zeta.
      destruct (Rleb_spec ((1 / 2 - 1) * (0 - 1) + (0 - 0) * (0 - 0)) 0); [lra|].
      destruct (Rleb_spec ((0 - 1) * (0 - 1) + (0 - 0) * (0 - 0)) ((1 / 2 - 1) * (0 - 1) + (0 - 0) * (0 - 0))); [lra|].
      unfold dist2, lerp. cbn. field_simplify; lra. }
    cbn [min_seg]. rewrite A, B. destruct (Rltb_spec 0 (1/4)); [|lra].
    cbn [nth_error]. rewrite ES. cbn [nth_error]. unfold nearest_on_segment. cbn [fst snd]. cbv zeta.
    match goal with |- context [Reqb ?d 0] => replace d with 1 by ring end.
    destruct (Reqb_spec 1 0); [lra|].
    match goal with |- context [Rltb ?d 0] => replace d with (1/2) by field end.
    destruct (Rltb_spec (1/2) 0); [lra|]. destruct (Rltb_spec 1 (1/2)); [lra|]. cbn. f_equal. field. }
  split; [|split].
  - exists (11/2). split; [exact ENS|]. rewrite EL. lra.
  - rewrite EL. exists 1%nat, (1, 0), (0, 0), (1/2). repeat split; auto; try lra.
    + unfold lerp. cbn. f_equal; lra.
    + cbn [firstn polyline_length reverse pts rev app l1 add_points of_points]. cbn. rewrite (dist_sym (10, 0)), D2, dist_h.
      unfold Rabs. destruct (Rcase_abs _); lra.
  - unfold cut_part. rewrite ENS. cbv zeta. rewrite ELr.
    destruct (Rltb_spec (11 / 2 / 10) (3/10)); [lra|]. destruct (Rltb_spec (7/10) (11/2/10)); [lra|]. reflexivity.
Qed.
Print Assumptions C25_concatenate_stale_arc_lengths_refuted.
