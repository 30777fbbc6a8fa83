(** C118: polygons made from lines, rounding of polygons. *)
From Coq Require Import Reals List Bool ZArith Lra Lia Psatz.
From Verif Require Import Base_Real Base_Geom Model_Line Spec_Line Proof_Line Props_Line Model_Shape Spec_Shape Props_Shape Model_GeomPickle Props_GeomPickle Model_PolyLines.
Import ListNotations.
Local Open Scope R_scope.

(* ------------------------------------------------------------------ *)
(** * Specification.  [shoelace] (signed area), [closed] and [same_curve] are in Props_GeomPickle. *)

(** The sum over consecutive pairs of a list. *)
Fixpoint sum_steps {A} (f : A -> A -> R) (l : list A) : R :=
  match l with
  | a :: (b :: _) as r => f a b + sum_steps f r
  | _ => 0
  end.
(** Every consecutive pair is related. *)
Fixpoint steps_ok {A} (P : A -> A -> Prop) (l : list A) : Prop :=
  match l with
  | a :: (b :: _) as r => P a b /\ steps_ok P r
  | _ => True
  end.

(* ------------------------------------------------------------------ *)
(** * From center and line *)

Lemma add_all_points : forall ps p, fold_left po_add ps p =
  mkPolygon (with_obj (po_shape p) (obj (po_shape p) ++ ps) (center (po_shape p))) (po_holes p).
Proof.
  induction ps as [|q ps IH]; intros p.
  - cbn. rewrite app_nil_r. now destruct p as [[] ?].
  - cbn [fold_left]. rewrite IH. cbn. now rewrite <- app_assoc.
Qed.

(** The polygon of a line is the polygon of its points. *)
Theorem C118_center_line : forall huge c l, polygon_of_line huge c l = polygon_of huge c (pts (lo_line l)).
Proof. intros. unfold polygon_of_line. rewrite add_all_points. reflexivity. Qed.
Print Assumptions C118_center_line.

(* ------------------------------------------------------------------ *)
(** * From two lines *)

Lemma two_lines_eq huge l1 l2 a r : pts (lo_line l1) = a :: r ->
  polygon_of_lines huge l1 l2 = Some (polygon_of huge (0, 0, 0) (pts (lo_line l1) ++ rev (pts (lo_line l2)) ++ [a])).
Proof.
  intros E. unfold polygon_of_lines. rewrite E, add_all_points, add_all_points. unfold po_add, po_correct, po_update, polygon_of. cbn.
  rewrite <- app_assoc. reflexivity.
Qed.

(** It needs a point in the first line, and only that. *)
Theorem C118_two_lines_defined : forall huge l1 l2, polygon_of_lines huge l1 l2 <> None <-> pts (lo_line l1) <> [].
Proof.
  intros. destruct (pts (lo_line l1)) as [|a r] eqn:E.
  - unfold polygon_of_lines. rewrite E. tauto.
  - rewrite (two_lines_eq _ _ _ _ _ E). split; intros _; discriminate.
Qed.
Print Assumptions C118_two_lines_defined.

(** The ring runs along the first line, back along the second and returns to its start, or the other way
    round: closed, never counter-clockwise, through the points of both lines and no others; the center is the
    origin, the extents are those of the ring. *)
Theorem C118_two_lines : forall huge l1 l2 p, polygon_of_lines huge l1 l2 = Some p ->
  exists a, hd_error (pts (lo_line l1)) = Some a /\
  let there_and_back := pts (lo_line l1) ++ rev (pts (lo_line l2)) ++ [a] in
  (obj (po_shape p) = there_and_back \/ obj (po_shape p) = rev there_and_back) /\
  closed (obj (po_shape p)) /\ 0 <= calculate_area p /\ calculate_area p = Rabs (shoelace there_and_back) /\
  (forall q, In q (obj (po_shape p)) <-> In q (pts (lo_line l1)) \/ In q (pts (lo_line l2))) /\
  length (obj (po_shape p)) = (length (pts (lo_line l1)) + length (pts (lo_line l2)) + 1)%nat /\
  center (po_shape p) = (0, 0, 0) /\ po_holes p = [] /\ po_shape p = extents huge (obj (po_shape p)) (0, 0, 0).
Proof.
  intros huge l1 l2 p H. assert (N : polygon_of_lines huge l1 l2 <> None) by congruence. apply C118_two_lines_defined in N.
  destruct (pts (lo_line l1)) as [|a r] eqn:E; [easy|]. rewrite (two_lines_eq _ _ _ _ _ E) in H. injection H as <-.
  exists a. split; [reflexivity|]. rewrite E. set (m := pts (lo_line l2)).
  intros L.
  assert (C : closed L) by (exists a, (r ++ rev m); unfold L; now rewrite <- app_assoc).
  assert (O : correct_ring L = L \/ correct_ring L = rev L).
  { unfold correct_ring. rewrite close_of_closed by exact C. unfold orient. destruct (Rltb _ _); auto. }
  assert (CR : closed (correct_ring L)) by (destruct O as [O|O]; rewrite O; auto using closed_rev).
  assert (A0 : 0 <= ring_area (correct_ring L)) by apply C111_constructed_ring.
  assert (AA : Rabs (ring_area (correct_ring L)) = Rabs (ring_area L)).
  { destruct O as [O|O]; rewrite O; [reflexivity|]. now rewrite area_rev, Rabs_Ropp. }
  assert (SH : Rabs (ring_area L) = Rabs (shoelace L)).
  { destruct (le_lt_dec 4 (length L)) as [X|X].
    - rewrite C111_area_is_shoelace by assumption. apply Rabs_Ropp.
    - unfold ring_area. destruct (Nat.ltb_spec (length L) 4); [|lia]. clear - C X. destruct C as (p & n & ->).
      destruct n as [|q n]; [f_equal; cbn; lra|]. destruct n; [f_equal; cbn; lra|]. cbn in X. rewrite app_length in X. cbn in X. lia. }
  cbn [polygon_of po_shape po_holes extents obj center calculate_area map fold_right].
  split; [exact O|]. split; [exact CR|]. unfold calculate_area. cbn [polygon_of po_shape po_holes extents obj map fold_right].
  split; [exact A0|]. split; [rewrite <- SH, <- AA; symmetry; apply Rabs_pos_eq, A0|].
  split; [|split; [|repeat split]].
  - intros q. etransitivity; [exact (proj2 (proj2 (proj2 (proj2 (proj2 (C111_constructed_ring L))))) q)|]. unfold L. rewrite !in_app_iff, <- in_rev. cbn. tauto.
  - transitivity (length L); [change (@length pt (correct_ring L) = @length pt L); destruct O as [O|O]; rewrite O; [|apply rev_length]; reflexivity|].
    unfold L. rewrite !app_length, rev_length. cbn. lia.
Qed.
Print Assumptions C118_two_lines.

(** ** Area *)
Definition xp (p q : pt) : R := (fst p * snd q - fst q * snd p) / 2.
Lemma sh_cons p q r : shoelace (p :: q :: r) = xp p q + shoelace (q :: r).
Proof. reflexivity. Qed.
Lemma sh_split x : forall l r, shoelace (l ++ x :: r) = shoelace (l ++ [x]) + shoelace (x :: r).
Proof.
  induction l as [|p l IH]; intros r; [cbn [app]; change (shoelace [x]) with 0; lra|].
  destruct l as [|q l]; cbn [app] in *; rewrite !sh_cons; [change (shoelace [x]) with 0; lra|rewrite IH; lra].
Qed.
Lemma sh_rev : forall l, shoelace (rev l) = - shoelace l.
Proof.
  induction l as [|p l IH]; [cbn; lra|]. destruct l as [|q l]; [cbn; lra|].
  change (rev (p :: q :: l)) with (rev (q :: l) ++ [p]). change (rev (q :: l)) with (rev l ++ [q]) in *.
  rewrite <- app_assoc. cbn [app]. rewrite sh_split, IH, !sh_cons. change (shoelace [p]) with 0. unfold xp. lra.
Qed.
Lemma strip_sum : forall (prs : list (pt * pt)) a b,
  shoelace (map fst ((a, b) :: prs) ++ rev (map snd ((a, b) :: prs)) ++ [a]) =
  sum_steps (fun u v => shoelace [fst u; fst v; snd v; snd u; fst u]) ((a, b) :: prs).
Proof.
  assert (G : forall (prs : list (pt * pt)) a b, shoelace (map fst ((a, b) :: prs) ++ rev (map snd ((a, b) :: prs))) + xp b a =
    sum_steps (fun u v => shoelace [fst u; fst v; snd v; snd u; fst u]) ((a, b) :: prs)).
  { induction prs as [|[a' b'] prs IH]; intros a b.
    - cbn. unfold xp. lra.
    - change (sum_steps ?f ((a, b) :: (a', b') :: prs)) with (f (a, b) (a', b') + sum_steps f ((a', b') :: prs)). rewrite <- IH.
      cbn [map fst snd rev app]. rewrite sh_cons. rewrite <- !app_assoc. cbn [app].
      change (a' :: map fst prs ++ rev (map snd prs) ++ [b'; b]) with ((a' :: map fst prs) ++ rev (map snd prs) ++ [b'; b]).
      change (a' :: map fst prs ++ rev (map snd prs) ++ [b']) with ((a' :: map fst prs) ++ rev (map snd prs) ++ [b']).
      rewrite !app_assoc, (sh_split b' _ [b]), !sh_cons. change (shoelace [b]) with 0. change (shoelace [a]) with 0. unfold xp. lra. }
  intros prs a b. rewrite <- G. cbn [map fst snd rev]. rewrite <- !app_assoc. cbn [app].
  change (a :: map fst prs ++ rev (map snd prs) ++ [b; a]) with ((a :: map fst prs) ++ rev (map snd prs) ++ [b; a]).
  change (a :: map fst prs ++ rev (map snd prs) ++ [b]) with ((a :: map fst prs) ++ rev (map snd prs) ++ [b]).
  rewrite !app_assoc, (sh_split b _ [a]), !sh_cons. change (shoelace [a]) with 0. lra.
Qed.

(** Two lines of the same number of points: the area is that of the quadrilaterals between consecutive pairs
    of points, with sign. *)
Theorem C118_area_of_pairs : forall huge l1 l2 p (prs : list (pt * pt)),
  pts (lo_line l1) = map fst prs -> pts (lo_line l2) = map snd prs -> polygon_of_lines huge l1 l2 = Some p ->
  calculate_area p = Rabs (sum_steps (fun u v => shoelace [fst u; fst v; snd v; snd u; fst u]) prs).
Proof.
  intros huge l1 l2 p prs E1 E2 H. destruct (C118_two_lines _ _ _ _ H) as (a & Ha & _ & _ & _ & A & _). rewrite A. clear A.
  rewrite E1, E2 in *. destruct prs as [|[a' b] prs]; [discriminate|]. cbn in Ha. injection Ha as <-. now rewrite strip_sum.
Qed.
Print Assumptions C118_area_of_pairs.

(** Two borders over the same positions, the left one not below the right one: the area is the integral of
    the width.  [(x, l, r)]: position and the two lateral positions. *)
Theorem C118_strip_area : forall huge l1 l2 p (b : list (R * R * R)),
  pts (lo_line l1) = map (fun t => (fst (fst t), snd (fst t))) b -> pts (lo_line l2) = map (fun t => (fst (fst t), snd t)) b ->
  polygon_of_lines huge l1 l2 = Some p ->
  (forall t, In t b -> snd t <= snd (fst t)) -> steps_ok (fun t u => fst (fst t) <= fst (fst u)) b ->
  calculate_area p =
  sum_steps (fun t u => (fst (fst u) - fst (fst t)) * ((snd (fst t) - snd t) + (snd (fst u) - snd u)) / 2) b.
Proof.
  intros huge l1 l2 p b E1 E2 H W X.
  rewrite (C118_area_of_pairs huge l1 l2 p (map (fun t => ((fst (fst t), snd (fst t)), (fst (fst t), snd t))) b)).
  2: { rewrite E1, map_map. reflexivity. }
  2: { rewrite E2, map_map. reflexivity. }
  2: exact H.
  assert (S : sum_steps (fun u v : pt * pt => shoelace [fst u; fst v; snd v; snd u; fst u])
      (map (fun t : R * R * R => ((fst (fst t), snd (fst t)), (fst (fst t), snd t))) b) =
      - sum_steps (fun t u => (fst (fst u) - fst (fst t)) * ((snd (fst t) - snd t) + (snd (fst u) - snd u)) / 2) b).
  { clear. induction b as [|t b IH]; [cbn; lra|]. destruct b as [|u b]; [cbn; lra|].
    cbn [map sum_steps] in *. rewrite IH. cbn [fst snd shoelace]. lra. }
  rewrite S, Rabs_Ropp. apply Rabs_pos_eq. clear - W X.
  induction b as [|t b IH]; [cbn; lra|]. destruct b as [|u b]; [cbn; lra|].
  destruct X as [X1 X2]. change (sum_steps ?f (t :: u :: b)) with (f t u + sum_steps f (u :: b)).
  pose proof (W t (or_introl eq_refl)). pose proof (W u (or_intror (or_introl eq_refl))).
  assert (0 <= (fst (fst u) - fst (fst t)) * ((snd (fst t) - snd t) + (snd (fst u) - snd u))) by (apply Rmult_le_pos; lra).
  apply Rplus_le_le_0_compat; [lra|]. apply IH; [|exact X2]. intros v I. apply W. now right.
Qed.
Print Assumptions C118_strip_area.

Lemma last_default : forall (r : list pt) b d d', last (b :: r) d = last (b :: r) d'.
Proof. induction r as [|c r IH]; intros b d d'; [reflexivity|]. exact (IH c d d'). Qed.
(** A line and its copy moved by (vx, vy): the area depends on the ends only. *)
Theorem C118_moved_copy_area : forall huge l1 l2 p vx vy a z r,
  pts (lo_line l1) = a :: r -> last (a :: r) a = z -> pts (lo_line l2) = map (fun q => (fst q + vx, snd q + vy)) (a :: r) ->
  polygon_of_lines huge l1 l2 = Some p ->
  calculate_area p = Rabs (vx * (snd z - snd a) - vy * (fst z - fst a)).
Proof.
  intros huge l1 l2 p vx vy a z r E1 L E2 H.
  rewrite (C118_area_of_pairs huge l1 l2 p (map (fun q => (q, (fst q + vx, snd q + vy))) (a :: r))).
  2: { rewrite E1, map_map. symmetry. apply map_id. }
  2: { rewrite E2, map_map. reflexivity. }
  2: exact H.
  rewrite <- Rabs_Ropp. f_equal. subst z. clear. revert a. induction r as [|b r IH]; intros a.
  - cbn. lra.
  - change (last (a :: b :: r) a) with (last (b :: r) a).
    assert (last (b :: r) a = last (b :: r) b) as -> by apply last_default.
    specialize (IH b). cbn [map sum_steps] in *. rewrite Ropp_plus_distr, IH. cbn [fst snd shoelace]. lra.
Qed.
Print Assumptions C118_moved_copy_area.

(** Exchanging the lines changes neither the area nor the points. *)
Theorem C118_exchange : forall huge l1 l2 p q,
  polygon_of_lines huge l1 l2 = Some p -> polygon_of_lines huge l2 l1 = Some q ->
  calculate_area q = calculate_area p /\ forall x, In x (obj (po_shape q)) <-> In x (obj (po_shape p)).
Proof.
  intros huge l1 l2 p q HP HQ.
  destruct (C118_two_lines _ _ _ _ HP) as (a & Ha & _ & _ & _ & AP & IP & _).
  destruct (C118_two_lines _ _ _ _ HQ) as (b & Hb & _ & _ & _ & AQ & IQ & _).
  split; [|intros x; rewrite IP, IQ; tauto]. rewrite AP, AQ. symmetry. rewrite <- Rabs_Ropp. f_equal.
  destruct (pts (lo_line l1)) as [|a' r]; [discriminate|]. destruct (pts (lo_line l2)) as [|b' m]; [discriminate|].
  cbn in Ha, Hb. injection Ha as ->. injection Hb as ->. rewrite <- sh_rev. set (k := (b :: m) ++ rev r).
  assert ((b :: m) ++ rev (a :: r) ++ [b] = k ++ [a; b]) as -> by (unfold k; cbn [rev]; now rewrite <- !app_assoc).
  assert (rev ((a :: r) ++ rev (b :: m) ++ [a]) = a :: k ++ [a]) as -> by (unfold k; rewrite !rev_app_distr, rev_involutive; cbn [rev app]; now rewrite <- !app_assoc).
  assert (exists k', k = b :: k') as (k' & ->) by (now exists (m ++ rev r)).
  rewrite (sh_split a (b :: k') [b]). cbn [app]. rewrite !sh_cons. change (shoelace [b]) with 0. lra.
Qed.
Print Assumptions C118_exchange.

Lemma have_poly huge l1 l2 : pts (lo_line l1) <> [] -> exists p, polygon_of_lines huge l1 l2 = Some p.
Proof. intros N. apply C118_two_lines_defined with (huge := huge) (l2 := l2) in N. destruct (polygon_of_lines huge l1 l2) as [p|]; [now exists p|easy]. Qed.
(** Lines given in opposite directions, against the comment of the constructor: the ring crosses itself, the
    area can vanish although the borders are a distance apart. *)
Theorem C118_opposite_directions_refuted : exists l1 l2, forall huge,
  (exists p, polygon_of_lines huge l1 l2 = Some p /\ calculate_area p = 0) /\
  (exists p, polygon_of_lines huge l1 (lo_reverse l2) = Some p /\ calculate_area p = 8).
Proof.
  exists (mkLO (of_points [(0, 0); (4, 0)]) (0, 0, 0)), (mkLO (of_points [(4, 2); (0, 2)]) (0, 0, 0)). intros huge. split.
  - match goal with |- exists p, polygon_of_lines ?h ?a ?b = _ /\ _ => destruct (have_poly h a b) as (p & E); [discriminate|]; exists p; split; [exact E|];
      rewrite (C118_area_of_pairs h a b p [((0, 0), (4, 2)); ((4, 0), (0, 2))] eq_refl eq_refl E) end.
    cbn. match goal with |- Rabs ?x = 0 => replace x with 0 by lra end. apply Rabs_R0.
  - match goal with |- exists p, polygon_of_lines ?h ?a ?b = _ /\ _ => destruct (have_poly h a b) as (p & E); [discriminate|]; exists p; split; [exact E|];
      rewrite (C118_area_of_pairs h a b p [((0, 0), (0, 2)); ((4, 0), (4, 2))] eq_refl eq_refl E) end.
    cbn. rewrite Rabs_pos_eq; lra.
Qed.
Print Assumptions C118_opposite_directions_refuted.

(** A lane that widens from 2 to 4. *)
Example C118_strip_area_nonvacuous : forall huge, exists p,
  polygon_of_lines huge (mkLO (of_points [(0, 2); (10, 2); (20, 4)]) (0, 0, 0)) (mkLO (of_points [(0, 0); (10, 0); (20, 0)]) (0, 0, 0)) = Some p /\
  calculate_area p = 50.
Proof.
  intros huge. match goal with |- exists p, polygon_of_lines ?h ?a ?b = _ /\ _ => destruct (have_poly h a b) as (p & E); [discriminate|]; exists p; split; [exact E|];
      rewrite (C118_strip_area h a b p [(0, 2, 0); (10, 2, 0); (20, 4, 0)] eq_refl eq_refl E) end.
  - cbn. lra.
  - cbn. intros t [<-|[<-|[<-|[]]]]; cbn; lra.
  - cbn. lra.
Qed.

(* ------------------------------------------------------------------ *)
(** * SetPrecision *)

Lemma int_part_spec x : IZR (Int_part x) <= x < IZR (Int_part x) + 1.
Proof. pose proof (base_Int_part x). lra. Qed.
Lemma int_part_uniq x z : IZR z <= x < IZR z + 1 -> Int_part x = z.
Proof.
  intros [A B]. pose proof (int_part_spec x) as [C D].
  assert (IZR z < IZR (Int_part x + 1)) by (rewrite plus_IZR; lra). assert (IZR (Int_part x) < IZR (z + 1)) by (rewrite plus_IZR; lra).
  apply lt_IZR in H, H0. lia.
Qed.
Lemma round_err x : Rabs (c_round x - x) <= / 2.
Proof.
  unfold c_round. destruct (Rltb_spec x 0) as [L|L].
  - pose proof (int_part_spec (- x + / 2)). apply Rabs_le. lra.
  - pose proof (int_part_spec (x + / 2)). apply Rabs_le. lra.
Qed.
Lemma round_int z : c_round (IZR z) = IZR z.
Proof.
  unfold c_round. destruct (Rltb_spec (IZR z) 0) as [L|L].
  - rewrite (int_part_uniq _ (- z)); [rewrite opp_IZR; lra|]. rewrite opp_IZR. lra.
  - rewrite (int_part_uniq _ z); lra.
Qed.
Lemma round_is_int x : exists z, c_round x = IZR z.
Proof. unfold c_round. destruct (Rltb x 0); eexists; [rewrite <- opp_IZR|]; reflexivity. Qed.
Lemma scale_pos p : 0 < powerRZ 10 p.
Proof. apply powerRZ_lt. lra. Qed.

(** Every coordinate becomes a multiple of 10^-precision that no other multiple beats, halves going away from
    zero; multiples stay; mirrored coordinates are rounded alike. *)
Theorem C118_round : forall precision x, let g := powerRZ 10 precision in
  (exists z, round_to precision x = IZR z / g) /\
  Rabs (round_to precision x - x) <= / 2 / g /\
  (forall z, Rabs (round_to precision x - x) <= Rabs (IZR z / g - x)) /\
  (forall z, round_to precision (IZR z / g) = IZR z / g) /\
  round_to precision (round_to precision x) = round_to precision x /\
  round_to precision (- x) = - round_to precision x /\
  (forall z, (0 <= z)%Z -> round_to precision ((IZR z + / 2) / g) = (IZR z + 1) / g).
Proof.
  intros precision x g. pose proof (scale_pos precision) as G. fold g in G.
  assert (I : forall z, round_to precision (IZR z / g) = IZR z / g).
  { intros z. unfold round_to. fold g. replace (IZR z / g * g) with (IZR z) by (field; lra). now rewrite round_int. }
  assert (M : exists z, round_to precision x = IZR z / g) by (destruct (round_is_int (x * g)) as (z & E); exists z; unfold round_to; fold g; now rewrite E).
  assert (D : Rabs (round_to precision x - x) = Rabs (c_round (x * g) - x * g) / g).
  { unfold round_to. fold g. replace (c_round (x * g) / g - x) with ((c_round (x * g) - x * g) * / g) by (field; lra).
    rewrite Rabs_mult, (Rabs_pos_eq (/ g)); [reflexivity|]. apply Rlt_le, Rinv_0_lt_compat, G. }
  assert (GI : 0 < / g) by (apply Rinv_0_lt_compat, G).
  assert (E2 : Rabs (round_to precision x - x) <= / 2 / g) by (rewrite D; unfold Rdiv; apply Rmult_le_compat_r; [lra|apply round_err]).
  split; [exact M|]. split; [exact E2|]. split; [|split; [exact I|split; [|split]]].
  - intros z. rewrite D. replace (IZR z / g - x) with ((IZR z - x * g) * / g) by (field; lra). rewrite Rabs_mult, (Rabs_pos_eq (/ g)) by lra.
    apply Rmult_le_compat_r; [lra|]. destruct (round_is_int (x * g)) as (n & En). pose proof (round_err (x * g)) as RE. rewrite En in *.
    destruct (Z.eq_dec n z) as [<-|N]; [apply Rle_refl|].
    assert (1 <= Rabs (IZR n - IZR z)). { rewrite <- minus_IZR, <- abs_IZR. apply (IZR_le 1). lia. }
    pose proof (Rabs_triang (IZR n - x * g) (x * g - IZR z)) as T. replace (IZR n - x * g + (x * g - IZR z)) with (IZR n - IZR z) in T by ring.
    rewrite (Rabs_minus_sym (IZR z)). lra.
  - destruct M as (z & ->). apply I.
  - unfold round_to. fold g. replace (- x * g) with (- (x * g)) by ring. set (y := x * g). replace (- (c_round y / g)) with ((- c_round y) / g) by (unfold Rdiv; ring).
    f_equal. unfold c_round. destruct (Rltb_spec (- y) 0), (Rltb_spec y 0); try lra.
    + rewrite Ropp_involutive. reflexivity.
    + assert (y = 0) as -> by lra. rewrite Ropp_0. rewrite (int_part_uniq (0 + / 2) 0); lra.
  - intros z Z0. unfold round_to. fold g. replace ((IZR z + / 2) / g * g) with (IZR z + / 2) by (field; lra). apply IZR_le in Z0.
    unfold c_round. destruct (Rltb_spec (IZR z + / 2) 0); [lra|]. rewrite (int_part_uniq _ (z + 1)); rewrite plus_IZR; lra.
Qed.
Print Assumptions C118_round.

Lemma round_mono precision x y : x <= y -> round_to precision x <= round_to precision y.
Proof.
  intros H. pose proof (scale_pos precision) as G. unfold round_to. cbv zeta. apply Rmult_le_compat_r; [apply Rlt_le, Rinv_0_lt_compat, G|].
  assert (K : x * powerRZ 10 precision <= y * powerRZ 10 precision) by (apply Rmult_le_compat_r; lra).
  set (a := x * _) in *. set (b := y * _) in *. clearbody a b. clear - K.
  assert (MI : forall u v, u <= v -> IZR (Int_part u) <= IZR (Int_part v)).
  { intros u v L. pose proof (int_part_spec u). pose proof (int_part_spec v). apply IZR_le.
    assert (IZR (Int_part u) < IZR (Int_part v + 1)) by (rewrite plus_IZR; lra). apply lt_IZR in H1. lia. }
  assert (P : forall u, 0 <= u -> 0 <= IZR (Int_part (u + / 2))).
  { intros u L. apply (IZR_le 0). pose proof (int_part_spec (u + / 2)). assert (IZR 0 < IZR (Int_part (u + / 2) + 1)) by (rewrite plus_IZR; lra).
    apply lt_IZR in H0. lia. }
  unfold c_round. destruct (Rltb_spec a 0), (Rltb_spec b 0); try lra.
  - pose proof (MI (- b + / 2) (- a + / 2)). lra.
  - pose proof (P (- a)). pose proof (P b). lra.
  - apply MI. lra.
Qed.

(** SetPrecision rounds the points of the outer ring and keeps their order; center, holes and the stored
    extents stay as they were. *)
Theorem C118_set_precision : forall p precision, let p' := set_precision p precision in
  Forall2 (fun q q' : pt => fst q' = round_to precision (fst q) /\ snd q' = round_to precision (snd q)) (obj (po_shape p)) (obj (po_shape p')) /\
  (closed (obj (po_shape p)) -> closed (obj (po_shape p'))) /\
  set_precision p' precision = p' /\
  center (po_shape p') = center (po_shape p) /\ po_holes p' = po_holes p /\
  rear_dist (po_shape p') = rear_dist (po_shape p) /\ front_dist (po_shape p') = front_dist (po_shape p) /\
  left_dist (po_shape p') = left_dist (po_shape p) /\ right_dist (po_shape p') = right_dist (po_shape p).
Proof.
  intros p precision p'. split; [|split; [|split; [|repeat split]]].
  - unfold p', set_precision. cbn. induction (obj (po_shape p)) as [|q l IH]; constructor; cbn; auto.
  - intros (q & m & E). unfold p', set_precision. cbn. rewrite E. eexists _, (map _ m). cbn. rewrite map_app. reflexivity.
  - unfold p', set_precision, with_obj. cbn. f_equal. f_equal. rewrite map_map. apply map_ext. intros q. cbn.
    now rewrite !(proj1 (proj2 (proj2 (proj2 (proj2 (C118_round precision _)))))).
Qed.
Print Assumptions C118_set_precision.

(** Order along each axis is kept, so the box of the rounded points is the rounded box. *)
Theorem C118_round_monotone : forall precision x y, x <= y -> round_to precision x <= round_to precision y.
Proof. exact round_mono. Qed.
Print Assumptions C118_round_monotone.

(** Rounding can turn a clockwise polygon counter-clockwise, with a negative area. *)
Theorem C118_rounded_orientation_refuted : exists rows, forall huge,
  let p := polygon_of huge (0, 0, 0) rows in
  0 < calculate_area p /\ calculate_area (set_precision p 0) < 0.
Proof.
  exists [(0, 0); (1, 2/5); (3, 3/5); (0, 0)]. intros huge p.
  assert (E : correct_ring [(0, 0); (1, 2/5); (3, 3/5); (0, 0)] = [(0, 0); (1, 2/5); (3, 3/5); (0, 0)]).
  { apply C111_constructed_ring; [unfold ring_area; cbn; lra|]. left. now exists (0, 0), [(1, 2/5); (3, 3/5)]. }
  unfold p, calculate_area, set_precision, polygon_of. cbn [po_shape po_holes extents obj with_obj map fold_right fst snd]. rewrite E.
  cbn [map fst snd].
  assert (r0 : round_to 0 0 = 0) by (replace 0 with (IZR 0 / powerRZ 10 0) at 1 by (cbn; lra); rewrite (proj1 (proj2 (proj2 (proj2 (C118_round 0 0)))) 0%Z); cbn; lra).
  assert (r1 : round_to 0 1 = 1) by (replace 1 with (IZR 1 / powerRZ 10 0) at 1 by (cbn; lra); rewrite (proj1 (proj2 (proj2 (proj2 (C118_round 0 0)))) 1%Z); cbn; lra).
  assert (r3 : round_to 0 3 = 3) by (replace 3 with (IZR 3 / powerRZ 10 0) at 1 by (cbn; lra); rewrite (proj1 (proj2 (proj2 (proj2 (C118_round 0 0)))) 3%Z); cbn; lra).
  assert (r25 : round_to 0 (2/5) = 0).
  { unfold round_to, c_round. cbn [powerRZ]. destruct (Rltb_spec (2 / 5 * 1) 0); [lra|]. rewrite (int_part_uniq _ 0); lra. }
  assert (r35 : round_to 0 (3/5) = 1).
  { unfold round_to, c_round. cbn [powerRZ]. destruct (Rltb_spec (3 / 5 * 1) 0); [lra|]. rewrite (int_part_uniq _ 1); lra. }
  rewrite r0, r1, r3, r25, r35. unfold ring_area. cbn. lra.
Qed.
Print Assumptions C118_rounded_orientation_refuted.
Example C118_round_nonvacuous : round_to 1 (27 / 100) = 3 / 10 /\ round_to 0 (- / 2) = -1.
Proof.
  split; unfold round_to, c_round.
  - rewrite powerRZ_1. destruct (Rltb_spec (27 / 100 * 10) 0); [lra|]. rewrite (int_part_uniq _ 3); lra.
  - cbn [powerRZ]. destruct (Rltb_spec (- / 2 * 1) 0); [|lra]. rewrite (int_part_uniq _ 1); lra.
Qed.
