(** C120: the region of a lane goal. *)
From Coq Require Import Reals List Bool Lra Lia Psatz.
From Verif Require Import Spec_Angle Model_Angle Props_Angle Model_Frenet Proof_Frenet Model_Goal Props_Goal.
From Verif Require Import Base_Real Base_Geom Model_Line Spec_Line Proof_Line Props_Line Props_Line2 Model_Shape Spec_Shape Props_Shape
  Model_GeomPickle Props_GeomPickle Model_PolyLines Props_PolyLines Model_LaneGoal.
Import ListNotations.
Local Open Scope R_scope.

(* ------------------------------------------------------------------ *)
(** * Specification *)

(** The point [s] metres along and [d] metres to the left of a straight line through [p] in direction [u]. *)
Definition frame (p u : pt) (s d : R) : pt := (fst p + s * fst u - d * snd u, snd p + s * snd u + d * fst u).
(** Strictly to the right of the step from [a] to [b]. *)
Definition right_of (q a b : pt) : Prop := (fst b - fst a) * (snd q - snd a) - (snd b - snd a) * (fst q - fst a) < 0.
Definition not_left_of (q a b : pt) : Prop := (fst b - fst a) * (snd q - snd a) - (snd b - snd a) * (fst q - fst a) <= 0.
(** A clockwise convex ring: no corner is to the left of any step.  Its inside: to the right of every step. *)
Definition convex (ring : list pt) : Prop := closed ring /\ 0 < ring_area ring /\ forall q, In q ring -> steps_ok (not_left_of q) ring.
Definition inside (q : pt) (ring : list pt) : Prop := steps_ok (right_of q) ring.
(** What is assumed of the point-in-polygon test: it is right for convex polygons without holes. *)
Definition within_ok (within : pt -> polygon -> bool) : Prop :=
  forall q p, po_holes p = [] -> convex (obj (po_shape p)) -> (within q p = true <-> inside q (obj (po_shape p))).

(* ------------------------------------------------------------------ *)
(** * Any center line *)

(** Defined for every center line of two points or more; two border points per point of the center line, at the given
    distances from it; centered at its end. *)
Theorem C120_shape : forall huge l a b, arc_lengths_of (pts l) (ss l) -> (2 <= length (pts l))%nat ->
  exists p r1 r2 z, lane_goal_shape huge l (a, b) = Some p /\ last_opt (pts l) = Some z /\
    same_curve (r1 ++ rev r2) (obj (po_shape p)) /\ closed (obj (po_shape p)) /\ 0 <= calculate_area p /\ po_holes p = [] /\
    center (po_shape p) = (fst z, snd z, 0) /\
    length r1 = length (pts l) /\ length r2 = length (pts l) /\
    (forall i c q, nth_error (pts l) i = Some c -> nth_error r1 i = Some q -> dist c q = Rabs a) /\
    (forall i c q, nth_error (pts l) i = Some c -> nth_error r2 i = Some q -> dist c q = Rabs b).
Proof.
  intros huge l a b C L.
  destruct (C48_shifted_line l (- a) C L) as (m1 & E1 & L1 & _ & D1). destruct (C48_shifted_line l b C L) as (m2 & E2 & L2 & _ & D2).
  unfold lane_goal_shape. cbn [fst snd]. rewrite E1, E2.
  destruct (nth_some (pts l) (length (pts l) - 1)) as (z & Z); [lia|].
  assert (P : get_point_at_s l (line_length l) = Some z).
  { apply (C23_vertices l (length (pts l) - 1)); auto. rewrite cons_nth by (auto; lia). f_equal. rewrite S_last by lia.
    unfold line_length. clear. induction (pts l) as [|p [|q r] IH]; [reflexivity|reflexivity|]. cbn [polyline_length bg_length] in *. now rewrite IH. }
  rewrite P. exists (polygon_of_line huge (fst z, snd z, 0) (mkLO (append_linestring m1 (reverse m2)) (0, 0, 0))), (pts m1), (pts m2), z.
  rewrite C118_center_line. cbn [lo_line pts append_linestring of_points reverse polygon_of po_shape po_holes extents obj center].
  destruct (C111_constructed_ring (pts m1 ++ rev (pts m2))) as (SC & AR & CL & _ & _ & _).
  assert (LEN : (3 <= length (pts m1 ++ rev (pts m2)))%nat) by (rewrite app_length, rev_length; lia).
  split; [reflexivity|]. split; [exact Z|]. split; [exact SC|]. split; [exact (CL LEN)|]. split; [exact AR|].
  split; [reflexivity|]. split; [reflexivity|]. split; [exact L1|]. split; [exact L2|]. split; [|exact D2].
  intros i c q Hc Hq. rewrite (D1 i c q Hc Hq). apply Rabs_Ropp.
Qed.
Print Assumptions C120_shape.

(* ------------------------------------------------------------------ *)
(** * Straight center lines *)
(** The center line through the points at positions [ts] of a straight line. *)
Definition straight (p0 u : pt) (ts : list R) : line := of_points (map (fun t => frame p0 u t 0) ts).

Section Straight.
Variables (p0 u : pt) (t0 : R) (ts : list R).
Hypothesis unit_u : fst u * fst u + snd u * snd u = 1.
(** positions of the points along the line *)
Hypothesis increasing : steps_ok Rlt (t0 :: ts).
Hypothesis two : ts <> [].
Notation l := (straight p0 u (t0 :: ts)).

Lemma frame_dist s t d : s < t -> dist (frame p0 u s d) (frame p0 u t d) = t - s.
Proof.
  intros H. unfold dist, frame. cbn [fst snd]. match goal with |- sqrt ?e = _ => replace e with ((t - s) * (t - s) * (fst u * fst u + snd u * snd u)) by ring end.
  rewrite unit_u, Rmult_1_r. apply sqrt_square. lra.
Qed.
Lemma steps_nth : forall r i a b, steps_ok Rlt r -> nth_error r i = Some a -> nth_error r (S i) = Some b -> a < b.
Proof.
  induction r as [|x r IH]; intros i a b H A B; [destruct i; discriminate|]. destruct r as [|y r]; [destruct i as [|[|]]; discriminate|].
  destruct H as [H1 H2]. destruct i as [|i]; cbn in A, B; [injection A as <-; injection B as <-; exact H1|]. apply (IH i); auto.
Qed.
Lemma pts_l : pts l = map (fun t => frame p0 u t 0) (t0 :: ts).
Proof. reflexivity. Qed.
Lemma len_l : (2 <= length (pts l))%nat.
Proof. rewrite pts_l, map_length. clear - two. destruct ts; [easy|]. cbn. lia. Qed.
Lemma cons_l : arc_lengths_of (pts l) (ss l).
Proof. apply recompute_spec. Qed.
Lemma seg_dir i a : nth_seg (pts l) i = Some a -> cos a = fst u /\ sin a = snd u.
Proof.
  unfold nth_seg. rewrite pts_l, !nth_error_map. destruct (nth_error (t0 :: ts) i) as [s|] eqn:A; [|discriminate].
  destruct (nth_error (t0 :: ts) (S i)) as [t|] eqn:B; [|discriminate]. cbn [option_map]. intros E. injection E as <-.
  pose proof (steps_nth _ _ _ _ increasing A B) as LT. destruct (seg_angle_polar (frame p0 u s 0) (frame p0 u t 0)) as [X Y].
  rewrite frame_dist in X, Y by exact LT. unfold frame in X, Y. cbn [fst snd] in X, Y.
  set (c := cos _) in *. set (n := sin _) in *. split; apply (Rmult_eq_reg_l (t - s)); lra.
Qed.
Lemma tangent_dir s a : get_tangent_angle_at_s l s = Some a -> cos a = fst u /\ sin a = snd u.
Proof.
  unfold get_tangent_angle_at_s. destruct (last_opt (ss l)) as [b|]; [|discriminate].
  destruct (Rleb b s). { destruct (length (pts l)) as [|[|k]]; try discriminate. apply seg_dir. }
  destruct (Rleb s 0). { apply seg_dir. }
  destruct (segment_end_idx l s) as [|i]; [discriminate|]. destruct (at_vertex l s); [|apply seg_dir].
  destruct i as [|j]; [discriminate|].
  destruct (nth_error (pts l) j) as [q1|] eqn:A; [|discriminate]. destruct (nth_error (pts l) (S j)) as [q2|] eqn:B; [|discriminate].
  destruct (nth_error (pts l) (S (S j))) as [q3|] eqn:D; [|discriminate]. intros E. injection E as <-.
  destruct (seg_dir j (seg_angle q1 q2)) as [C1 S1]; [unfold nth_seg; now rewrite A, B|].
  destruct (seg_dir (S j) (seg_angle q2 q3)) as [C2 S2]; [unfold nth_seg; now rewrite B, D|].
  unfold mean_angle. rewrite C1, S1, C2, S2. replace (/ 2 * (snd u + snd u)) with (snd u) by lra. replace (/ 2 * (fst u + fst u)) with (fst u) by lra.
  destruct (atan2_polar (fst u) (snd u)) as [X Y]. rewrite unit_u, sqrt_1 in X, Y. lra.
Qed.
Lemma shifted sh : exists m, get_line_shifted_laterally l sh = Some m /\ pts m = map (fun t => frame p0 u t sh) (t0 :: ts).
Proof.
  destruct (C48_shifted_line l sh cons_l len_l) as (m & E & LN & _). exists m. split; [exact E|].
  destruct (shift_loop_pts _ _ _ _ _ E) as (ds & E1 & E2 & E3). cbn in E1. subst ds.
  apply nth_error_ext. intros i. destruct (le_lt_dec (length (pts l)) i) as [X|X].
  - rewrite (proj2 (nth_error_None _ _)) by (rewrite LN; exact X). symmetry. apply nth_error_None. rewrite map_length. rewrite pts_l, map_length in X. exact X.
  - destruct (nth_some (pts m) i) as (q & Q); [lia|]. rewrite Q. rewrite nth_error_map.
    destruct (E3 i (S_ (pts l) i) q (cons_nth l i cons_l X) Q) as (n & p' & En & Ep & ->).
    rewrite pts_l, map_length in X. destruct (nth_some (t0 :: ts) i X) as (t & T). rewrite T. cbn [option_map]. f_equal.
    assert (PT : nth_error (pts l) i = Some (frame p0 u t 0)) by (rewrite pts_l, nth_error_map, T; reflexivity).
    pose proof (C23_vertices l i _ _ cons_l len_l PT (cons_nth l i cons_l (nth_lt _ _ _ PT))) as V. assert (p' = frame p0 u t 0) as -> by congruence.
    unfold get_normal_at_s in En. destruct (get_tangent_angle_at_s l _) as [a|] eqn:TA; [|discriminate]. injection En as <-.
    apply tangent_dir in TA. destruct TA as [CA SA]. rewrite asin1, cos_plus, sin_plus, cos_PI2, sin_PI2, CA, SA.
    unfold padd, pscale, frame. cbn [fst snd]. apply pair_equal_spec. split; ring.
Qed.

(** Steps of lists *)
Lemma steps_map {A B} (f : A -> B) P : forall r, steps_ok P (map f r) <-> steps_ok (fun x y => P (f x) (f y)) r.
Proof. induction r as [|x r IH]; [reflexivity|]. destruct r as [|y r]; [reflexivity|]. cbn [map steps_ok] in *. now rewrite IH. Qed.
Lemma steps_join {A} (P : A -> A -> Prop) z y r : forall k, steps_ok P (k ++ z :: y :: r) <-> steps_ok P (k ++ [z]) /\ P z y /\ steps_ok P (y :: r).
Proof.
  induction k as [|x k IH]; [cbn; tauto|]. destruct k as [|x' k]; cbn [app steps_ok] in *; [tauto|]. rewrite IH. tauto.
Qed.
Lemma steps_rev {A} (P : A -> A -> Prop) : forall r, steps_ok P (rev r) <-> steps_ok (fun x y => P y x) r.
Proof.
  induction r as [|x r IH]; [reflexivity|]. destruct r as [|y r]; [reflexivity|].
  change (rev (x :: y :: r)) with ((rev r ++ [y]) ++ [x]). rewrite <- app_assoc. cbn [app]. rewrite steps_join.
  change (rev r ++ [y]) with (rev (y :: r)). rewrite IH. cbn [steps_ok]. tauto.
Qed.
Lemma steps_const (P : R -> R -> Prop) (Q : Prop) : (forall t t', t < t' -> (P t t' <-> Q)) ->
  forall r t, steps_ok Rlt (t :: r) -> r <> [] -> (steps_ok P (t :: r) <-> Q).
Proof.
  intros H. induction r as [|t' r IH]; intros t S0 N; [easy|]. destruct S0 as [S1 S2]. change (steps_ok P (t :: t' :: r)) with (P t t' /\ steps_ok P (t' :: r)).
  rewrite (H t t' S1). destruct r as [|t'' r]; [cbn; tauto|]. rewrite (IH t'); [tauto|exact S2|discriminate].
Qed.
Lemma last_cons {A} : forall (r : list A) x d, last (x :: r) d = last r x.
Proof. induction r as [|y r IH]; intros x d; [reflexivity|]. change (last (x :: y :: r) d) with (last (y :: r) d). now rewrite !IH. Qed.
Lemma steps_last : forall r t, steps_ok Rlt (t :: r) -> r <> [] -> t < last r t.
Proof.
  induction r as [|t' r IH]; intros t S0 N; [easy|]. destruct S0 as [S1 S2]. destruct r as [|t'' r]; [exact S1|].
  rewrite last_cons. assert (t' < last (t'' :: r) t') by (apply IH; [exact S2|discriminate]). lra.
Qed.
Lemma steps_range : forall r t x, steps_ok Rlt (t :: r) -> In x (t :: r) -> t <= x <= last r t.
Proof.
  induction r as [|t' r IH]; intros t x S0 I.
  - destruct I as [<-|[]]. cbn. lra.
  - destruct S0 as [S1 S2]. rewrite last_cons. destruct I as [<-|I]; [pose proof (IH t' t' S2 (or_introl eq_refl)); lra|]. pose proof (IH t' x S2 I). lra.
Qed.

Variables (a b : R).
Hypothesis wide : 0 < a + b.
Notation F := (frame p0 u).
Notation tn := (last ts t0).
Definition goal_ring : list pt := F t0 (- a) :: map (fun t => F t b) (t0 :: ts) ++ rev (map (fun t => F t (- a)) (t0 :: ts)).

Lemma cross_frame s d t e t' e' :
  (fst (F t' e') - fst (F t e)) * (snd (F s d) - snd (F t e)) - (snd (F t' e') - snd (F t e)) * (fst (F s d) - fst (F t e)) =
  (t' - t) * (d - e) - (e' - e) * (s - t).
Proof.
  unfold frame. cbn [fst snd]. transitivity (((t' - t) * (d - e) - (e' - e) * (s - t)) * (fst u * fst u + snd u * snd u)); [ring|]. rewrite unit_u. ring.
Qed.
Lemma last_split : exists k, t0 :: ts = k ++ [tn].
Proof. destruct (exists_last two) as (k & x & E). exists (t0 :: k). rewrite E. now rewrite last_last. Qed.
Lemma ring_steps (Z : R -> Prop) s d :
  steps_ok (fun x y : pt => Z ((fst y - fst x) * (snd (F s d) - snd x) - (snd y - snd x) * (fst (F s d) - fst x))) goal_ring <->
  Z (- (a + b) * (s - t0)) /\ steps_ok (fun t t' => Z ((t' - t) * (d - b))) (t0 :: ts) /\
  Z ((a + b) * (s - tn)) /\ steps_ok (fun t t' => Z ((t - t') * (d + a))) (t0 :: ts).
Proof.
  set (P := fun x y : pt => _). unfold goal_ring.
  change (F t0 (- a) :: map (fun t => F t b) (t0 :: ts) ++ ?r) with (F t0 (- a) :: F t0 b :: map (fun t => F t b) ts ++ r).
  change (steps_ok P (F t0 (- a) :: F t0 b :: ?r)) with (P (F t0 (- a)) (F t0 b) /\ steps_ok P (F t0 b :: r)).
  change (F t0 b :: map (fun t => F t b) ts ++ ?r) with (map (fun t => F t b) (t0 :: ts) ++ r).
  destruct last_split as (k & E). rewrite E at 1 2. rewrite !map_app, rev_app_distr. cbn [map rev app].
  rewrite <- app_assoc. cbn [app]. rewrite steps_join.
  change (map (fun t => F t b) k ++ [F tn b]) with (map (fun t => F t b) k ++ map (fun t => F t b) [tn]).
  change (F tn (- a) :: rev (map (fun t => F t (- a)) k)) with (rev [F tn (- a)] ++ rev (map (fun t => F t (- a)) k)). rewrite <- rev_app_distr.
  change [F tn (- a)] with (map (fun t => F t (- a)) [tn]). rewrite <- !map_app, <- E. rewrite steps_rev, !steps_map.
  unfold P. rewrite !cross_frame.
  assert (X1 : (t0 - t0) * (d - - a) - (b - - a) * (s - t0) = - (a + b) * (s - t0)) by ring.
  assert (X2 : (tn - tn) * (d - b) - (- a - b) * (s - tn) = (a + b) * (s - tn)) by ring. rewrite X1, X2.
  assert (X3 : steps_ok (fun x y => Z ((fst (F y b) - fst (F x b)) * (snd (F s d) - snd (F x b)) - (snd (F y b) - snd (F x b)) * (fst (F s d) - fst (F x b)))) (t0 :: ts) <->
    steps_ok (fun t t' => Z ((t' - t) * (d - b))) (t0 :: ts)).
  { generalize (t0 :: ts). clear - unit_u. induction l as [|x r IH]; [reflexivity|]. destruct r as [|y r]; [reflexivity|]. cbn [steps_ok] in *. rewrite IH, cross_frame.
    replace ((y - x) * (d - b) - (b - b) * (s - x)) with ((y - x) * (d - b)) by ring. reflexivity. }
  assert (X4 : steps_ok (fun y x => Z ((fst (F y (- a)) - fst (F x (- a))) * (snd (F s d) - snd (F x (- a))) - (snd (F y (- a)) - snd (F x (- a))) * (fst (F s d) - fst (F x (- a))))) (t0 :: ts) <->
    steps_ok (fun t t' => Z ((t - t') * (d + a))) (t0 :: ts)).
  { generalize (t0 :: ts). clear - unit_u. induction l as [|x r IH]; [reflexivity|]. destruct r as [|y r]; [reflexivity|]. cbn [steps_ok] in *. rewrite IH, cross_frame.
    replace ((x - y) * (d - - a) - (- a - - a) * (s - y)) with ((x - y) * (d + a)) by ring. reflexivity. }
  rewrite X3, X4. reflexivity.
Qed.
Lemma pre_area : shoelace (map (fun t => F t (- a)) (t0 :: ts) ++ rev (map (fun t => F t b) (t0 :: ts)) ++ [F t0 (- a)]) = (tn - t0) * (a + b).
Proof.
  set (prs := map (fun t => (F t (- a), F t b)) ts).
  assert (E1 : map (fun t => F t (- a)) (t0 :: ts) = map fst ((F t0 (- a), F t0 b) :: prs)) by (unfold prs; cbn [map fst]; rewrite map_map; reflexivity).
  assert (E2 : map (fun t => F t b) (t0 :: ts) = map snd ((F t0 (- a), F t0 b) :: prs)) by (unfold prs; cbn [map snd]; rewrite map_map; reflexivity).
  rewrite E1, E2, strip_sum. unfold prs. generalize t0. clear - unit_u. induction ts as [|t' r IH]; intros t.
  - cbn. lra.
  - transitivity (shoelace [F t (- a); F t' (- a); F t' b; F t b; F t (- a)] + (last r t' - t') * (a + b)); [rewrite <- (IH t'); reflexivity|]. rewrite last_cons.
    assert (X : shoelace [F t (- a); F t' (- a); F t' b; F t b; F t (- a)] = (t' - t) * (a + b)).
    { transitivity ((t' - t) * (a + b) * (fst u * fst u + snd u * snd u)); [|rewrite unit_u; ring]. unfold frame. cbn [shoelace fst snd]. field. }
    rewrite X. ring.
Qed.
Lemma len4 {A} (x y : list A) z : (2 <= length x)%nat -> (2 <= length y)%nat -> (4 <= length (x ++ rev y ++ [z]))%nat.
Proof. clear. intros. rewrite !app_length, rev_length. cbn. lia. Qed.
Lemma tn_gt : t0 < tn.
Proof. apply steps_last; assumption. Qed.
Lemma goal_closed : closed goal_ring.
Proof. exists (F t0 (- a)), (map (fun t => F t b) (t0 :: ts) ++ rev (map (fun t => F t (- a)) ts)). unfold goal_ring. cbn [map rev]. now rewrite <- app_assoc. Qed.
Lemma ring_is : correct_ring (map (fun t => F t (- a)) (t0 :: ts) ++ rev (map (fun t => F t b) (t0 :: ts))) = goal_ring /\ ring_area goal_ring = (tn - t0) * (a + b).
Proof.
  set (X := map (fun t => F t (- a)) (t0 :: ts)). set (Y := map (fun t => F t b) (t0 :: ts)).
  assert (NE : F t0 (- a) <> F t0 b).
  { intros E. pose proof (f_equal fst E) as E1. pose proof (f_equal snd E) as E2. unfold frame in E1, E2. cbn [fst snd] in E1, E2. assert ((a + b) * snd u = 0) by lra. assert ((a + b) * fst u = 0) by lra.
    pose proof unit_u. assert ((a + b) * (fst u * fst u + snd u * snd u) = 0) by nra. rewrite unit_u in *. lra. }
  assert (LX : (2 <= length X)%nat) by (unfold X; rewrite map_length; clear - two; destruct ts; [easy|cbn; lia]).
  assert (LY : (2 <= length Y)%nat) by (unfold Y; rewrite map_length; clear - two; destruct ts; [easy|cbn; lia]).
  assert (CR : close_ring (X ++ rev Y) = X ++ rev Y ++ [F t0 (- a)]).
  { unfold close_ring. destruct (Nat.leb_spec (length (X ++ rev Y)) 2) as [W|W]; [rewrite app_length, rev_length in W; lia|].
    change (X ++ rev Y) with (F t0 (- a) :: (map (fun t => F t (- a)) ts ++ rev Y)) at 1. cbv iota beta.
    destruct (pt_eq_dec (F t0 (- a)) (last (X ++ rev Y) (F t0 (- a)))) as [E|_]; [|now rewrite <- app_assoc].
    exfalso. apply NE. rewrite E. unfold Y. cbn [map rev]. rewrite app_assoc. apply last_last. }
  assert (CL : closed (X ++ rev Y ++ [F t0 (- a)])) by (exists (F t0 (- a)), (map (fun t => F t (- a)) ts ++ rev Y); unfold X; cbn [map app]; now rewrite <- app_assoc).
  assert (AR : ring_area (X ++ rev Y ++ [F t0 (- a)]) = - ((tn - t0) * (a + b))).
  { rewrite C111_area_is_shoelace; [|exact (len4 X Y _ LX LY)|exact CL]. f_equal. apply pre_area. }
  assert (RV : rev (X ++ rev Y ++ [F t0 (- a)]) = goal_ring).
  { rewrite !rev_app_distr, rev_involutive. reflexivity. }
  pose proof tn_gt as TG. assert (0 < (tn - t0) * (a + b)) by (apply Rmult_lt_0_compat; lra).
  split.
  - unfold correct_ring. rewrite CR. unfold orient. rewrite AR. destruct (Rltb_spec (- ((tn - t0) * (a + b))) 0); [exact RV|lra].
  - rewrite <- RV, area_rev, AR. ring.
Qed.
Lemma goal_inside s d : inside (F s d) goal_ring <-> t0 < s < tn /\ - a < d < b.
Proof.
  unfold inside, right_of. rewrite (ring_steps (fun z => z < 0) s d).
  rewrite (steps_const (fun t t' => (t' - t) * (d - b) < 0) (d < b)); [|clear; intros t t' L; split; nra|exact increasing|exact two].
  rewrite (steps_const (fun t t' => (t - t') * (d + a) < 0) (- a < d)); [|clear; intros t t' L; split; nra|exact increasing|exact two].
  split.
  - intros (A & B & C & D). split; split; try assumption; nra.
  - intros ((A & B) & C & D). repeat split; try assumption; nra.
Qed.
Lemma goal_weak s d : t0 <= s <= tn -> - a <= d <= b -> steps_ok (not_left_of (F s d)) goal_ring.
Proof.
  intros S0 D0. unfold not_left_of. rewrite (ring_steps (fun z => z <= 0) s d). split; [nra|].
  split; [apply (steps_const _ True); [|exact increasing|exact two|exact I]; intros; split; [trivial|intros _; nra]|].
  split; [nra|]. apply (steps_const _ True); [|exact increasing|exact two|exact I]; intros; split; [trivial|intros _; nra].
Qed.
Lemma goal_convex : convex goal_ring.
Proof.
  destruct ring_is as [_ AR]. pose proof tn_gt. split; [exact goal_closed|]. split; [rewrite AR; apply Rmult_lt_0_compat; lra|].
  intros q I. assert (W : exists s d, q = F s d /\ In s (t0 :: ts) /\ (d = - a \/ d = b)).
  { unfold goal_ring in I. destruct I as [<-|I]; [exists t0, (- a); repeat split; auto; now left|]. apply in_app_or in I. destruct I as [I|I].
    - apply in_map_iff in I. destruct I as (s & <- & I). exists s, b. auto.
    - apply in_rev in I. apply in_map_iff in I. destruct I as (s & <- & I). exists s, (- a). auto. }
  destruct W as (s & d & -> & I1 & D). apply goal_weak; [apply (steps_range ts t0 s increasing I1)|]. destruct D as [-> | ->]; lra.
Qed.
Lemma shape_is huge : exists p, lane_goal_shape huge l (a, b) = Some p /\ obj (po_shape p) = goal_ring /\ po_holes p = [] /\ calculate_area p = (tn - t0) * (a + b) /\
  center (po_shape p) = (fst (F tn 0), snd (F tn 0), 0).
Proof.
  destruct (C120_shape huge l a b cons_l len_l) as (p & _ & _ & z & E & Z & _ & _ & _ & HO & CE & _). exists p. split; [exact E|].
  assert (OB : obj (po_shape p) = goal_ring).
  { destruct (shifted (- a)) as (m1 & E1 & P1). destruct (shifted b) as (m2 & E2 & P2). unfold lane_goal_shape in E. cbn [fst snd] in E. rewrite E1, E2 in E.
    destruct (get_point_at_s l (line_length l)); [|discriminate]. injection E as <-. rewrite C118_center_line.
    cbn [lo_line pts append_linestring of_points reverse polygon_of po_shape po_holes extents obj center]. rewrite P1, P2. apply ring_is. }
  split; [exact OB|]. split; [exact HO|]. split; [unfold calculate_area; rewrite HO, OB; cbn [map fold_right]; apply ring_is|].
  rewrite CE. f_equal. assert (z = F tn 0) as -> ; [|reflexivity].
  rewrite pts_l in Z. destruct last_split as (k & K). rewrite K, map_app in Z. cbn [map] in Z.
  assert (LO : forall (r : list pt) x, last_opt (r ++ [x]) = Some x). { clear. intros r x. unfold last_opt. rewrite nth_error_app2; rewrite app_length; cbn [length]; [|lia]. replace (length r + 1 - 1 - length r)%nat with 0%nat by lia. reflexivity. }
  rewrite LO in Z. now injection Z as <-.
Qed.
End Straight.

(** Along a straight center line: the rectangle from its first to its last point, [a] metres to the right and [b]
    metres to the left of it - the first allowance is that to the right, the second that to the left. *)
Theorem C120_straight : forall huge p0 u t0 ts a b, fst u * fst u + snd u * snd u = 1 -> steps_ok Rlt (t0 :: ts) -> ts <> [] -> 0 < a + b ->
  exists p, lane_goal_shape huge (straight p0 u (t0 :: ts)) (a, b) = Some p /\ po_holes p = [] /\ convex (obj (po_shape p)) /\
    calculate_area p = (last ts t0 - t0) * (a + b) /\
    center (po_shape p) = (fst (frame p0 u (last ts t0) 0), snd (frame p0 u (last ts t0) 0), 0) /\
    forall s d, inside (frame p0 u s d) (obj (po_shape p)) <-> t0 < s < last ts t0 /\ - a < d < b.
Proof.
  intros huge p0 u t0 ts a b U I T W. destruct (shape_is p0 u t0 ts U I T a b W huge) as (p & E & O & H & A & C).
  exists p. split; [exact E|]. split; [exact H|]. rewrite O. split; [now apply goal_convex|]. split; [exact A|]. split; [exact C|].
  intros s d. now apply goal_inside.
Qed.
Print Assumptions C120_straight.

Lemma same_dir_trig x y : same_direction PI x y <-> cos x = cos y /\ sin x = sin y.
Proof.
  split.
  - intros (k & ->). split; [apply cos_Zperiod|apply sin_Zperiod].
  - intros (C & N). destruct (sad_facts y x) as (RA & CD & SD & (k & K)).
    assert (C1 : cos (sad y x) = 1) by (rewrite CD, cos_minus, <- C, <- N; pose proof (sin2_cos2 x) as P; unfold Rsqr in P; lra).
    assert (S1 : sin (sad y x) = 0) by (rewrite SD, sin_minus, <- C, <- N; ring).
    destruct (sin_sign (sad y x) RA) as [A B].
    assert (Z : sad y x = 0).
    { destruct (Rtotal_order (sad y x) 0) as [L|[E|G]]; [|exact E|apply A in G; lra].
      destruct (Req_dec (sad y x) (- PI)) as [E|NE]; [rewrite E, cos_neg, cos_PI in C1; lra|].
      assert (X : sin (sad y x) < 0) by (apply B; lra). lra. }
    exists k. rewrite Z in K. lra.
Qed.

(** When the goal is reached, on a straight lane: the speed is in its range, the agent is strictly inside the
    rectangle, and a turn by at most [right] to the right or [left] to the left would align it with the lane. *)
Theorem C120_at_goal : forall (within : pt -> polygon -> bool) huge p0 u t0 ts a b left right vmin vmax shape obs s d,
  within_ok within -> fst u * fst u + snd u * snd u = 1 -> steps_ok Rlt (t0 :: ts) -> ts <> [] -> 0 < a + b ->
  0 <= left < PI -> 0 <= right <= PI ->
  lane_goal_shape huge (straight p0 u (t0 :: ts)) (a, b) = Some shape ->
  o_x obs = fst (frame p0 u s d) -> o_y obs = snd (frame p0 u s d) ->
  (at_goal_frenet within tangent_at_nearest PI exact shape (straight p0 u (t0 :: ts)) (left, right) (vmin, vmax) obs = true <->
   vmin <= o_vel obs <= vmax /\ t0 < s < last ts t0 /\ - a < d < b /\
   exists r, - right <= r <= left /\ cos (o_theta obs + r) = fst u /\ sin (o_theta obs + r) = snd u).
Proof.
  intros within huge p0 u t0 ts a b left right vmin vmax shape obs s d WO U I T W HL HR E OX OY.
  rewrite C30_lane_goal_region; [|exact PI_RGT_0|exact HL|exact HR].
  destruct (C120_straight huge p0 u t0 ts a b U I T W) as (p & E' & HO & CV & _ & _ & INS).
  assert (p = shape) as -> by congruence.
  assert (PO : (o_x obs, o_y obs) = frame p0 u s d) by (rewrite OX, OY; symmetry; apply surjective_pairing). rewrite PO.
  assert (WI : within (frame p0 u s d) shape = true <-> t0 < s < last ts t0 /\ - a < d < b).
  { rewrite (WO _ _ HO CV). apply INS. }
  assert (TA : cos (tangent_at_nearest (straight p0 u (t0 :: ts)) (frame p0 u s d)) = fst u /\ sin (tangent_at_nearest (straight p0 u (t0 :: ts)) (frame p0 u s d)) = snd u).
  { destruct ts as [|t1 r]; [easy|].
    assert (NE : frame p0 u t0 0 <> frame p0 u t1 0).
    { intros X. destruct I as [LT _]. pose proof (frame_dist p0 u U t0 t1 0 LT) as D. rewrite X, dist_refl in D. lra. }
    destruct (C24_nearest_point (straight p0 u (t0 :: t1 :: r)) (frame p0 u s d) (frame p0 u t0 0) (frame p0 u t1 0) (map (fun t => frame p0 u t 0) r) (cons_l p0 u t0 (t1 :: r)) eq_refl NE)
      as (Q & s' & i & t & EN & _).
    destruct (tangent_defined (straight p0 u (t0 :: t1 :: r)) s' (cons_l p0 u t0 (t1 :: r)) (len_l p0 u t0 (t1 :: r) T)) as (z & EZ).
    unfold tangent_at_nearest. rewrite EN, EZ. exact (tangent_dir p0 u t0 (t1 :: r) U I s' z EZ). }
  destruct TA as [TC TS]. rewrite WI.
  assert (RO : forall r, rotates PI (o_theta obs) r (tangent_at_nearest (straight p0 u (t0 :: ts)) (frame p0 u s d)) <->
    cos (o_theta obs + r) = fst u /\ sin (o_theta obs + r) = snd u).
  { intros r. unfold rotates. rewrite same_dir_trig, TC, TS. reflexivity. }
  split.
  - intros (A & (B & C) & r & RR & RT). split; [exact A|]. split; [exact B|]. split; [exact C|]. exists r. split; [exact RR|]. now apply RO.
  - intros (A & B & C & r & RR & RT). split; [exact A|]. split; [split; assumption|]. exists r. split; [exact RR|]. now apply RO.
Qed.
Print Assumptions C120_at_goal.

(** A test that is right for convex polygons. *)
Example C120_within_ok : exists within, within_ok within.
Proof.
  assert (D : forall q ring, {inside q ring} + {~ inside q ring}).
  { intros q. unfold inside. induction ring as [|x [|y r] IH]; [left; exact Logic.I|left; exact Logic.I|].
    destruct IH as [IH|IH]; [|right; intros [_ H]; exact (IH H)].
    destruct (Rlt_dec ((fst y - fst x) * (snd q - snd x) - (snd y - snd x) * (fst q - fst x)) 0) as [L|L]; [left; split; assumption|right; intros [H _]; exact (L H)]. }
  exists (fun q p => if D q (obj (po_shape p)) then true else false). intros q p _ _. destruct (D q (obj (po_shape p))); split; auto; discriminate.
Qed.

(** A 10 m lane towards the east with 1 m allowed to the right and 2 m to the left: 1.5 m to the left is in the goal,
    1.5 m to the right is not. *)
Example C120_nonvacuous : forall within huge, within_ok within -> exists shape,
  lane_goal_shape huge (straight (0, 0) (1, 0) [0; 4; 10]) (1, 2) = Some shape /\ calculate_area shape = 30 /\
  at_goal_frenet within tangent_at_nearest PI exact shape (straight (0, 0) (1, 0) [0; 4; 10]) (1, 1) (5, 6) {| o_x := 3; o_y := 3 / 2; o_theta := 1; o_vel := 5 |} = true /\
  at_goal_frenet within tangent_at_nearest PI exact shape (straight (0, 0) (1, 0) [0; 4; 10]) (1, 1) (5, 6) {| o_x := 3; o_y := - (3 / 2); o_theta := 1; o_vel := 5 |} = false.
Proof.
  intros within huge WO. pose proof PI_RGT_0. assert (1 < PI) by (pose proof PI2_3_2; lra).
  assert (I : steps_ok Rlt [0; 4; 10]) by (cbn; lra).
  destruct (C120_straight huge (0, 0) (1, 0) 0 [4; 10] 1 2) as (p & E & _ & _ & A & _); [cbn; lra|exact I|discriminate|lra|].
  exists p. split; [exact E|]. split; [rewrite A; cbn; lra|]. split.
  - apply (C120_at_goal within huge (0, 0) (1, 0) 0 [4; 10] 1 2 1 1 5 6 p _ 3 (3/2) WO); try assumption; cbn [fst snd frame o_x o_y o_theta o_vel last]; try lra; try discriminate.
    split; [lra|]. split; [lra|]. split; [lra|]. exists (-1). split; [lra|]. replace (1 + -1) with 0 by lra. rewrite cos_0, sin_0. lra.
  - apply not_true_iff_false. intros X.
    apply (C120_at_goal within huge (0, 0) (1, 0) 0 [4; 10] 1 2 1 1 5 6 p _ 3 (- (3/2)) WO) in X; try assumption; cbn [fst snd frame o_x o_y o_theta o_vel last] in *; try lra; try discriminate.
Qed.
