(** C111: points, lines and polygons that go through pickle. *)
From Coq Require Import Reals List Bool Lra Lia Psatz.
From Verif Require Import Base_Real Base_Geom Model_Line Spec_Line Proof_Line Props_Line Model_Shape Spec_Shape Props_Shape Model_GeomPickle.
Import ListNotations.
Local Open Scope R_scope.

(* ------------------------------------------------------------------ *)
(** * Specification *)

(** Signed area by the shoelace formula: positive for counter-clockwise closed polygons. *)
Fixpoint shoelace (l : list pt) : R :=
  match l with
  | p :: (q :: _) as r => (fst p * snd q - fst q * snd p) / 2 + shoelace r
  | _ => 0
  end.
(** The ring returns to its start. *)
Definition closed (l : list pt) : Prop := exists p m, l = p :: m ++ [p].
(** Same closed curve, perhaps run through the other way or with the last edge written out. *)
Definition same_curve (l m : list pt) : Prop :=
  m = l \/ m = rev l \/ exists p r, l = p :: r /\ (m = l ++ [p] \/ m = rev (l ++ [p])).

(* ------------------------------------------------------------------ *)
(** * Points and lines *)

Theorem C111_point : forall p, unpickle_point (pickle_point p) = p.
Proof. intros [x y]. reflexivity. Qed.
Print Assumptions C111_point.

Lemma add_all : forall rows (l : line_obj), ss (lo_line l) = recompute (pts (lo_line l)) ->
  fold_left lo_add rows l = mkLO (of_points (pts (lo_line l) ++ rows)) (lo_center l).
Proof.
  induction rows as [|p rows IH]; intros [[ps s] c] H; cbn in *.
  - rewrite app_nil_r. unfold of_points. now rewrite <- H.
  - rewrite IH by reflexivity. cbn. now rewrite <- app_assoc.
Qed.
Lemma line_trip l : unpickle_line (pickle_line l) = mkLO (of_points (pts (lo_line l))) (0, 0, 0).
Proof. unfold unpickle_line, pickle_line, new_line. rewrite add_all by reflexivity. reflexivity. Qed.

(** A line keeps its points, has the arc lengths of its points and the center of a new line; so it is
    unchanged exactly if its arc lengths were right and its center is the origin. *)
Theorem C111_line : forall l, let l' := unpickle_line (pickle_line l) in
  pts (lo_line l') = pts (lo_line l) /\ arc_lengths_of (pts (lo_line l')) (ss (lo_line l')) /\ lo_center l' = (0, 0, 0) /\
  (l' = l <-> arc_lengths_of (pts (lo_line l)) (ss (lo_line l)) /\ lo_center l = (0, 0, 0)) /\
  (arc_lengths_of (pts (lo_line l)) (ss (lo_line l)) -> lo_line l' = lo_line l) /\
  unpickle_line (pickle_line l') = l'.
Proof.
  intros l l'. unfold l'. rewrite !line_trip. cbn. split; [reflexivity|]. split; [apply recompute_spec|]. split; [reflexivity|].
  split; [|split; [|reflexivity]].
  - split.
    + intros <-. cbn. split; [apply recompute_spec|reflexivity].
    + intros [A C]. apply arc_lengths_unique in A. destruct l as [[ps s] c]. cbn in *. subst. reflexivity.
  - intros A. apply arc_lengths_unique in A. destruct l as [[ps s] c]. cbn in *. subst. reflexivity.
Qed.
Print Assumptions C111_line.

(** Turning or moving the line afterwards happens about the origin instead of its center. *)
Theorem C111_line_transform_after : forall l p,
  pts (lo_line (lo_transform l p)) = map (rigid (cpt (lo_center l)) (pth p) (cpt p)) (pts (lo_line l)) /\
  pts (lo_line (lo_transform (unpickle_line (pickle_line l)) p)) = map (rigid (0, 0) (pth p) (cpt p)) (pts (lo_line l)).
Proof.
  intros l p. rewrite line_trip. unfold lo_transform. cbn [lo_line pts]. split; apply C27_transform_is_rigid.
Qed.
Print Assumptions C111_line_transform_after.
(** Transforming a line, in general: its arc lengths stay and its center moves with it; transforming twice is transforming by
    the sum, also of the center. *)
Theorem C111_line_transform_moves : forall l p q,
  ss (lo_line (lo_transform l p)) = ss (lo_line l) /\
  lo_center (lo_transform l p) = (px (lo_center l) + px p, py (lo_center l) + py p, pth (lo_center l) + pth p) /\
  lo_transform (lo_transform l p) q = lo_transform l (px p + px q, py p + py q, pth p + pth q).
Proof.
  intros [[P A] [[cx cy] ct]] p q. repeat split.
  destruct (C27_group (mkShape P (cx, cy, ct) 0 0 0 0)) as (_ & K & _). specialize (K p q).
  unfold lo_transform at 1 3. cbn [lo_line lo_center pts ss].
  assert (E : mkShape (pts (lo_line (lo_transform (mkLO (mkLine P A) (cx, cy, ct)) p))) (lo_center (lo_transform (mkLO (mkLine P A) (cx, cy, ct)) p)) 0 0 0 0
    = transform (mkShape P (cx, cy, ct) 0 0 0 0) p) by reflexivity.
  rewrite E, K. reflexivity.
Qed.
Print Assumptions C111_line_transform_moves.
(** Transforming a polygon moves its outer ring, its holes and its center together, and keeps the distances between the outer
    ring and the holes. *)
Theorem C111_polygon_transform_moves : forall p q,
  let f := rigid (cpt (center (po_shape p))) (pth q) (cpt q) in
  obj (po_shape (po_transform p q)) = map f (obj (po_shape p)) /\
  po_holes (po_transform p q) = map (map f) (po_holes p) /\
  center (po_shape (po_transform p q)) = (px (center (po_shape p)) + px q, py (center (po_shape p)) + py q, pth (center (po_shape p)) + pth q) /\
  (forall a b, dist (f a) (f b) = dist a b).
Proof.
  intros p q f. split; [apply C27_transform_is_rigid|]. split; [|split; [apply C27_transform_is_rigid|]].
  - unfold po_transform. cbn [po_holes]. apply map_ext. intros h. apply C27_transform_is_rigid.
  - intros a b. exact (proj1 (C27_rigid_preserves _ _ _ a b a)).
Qed.
Print Assumptions C111_polygon_transform_moves.
Theorem C111_line_center_refuted : exists l p,
  arc_lengths_of (pts (lo_line l)) (ss (lo_line l)) /\
  pts (lo_line (lo_transform (unpickle_line (pickle_line l)) p)) <> pts (lo_line (lo_transform l p)).
Proof.
  exists (mkLO (of_points [(1, 0); (2, 0)]) (1, 0, 0)), (0, 0, PI). split; [apply recompute_spec|].
  destruct (C111_line_transform_after (mkLO (of_points [(1, 0); (2, 0)]) (1, 0, 0)) (0, 0, PI)) as [E1 E2]. rewrite E1, E2.
  cbn. unfold rigid, cpt. cbn. rewrite cos_PI, sin_PI. intros H. injection H. intros. lra.
Qed.
Print Assumptions C111_line_center_refuted.

(** A line reversed in place is another line after pickling: its arc lengths are repaired. *)
Theorem C111_reversed_line_refuted : exists l s a b,
  arc_lengths_of (pts (lo_line l)) (ss (lo_line l)) /\
  get_point_at_s (lo_line (lo_reverse l)) s = Some a /\
  get_point_at_s (lo_line (unpickle_line (pickle_line (lo_reverse l)))) s = Some b /\ a <> b.
Proof.
  exists (mkLO (of_points [(0, 0); (1, 0); (3, 0)]) (0, 0, 0)), 1, (1, 0), (2, 0).
  assert (D : forall a b, dist (a, 0) (b, 0) = Rabs (a - b)) by (intros; apply dist_h).
  split; [apply recompute_spec|]. rewrite line_trip. unfold lo_reverse, reverse. cbn [lo_line pts ss rev app of_points recompute rs_loop].
  rewrite !D. replace (Rabs (0 - 0)) with 0 by (rewrite Rminus_0_r, Rabs_R0; reflexivity).
  replace (Rabs (3 - 3)) with 0 by (rewrite Rminus_diag_eq, Rabs_R0; reflexivity).
  replace (Rabs (1 - 0)) with 1 by (rewrite Rabs_pos_eq; lra). replace (Rabs (3 - 1)) with 2 by (rewrite Rabs_pos_eq; lra).
  replace (Rabs (1 - 3)) with 2 by (rewrite Rabs_left; lra). replace (Rabs (0 - 1)) with 1 by (rewrite Rabs_left; lra).
  assert (T : forall a b, a < b -> Rltb a b = true) by (intros a b ?; destruct (Rltb_spec a b); lra || reflexivity).
  assert (F : forall a b, b <= a -> Rltb a b = false) by (intros a b ?; destruct (Rltb_spec a b); lra || reflexivity).
  assert (LF : forall a b, b < a -> Rleb a b = false) by (intros a b ?; destruct (Rleb_spec a b); lra || reflexivity).
  assert (EF : forall a b, a <> b -> Reqb a b = false) by (intros a b ?; destruct (Reqb_spec a b); tauto || reflexivity).
  assert (PP : forall a b c d : R, a = c -> b = d -> @Some pt (a, b) = @Some (R * R) (c, d)) by (intros; subst; reflexivity).
  repeat split.
  - unfold get_point_at_s, segment_end_idx. cbn. rewrite (LF 1 0) by lra. rewrite (LF (0 + 0 + 1 + 2) 1) by lra.
    rewrite (F 1 (0 + 0)) by lra. rewrite (F 1 (0 + 0 + 1)) by lra. rewrite (T 1 (0 + 0 + 1 + 2)) by lra. cbn.
    rewrite EF by lra. apply PP; field.
  - unfold get_point_at_s, segment_end_idx. cbn. rewrite (LF 1 0) by lra. rewrite !D.
    replace (Rabs (3 - 3)) with 0 by (rewrite Rminus_diag_eq, Rabs_R0; reflexivity).
    replace (Rabs (1 - 3)) with 2 by (rewrite Rabs_left; lra). replace (Rabs (0 - 1)) with 1 by (rewrite Rabs_left; lra).
    rewrite (LF (0 + 0 + 2 + 1) 1) by lra.
    rewrite (F 1 (0 + 0)) by lra. rewrite (T 1 (0 + 0 + 2)) by lra. cbn.
    rewrite EF by lra. apply PP; field.
  - intros H. injection H. lra.
Qed.
Print Assumptions C111_reversed_line_refuted.

(** A line made from an array has a center nobody set: it differs between two runs, and the unpickled copy
    moves as if made by adding the points. *)
Theorem C111_line_of_array : forall junk rows,
  lo_center (line_of_array junk rows) = junk /\
  unpickle_line (pickle_line (line_of_array junk rows)) = fold_left lo_add rows new_line.
Proof. intros. split; reflexivity. Qed.
Print Assumptions C111_line_of_array.

(* ------------------------------------------------------------------ *)
(** * Rings *)

Definition turn (p q : pt) : R := (fst p + fst q) * (snd p - snd q).
Lemma seg_cons p q r : seg_sum (p :: q :: r) = turn p q + seg_sum (q :: r).
Proof. reflexivity. Qed.
Lemma seg_split x : forall l r, seg_sum (l ++ x :: r) = seg_sum (l ++ [x]) + seg_sum (x :: r).
Proof.
  induction l as [|p l IH]; intros r; [cbn [app]; change (seg_sum [x]) with 0; lra|].
  destruct l as [|q l]; cbn [app] in *.
  - rewrite !seg_cons. change (seg_sum [x]) with 0. lra.
  - rewrite !seg_cons, IH. lra.
Qed.
Lemma seg_rev : forall l, seg_sum (rev l) = - seg_sum l.
Proof.
  induction l as [|p l IH]; [cbn; lra|]. destruct l as [|q l]; [cbn; lra|].
  change (rev (p :: q :: l)) with (rev (q :: l) ++ [p]). change (rev (q :: l)) with (rev l ++ [q]) in *.
  rewrite <- app_assoc. cbn [app]. rewrite seg_split, IH, !seg_cons. change (seg_sum [p]) with 0. unfold turn. lra.
Qed.
Lemma area_rev l : ring_area (rev l) = - ring_area l.
Proof. unfold ring_area. rewrite rev_length, seg_rev. destruct (Nat.ltb _ _); lra. Qed.
Lemma closed_rev l : closed l -> closed (rev l).
Proof. intros (p & m & ->). exists p, (rev m). cbn. rewrite rev_app_distr. reflexivity. Qed.
Lemma closed_last (p : pt) r : closed (p :: r) <-> r <> [] /\ last (p :: r) p = p.
Proof.
  split.
  - intros (q & m & E). injection E as -> ->. split; [now destruct m|]. change (q :: m ++ [q]) with ((q :: m) ++ [q]). apply last_last.
  - intros [N L]. destruct (exists_last N) as (m & x & ->). change (p :: m ++ [x]) with ((p :: m) ++ [x]) in L. rewrite last_last in L. subst x. now exists p, m.
Qed.

(** The area boost uses to tell the orientation is the shoelace area, positive for clockwise. *)
Lemma seg_shoelace : forall l (p : pt) d, seg_sum (p :: l) / 2 =
  - shoelace (p :: l) + (fst p * snd p - fst (last (p :: l) d) * snd (last (p :: l) d)) / 2.
Proof.
  induction l as [|q l IH]; intros p d; [cbn; lra|]. rewrite seg_cons.
  change (shoelace (p :: q :: l)) with ((fst p * snd q - fst q * snd p) / 2 + shoelace (q :: l)).
  change (last (p :: q :: l) d) with (last (q :: l) d). specialize (IH q d). unfold turn. lra.
Qed.
Theorem C111_area_is_shoelace : forall l, (4 <= length l)%nat -> closed l -> ring_area l = - shoelace l.
Proof.
  intros l L (p & m & ->). unfold ring_area. destruct (Nat.ltb_spec (length (p :: m ++ [p])) 4); [lia|].
  rewrite (seg_shoelace _ _ p). change (p :: m ++ [p]) with ((p :: m) ++ [p]) at 2 3. rewrite last_last. lra.
Qed.
Print Assumptions C111_area_is_shoelace.

Lemma close_closed l : (3 <= length l)%nat -> closed (close_ring l).
Proof.
  intros L. unfold close_ring. destruct (Nat.leb_spec (length l) 2); [lia|]. destruct l as [|p r]; [cbn in L; lia|].
  destruct (pt_eq_dec p (last (p :: r) p)) as [E|_].
  - apply closed_last. split; [destruct r; [cbn in L; lia|discriminate]|now symmetry].
  - exists p, r. reflexivity.
Qed.
Lemma close_of_closed l : closed l -> close_ring l = l.
Proof.
  intros C. unfold close_ring. destruct (Nat.leb_spec (length l) 2); [reflexivity|]. destruct l as [|p r]; [reflexivity|].
  apply closed_last in C. destruct C as [_ C]. destruct (pt_eq_dec p (last (p :: r) p)) as [_|N]; [reflexivity|]. now rewrite C in N.
Qed.
Lemma close_short l : (length l <= 2)%nat -> close_ring l = l.
Proof. intros L. unfold close_ring. destruct (Nat.leb_spec (length l) 2); [reflexivity|lia]. Qed.
Lemma close_length l : (length l <= length (close_ring l) <= S (length l))%nat.
Proof.
  unfold close_ring. destruct (Nat.leb_spec (length l) 2); [lia|]. destruct l as [|p r]; [cbn; lia|].
  destruct (pt_eq_dec p (last (p :: r) p)); [lia|]. rewrite app_length. cbn. lia.
Qed.
Lemma orient_ok l : 0 <= ring_area l -> orient l = l.
Proof. unfold orient. intros H. destruct (Rltb_spec (ring_area l) 0); [lra|reflexivity]. Qed.
Lemma orient_area l : 0 <= ring_area (orient l).
Proof. unfold orient. destruct (Rltb_spec (ring_area l) 0); [rewrite area_rev; lra|lra]. Qed.
Lemma orient_closed l : closed l -> closed (orient l).
Proof. unfold orient. destruct (Rltb _ _); auto using closed_rev. Qed.
Lemma orient_length l : length (orient l) = length l.
Proof. unfold orient. destruct (Rltb _ _); [apply rev_length|reflexivity]. Qed.

(** What the constructor makes of a ring: closed and clockwise if it has three points or more, and the same
    curve. *)
Theorem C111_constructed_ring : forall l,
  same_curve l (correct_ring l) /\ 0 <= ring_area (correct_ring l) /\
  ((3 <= length l)%nat -> closed (correct_ring l)) /\
  (0 <= ring_area l -> (closed l \/ length l <= 2)%nat -> correct_ring l = l) /\
  Rabs (ring_area (correct_ring l)) = Rabs (ring_area (close_ring l)) /\
  (forall p, In p (correct_ring l) <-> In p l).
Proof.
  intros l. unfold correct_ring. split; [|split; [apply orient_area|split; [intros; apply orient_closed, close_closed; assumption|split; [|split]]]].
  - unfold orient, close_ring, same_curve. destruct (Nat.leb (length l) 2).
    + destruct (Rltb _ _); tauto.
    + destruct l as [|p r]; [destruct (Rltb _ _); tauto|]. destruct (pt_eq_dec p (last (p :: r) p)).
      * destruct (Rltb _ _); tauto.
      * right. right. exists p, r. split; [reflexivity|]. destruct (Rltb _ _); tauto.
  - intros A [C|C]; [rewrite close_of_closed|rewrite close_short]; auto using orient_ok.
  - unfold orient. destruct (Rltb _ _); [rewrite area_rev, Rabs_Ropp|]; reflexivity.
  - intros p. assert (E : forall m, In p (orient m) <-> In p m) by (intros m; unfold orient; destruct (Rltb _ _); [rewrite <- in_rev|]; reflexivity).
    rewrite E. unfold close_ring. destruct (Nat.leb _ _); [reflexivity|]. destruct l as [|q r]; [reflexivity|].
    destruct (pt_eq_dec q (last (q :: r) q)); [reflexivity|]. rewrite in_app_iff. cbn. tauto.
Qed.
Print Assumptions C111_constructed_ring.
Lemma correct_idem l : correct_ring (correct_ring l) = correct_ring l.
Proof.
  destruct (C111_constructed_ring l) as (_ & A & C & _). apply C111_constructed_ring; [exact A|].
  destruct (le_lt_dec 3 (length l)) as [L|L]; [left; auto|right]. unfold correct_ring. rewrite orient_length, close_short; lia.
Qed.

(** Rigid motions keep corrected rings corrected. *)
Lemma seg_rigid c a t : exists h : pt -> R, forall p q, turn (rigid c a t p) (rigid c a t q) = turn p q + h p - h q.
Proof.
  destruct c as [cx cy], t as [tx ty].
  set (bx := cx + tx - cx * cos a + cy * sin a). set (b_y := cy + ty - cx * sin a - cy * cos a).
  exists (fun p => (fst (rigid (cx, cy) a (tx, ty) p) * snd (rigid (cx, cy) a (tx, ty) p) - fst p * snd p) +
             (bx * (fst p * sin a + snd p * cos a) - b_y * (fst p * cos a - snd p * sin a))).
  intros [x y] [x' y']. unfold turn, rigid, bx, b_y. cbn [fst snd].
  pose proof (cs2 a) as E. set (C := cos a) in *. set (Sn := sin a) in *. clearbody C Sn.
  assert (K : (x * y' - x' * y) * (C * C + Sn * Sn) = x * y' - x' * y) by (rewrite E; ring). nra.
Qed.
Lemma seg_map (f : pt -> pt) (h : pt -> R) : (forall p q, turn (f p) (f q) = turn p q + h p - h q) ->
  forall l p d, seg_sum (map f (p :: l)) = seg_sum (p :: l) + h p - h (last (p :: l) d).
Proof.
  intros H. induction l as [|q l IH]; intros p d; [cbn; lra|]. cbn [map]. rewrite !seg_cons, H.
  change (f q :: map f l) with (map f (q :: l)). rewrite (IH q d). change (last (p :: q :: l) d) with (last (q :: l) d). lra.
Qed.
Lemma area_rigid c a t l : closed l -> ring_area (map (rigid c a t) l) = ring_area l.
Proof.
  intros (p & m & ->). unfold ring_area. rewrite map_length. destruct (Nat.ltb _ _); [reflexivity|].
  destruct (seg_rigid c a t) as (h & H). rewrite (seg_map _ h H _ _ p). change (p :: m ++ [p]) with ((p :: m) ++ [p]) at 2. rewrite last_last. lra.
Qed.
Lemma rigid_correct c a t l : correct_ring l = l -> correct_ring (map (rigid c a t) l) = map (rigid c a t) l.
Proof.
  intros E. destruct (le_lt_dec 3 (length l)) as [L|L].
  - destruct (C111_constructed_ring l) as (_ & A & C & _). specialize (C L). rewrite E in A, C.
    apply C111_constructed_ring; [rewrite area_rigid; assumption|]. left. destruct C as (p & m & ->).
    exists (rigid c a t p), (map (rigid c a t) m). cbn. now rewrite map_app.
  - apply C111_constructed_ring; [|right; rewrite map_length; lia]. unfold ring_area. rewrite map_length.
    destruct (Nat.ltb_spec (length l) 4); [lra|lia].
Qed.

(* ------------------------------------------------------------------ *)
(** * Polygons *)

Section Trip.
Variable huge : R.
Notation trip p := (unpickle_polygon huge (pickle_polygon p)).

(** Polygons as constructed come back the same. *)
Theorem C111_constructed_polygon : forall c rows, trip (polygon_of huge c rows) = polygon_of huge c rows.
Proof. intros. unfold unpickle_polygon, polygon_of. cbn. now rewrite correct_idem. Qed.

(** Any polygon: center and curve stay, the holes go, the extents are those of the points; a second trip
    changes nothing. *)
Theorem C111_polygon : forall p, let p' := trip p in
  center (po_shape p') = center (po_shape p) /\ same_curve (obj (po_shape p)) (obj (po_shape p')) /\ po_holes p' = [] /\
  po_shape p' = extents huge (obj (po_shape p')) (center (po_shape p)) /\
  (obj (po_shape p') = obj (po_shape p) <-> correct_ring (obj (po_shape p)) = obj (po_shape p)) /\
  trip p' = p'.
Proof.
  intros p p'. split; [reflexivity|]. split; [apply C111_constructed_ring|]. split; [reflexivity|]. split; [reflexivity|].
  split; [reflexivity|]. apply C111_constructed_polygon.
Qed.

(** A constructed polygon that was then moved keeps its points and center; its extents, which Transform does
    not touch, are computed anew. *)
Theorem C111_moved_polygon : forall c rows q,
  let p := po_transform (polygon_of huge c rows) q in let p' := trip p in
  obj (po_shape p') = obj (po_shape p) /\ center (po_shape p') = center (po_shape p) /\ po_holes p' = po_holes p /\
  po_shape p' = extents huge (obj (po_shape p)) (center (po_shape p)).
Proof.
  intros c rows q p p'.
  assert (E : correct_ring (obj (po_shape p)) = obj (po_shape p)).
  { unfold p, po_transform. cbn [po_shape]. rewrite (proj1 (C27_transform_is_rigid _ _)). apply rigid_correct. cbn. apply correct_idem. }
  unfold p', unpickle_polygon, polygon_of, pickle_polygon. cbn [fst snd po_shape po_holes]. rewrite E. repeat split.
Qed.

Lemma lmin_shift d : forall l a, lmin (a + d) (map (fun x => x + d) l) = lmin a l + d.
Proof.
  induction l as [|b l IH]; intros a; [reflexivity|]. unfold lmin in *. cbn [map fold_right]. rewrite IH.
  unfold Rmin. destruct (Rle_dec _ _); destruct (Rle_dec _ _); lra.
Qed.
Lemma lmax_shift d : forall l a, lmax (a + d) (map (fun x => x + d) l) = lmax a l + d.
Proof.
  induction l as [|b l IH]; intros a; [reflexivity|]. unfold lmax in *. cbn [map fold_right]. rewrite IH.
  unfold Rmax. destruct (Rle_dec _ _); destruct (Rle_dec _ _); lra.
Qed.
(** Moved without turning: nothing changes at all. *)
Theorem C111_shifted_polygon : forall c rows x y, rows <> [] ->
  let p := po_transform (polygon_of huge c rows) (x, y, 0) in trip p = p.
Proof.
  intros c rows x y N p. destruct (C111_moved_polygon c rows (x, y, 0)) as (O & C & H & E). fold p in O, C, H, E.
  assert (X : forall a b : polygon, po_shape a = po_shape b -> po_holes a = po_holes b -> a = b) by (intros [? ?] [? ?]; cbn; congruence).
  apply X; [|exact H]. rewrite E. clear X O C H E.
  assert (EO : obj (po_shape p) = map (shift_pt x y) (correct_ring rows)).
  { unfold p, po_transform. cbn [po_shape]. rewrite (proj1 (C27_transform_is_rigid _ _)). cbn [obj polygon_of po_shape extents]. apply map_ext.
    intros [u v]. unfold rigid, shift_pt, pth, cpt. cbn. rewrite cos_0, sin_0. f_equal; ring. }
  assert (center (po_shape p) = (px c + x, py c + y, pth c)) as EC by (unfold p; cbn; rewrite Rplus_0_r; reflexivity).
  assert (NR : correct_ring rows <> []).
  { intros Z. destruct rows as [|a rows]; [easy|]. destruct (C111_constructed_ring (a :: rows)) as (_ & _ & _ & _ & _ & I). rewrite Z in I. apply (I a). now left. }
  apply shape_eq; [reflexivity|reflexivity|..]; unfold extents; cbn [rear_dist front_dist left_dist right_dist]; rewrite EO, EC;
    unfold p, po_transform, polygon_of, extents, transform, with_obj; cbn [po_shape rear_dist front_dist left_dist right_dist];
    destruct (correct_ring rows) as [|[u v] r]; try easy; unfold box_of; cbn [map envelope fst snd shift_pt]; rewrite !map_map; cbn [fst snd px py].
  - replace (map (fun q : pt => fst (shift_pt x y q)) r) with (map (fun z => z + x) (map fst r)) by (rewrite map_map; reflexivity). rewrite lmin_shift. f_equal. unfold px, py; cbn; ring.
  - replace (map (fun q : pt => fst (shift_pt x y q)) r) with (map (fun z => z + x) (map fst r)) by (rewrite map_map; reflexivity). rewrite lmax_shift. f_equal. unfold px, py; cbn; ring.
  - replace (map (fun q : pt => snd (shift_pt x y q)) r) with (map (fun z => z + y) (map snd r)) by (rewrite map_map; reflexivity). rewrite lmin_shift. f_equal. unfold px, py; cbn; ring.
  - replace (map (fun q : pt => snd (shift_pt x y q)) r) with (map (fun z => z + y) (map snd r)) by (rewrite map_map; reflexivity). rewrite lmax_shift. f_equal. unfold px, py; cbn; ring.
Qed.

(** The default polygon: extents zero before, huge after. *)
Theorem C111_empty_polygon_refuted : 0 <= huge ->
  rear_dist (po_shape new_polygon) = 0 /\ rear_dist (po_shape (trip new_polygon)) = huge /\ front_dist (po_shape (trip new_polygon)) = huge /\
  left_dist (po_shape (trip new_polygon)) = huge /\ right_dist (po_shape (trip new_polygon)) = huge.
Proof.
  intros H. split; [reflexivity|]. cbn. unfold px, py. cbn.
  assert (A : Rabs (huge - 0) = huge) by (rewrite Rminus_0_r; apply Rabs_pos_eq; exact H).
  assert (B : Rabs (- huge - 0) = huge) by (rewrite Rminus_0_r, Rabs_Ropp; apply Rabs_pos_eq; exact H). assert (correct_ring [] = []) as -> by (apply C111_constructed_ring; [unfold ring_area; cbn; lra|right; cbn; lia]). cbn. auto.
Qed.
End Trip.
Print Assumptions C111_constructed_polygon.
Print Assumptions C111_polygon.
Print Assumptions C111_moved_polygon.
Print Assumptions C111_shifted_polygon.
Print Assumptions C111_empty_polygon_refuted.

(** Turned polygons: the car rectangle (center 5/4 ahead of its origin) turned to the left has, before, the
    extents of the car, and after pickling those of its turned bounding box. *)
Definition car_points : list pt := [(-1, -1); (-1, 1); (3, 1); (3, -1); (-1, -1)].
Lemma car_correct : correct_ring car_points = car_points.
Proof.
  apply C111_constructed_ring.
  - unfold ring_area, car_points. cbn. lra.
  - left. exists (-1, -1), [(-1, 1); (3, 1); (3, -1)]. reflexivity.
Qed.
Lemma car_extents huge : po_shape (polygon_of huge (5/4, 0, 0) car_points) = mkShape car_points (5/4, 0, 0) (9/4) (7/4) 1 1.
Proof.
  unfold polygon_of. rewrite car_correct. cbn [po_shape]. apply shape_eq; try reflexivity; cbn;
    unfold Rmin, Rmax, px, py; cbn; repeat (destruct (Rle_dec _ _); try lra); unfold Rabs; destruct (Rcase_abs _); lra.
Qed.
Theorem C111_turned_polygon_extents_refuted : forall huge,
  let p := po_transform (polygon_of huge (5/4, 0, 0) car_points) (0, 0, PI / 2) in
  let p' := unpickle_polygon huge (pickle_polygon p) in
  front_dist (po_shape p) = 7/4 /\ left_dist (po_shape p) = 1 /\ front_dist (po_shape p') = 1 /\ left_dist (po_shape p') = 9/4.
Proof.
  intros huge p p'. destruct (C111_moved_polygon huge (5/4, 0, 0) car_points (0, 0, PI / 2)) as (_ & _ & _ & E). fold p in E. fold p' in E.
  assert (O : obj (po_shape p) = [(9/4, -9/4); (1/4, -9/4); (1/4, 7/4); (9/4, 7/4); (9/4, -9/4)]).
  { unfold p, po_transform. cbn [po_shape]. rewrite (proj1 (C27_transform_is_rigid _ _)). rewrite car_extents. cbn [obj center car_points map].
    unfold rigid, cpt, px, py, pth. cbn [fst snd]. rewrite cos_PI2, sin_PI2.
    assert (PP : forall a b c d : R, a = c -> b = d -> (a, b) = (c, d) :> pt) by (intros; subst; reflexivity).
    assert (CC : forall (a b : pt) l m, a = b -> l = m -> a :: l = b :: m) by (intros; subst; reflexivity).
    repeat (apply CC; [apply PP; lra|]). reflexivity. }
  assert (C : center (po_shape p) = (5/4 + 0, 0 + 0, 0 + PI / 2)) by reflexivity.
  split; [unfold p, po_transform; cbn [po_shape transform with_obj front_dist]; rewrite car_extents; reflexivity|].
  split; [unfold p, po_transform; cbn [po_shape transform with_obj left_dist]; rewrite car_extents; reflexivity|].
  rewrite E, O, C. cbn. unfold Rmin, Rmax, px, py. cbn. split; repeat (destruct (Rle_dec _ _); try lra); unfold Rabs; destruct (Rcase_abs _); lra.
Qed.
Print Assumptions C111_turned_polygon_extents_refuted.

(** A polygon whose points were added one by one is neither closed nor turned before, and is after. *)
Theorem C111_added_points : forall huge ps,
  let p := fold_left po_add ps new_polygon in
  obj (po_shape p) = ps /\ center (po_shape p) = (0, 0, 0) /\ front_dist (po_shape p) = 0 /\
  unpickle_polygon huge (pickle_polygon p) = polygon_of huge (0, 0, 0) ps.
Proof.
  intros huge ps p.
  assert (G : forall qs q, obj (po_shape (fold_left po_add qs q)) = obj (po_shape q) ++ qs /\ center (po_shape (fold_left po_add qs q)) = center (po_shape q) /\
                           front_dist (po_shape (fold_left po_add qs q)) = front_dist (po_shape q)).
  { induction qs as [|x qs IH]; intros q; cbn [fold_left]; [now rewrite app_nil_r|]. destruct (IH (po_add q x)) as (A & B & C).
    rewrite A, B, C. cbn. now rewrite <- app_assoc. }
  destruct (G ps new_polygon) as (A & B & C). fold p in A, B, C. cbn in A, B, C. split; [exact A|]. split; [exact B|]. split; [exact C|].
  unfold unpickle_polygon, pickle_polygon. cbn [fst snd]. now rewrite A, B.
Qed.
Print Assumptions C111_added_points.

(** A counter-clockwise open triangle is closed and turned round. *)
Example C111_nonvacuous : forall huge,
  obj (po_shape (unpickle_polygon huge (pickle_polygon (fold_left po_add [(0, 0); (2, 0); (0, 1)] new_polygon)))) = [(0, 0); (0, 1); (2, 0); (0, 0)] /\
  obj (po_shape (polygon_of huge (5/4, 0, 0) car_points)) = car_points /\ shoelace car_points = -8.
Proof.
  intros huge. destruct (C111_added_points huge [(0, 0); (2, 0); (0, 1)]) as (_ & _ & _ & ->). split; [|split].
  - unfold polygon_of, correct_ring. cbn [po_shape obj extents].
    assert (close_ring [(0, 0); (2, 0); (0, 1)] = [(0, 0); (2, 0); (0, 1); (0, 0)]) as ->.
    { unfold close_ring. cbn [length Nat.leb]. cbn [last app]. destruct (pt_eq_dec (0, 0) (0, 1)) as [E|_]; [injection E; lra|reflexivity]. }
    unfold orient. destruct (Rltb_spec (ring_area [(0, 0); (2, 0); (0, 1); (0, 0)]) 0) as [_|H]; [reflexivity|]. unfold ring_area in H. cbn in H. lra.
  - now rewrite car_extents.
  - unfold car_points. cbn. lra.
Qed.
