(** C27, C50: shapes and rigid transforms (bark/geometry/commons.hpp, polygon.hpp). *)
From Coq Require Import Reals List Bool Lra Lia Psatz.
From Verif Require Import Base_Real Base_Geom Model_Line Spec_Line Proof_Line Props_Line Model_Shape Spec_Shape.
Import ListNotations.
Local Open Scope R_scope.

Definition cpt (p : pose) : pt := (px p, py p).

Lemma cs2 a : cos a * cos a = 1 - sin a * sin a.
Proof. pose proof (sin2_cos2 a) as H. unfold Rsqr in H. lra. Qed.

(** Transform moves every point by the same rotation about the shape's center and translation; the
    center pose is advanced by the pose, the stored extents stay. *)
Theorem C27_transform_is_rigid : forall s p,
  obj (transform s p) = map (rigid (cpt (center s)) (pth p) (cpt p)) (obj s) /\
  center (transform s p) = (px (center s) + px p, py (center s) + py p, pth (center s) + pth p) /\
  front_dist (transform s p) = front_dist s /\ rear_dist (transform s p) = rear_dist s /\
  left_dist (transform s p) = left_dist s /\ right_dist (transform s p) = right_dist s.
Proof.
  intros s p. repeat split. cbn. rewrite !map_map. apply map_ext. intros [x y].
  unfold shift_pt, rot_cw, rigid, cpt. cbn. rewrite cos_neg, sin_neg. f_equal; ring.
Qed.
Print Assumptions C27_transform_is_rigid.

(** Rigid motions keep distances and orientation (hence angles and signed areas). *)
Theorem C27_rigid_preserves : forall c a t p q r,
  dist (rigid c a t p) (rigid c a t q) = dist p q /\
  cross3 (rigid c a t p) (rigid c a t q) (rigid c a t r) = cross3 p q r.
Proof.
  intros c a t p q r. split.
  - rewrite <- (Rmult_1_l (dist p q)). apply dist_scale; [lra|]. unfold dist2, rigid. cbn [fst snd].
    replace (1 * 1) with (cos a * cos a + sin a * sin a) by (rewrite cs2; ring). ring.
  - unfold cross3, rigid. cbn [fst snd].
    transitivity ((cos a * cos a + sin a * sin a) * ((fst q - fst p) * (snd r - snd p) - (snd q - snd p) * (fst r - fst p))); [ring|].
    rewrite cs2. ring.
Qed.
Print Assumptions C27_rigid_preserves.

(** The shape as seen from its own center pose does not change. *)
Theorem C27_body_frame_invariant : forall s p i q q',
  nth_error (obj s) i = Some q -> nth_error (obj (transform s p)) i = Some q' ->
  let c := center s in let c' := center (transform s p) in
  body_x (cpt c') (pth c') q' = body_x (cpt c) (pth c) q /\
  body_y (cpt c') (pth c') q' = body_y (cpt c) (pth c) q.
Proof.
  intros s p i q q' H H' c c'. rewrite (proj1 (C27_transform_is_rigid s p)), nth_error_map, H in H'. inversion H'. clear H'.
  unfold c', c, body_x, body_y, rigid, cpt. cbn [px py pth fst snd center transform with_obj].
  destruct (center s) as [[cx cy] ct], p as [[x y] t]. cbn. rewrite cos_plus, sin_plus.
  set (dx := fst q - cx). set (dy := snd q - cy).
  split.
  - transitivity ((cos t * cos t + sin t * sin t) * (dx * cos ct + dy * sin ct)); [unfold dx, dy; ring|]. rewrite cs2. ring.
  - transitivity ((cos t * cos t + sin t * sin t) * (- dx * sin ct + dy * cos ct)); [unfold dx, dy; ring|]. rewrite cs2. ring.
Qed.
Print Assumptions C27_body_frame_invariant.

Lemma shape_eq s s' : obj s = obj s' -> center s = center s' -> rear_dist s = rear_dist s' -> front_dist s = front_dist s' ->
  left_dist s = left_dist s' -> right_dist s = right_dist s' -> s = s'.
Proof. destruct s, s'. cbn. intros; subst. reflexivity. Qed.

(** Identity, composition, inverse. *)
Theorem C27_group : forall s,
  transform s (0, 0, 0) = s /\
  (forall p q, transform (transform s p) q = transform s (px p + px q, py p + py q, pth p + pth q)) /\
  (forall p, transform (transform s p) (- px p, - py p, - pth p) = s).
Proof.
  intros s.
  assert (I : transform s (0, 0, 0) = s).
  { apply shape_eq; try reflexivity.
    - rewrite (proj1 (C27_transform_is_rigid _ _)). rewrite <- (map_id (obj s)) at 2. apply map_ext. intros [x y].
      unfold rigid, cpt. cbn. rewrite cos_0, sin_0. f_equal; ring.
    - cbn. destruct (center s) as [[a b] c]. unfold px, py, pth. cbn. f_equal; [f_equal|]; ring. }
  assert (K : forall p q, transform (transform s p) q = transform s (px p + px q, py p + py q, pth p + pth q)).
  { intros p q. apply shape_eq; try reflexivity.
    - rewrite !(proj1 (C27_transform_is_rigid _ _)), map_map. apply map_ext. intros [x y].
      unfold rigid, cpt. cbn. destruct (center s) as [[cx cy] ct], p as [[x1 y1] t1], q as [[x2 y2] t2]. cbn.
      unfold px, py, pth. cbn. rewrite cos_plus, sin_plus. f_equal; ring.
    - cbn. destruct (center s) as [[cx cy] ct], p as [[x1 y1] t1], q as [[x2 y2] t2]. unfold px, py, pth. cbn.
      f_equal; [f_equal|]; ring. }
  split; [exact I|]. split; [exact K|]. intros p. rewrite K. destruct p as [[x y] t]. unfold px, py, pth. cbn.
  replace (x + - x) with 0 by ring. replace (y + - y) with 0 by ring. replace (t + - t) with 0 by ring. exact I.
Qed.
Print Assumptions C27_group.

(** Transform = Rotate, then Translate (or the other way round). *)
Theorem C27_rotate_translate : forall s x y t,
  transform s (x, y, t) = shape_translate (shape_rotate s t) (x, y) /\
  transform s (x, y, t) = shape_rotate (shape_translate s (x, y)) t.
Proof.
  intros s x y t. split; apply shape_eq; try reflexivity; try (cbn; rewrite !map_map; apply map_ext; intros [a b];
    unfold shift_pt, rot_cw; cbn; unfold px, py, pth; cbn; f_equal; ring).
Qed.
Print Assumptions C27_rotate_translate.

(** The placed polygon of an agent: for a shape whose center pose is the origin, the point (bx,by) of the
    shape is bx ahead and by left of the state's position and heading. *)
Theorem C27_polygon_from_state : forall s x y theta i bx by_, center s = (0, 0, 0) ->
  nth_error (obj s) i = Some (bx, by_) ->
  center (polygon_from_state s x y theta) = (x, y, theta) /\
  nth_error (obj (polygon_from_state s x y theta)) i =
    Some (x + bx * cos theta - by_ * sin theta, y + bx * sin theta + by_ * cos theta).
Proof.
  intros s x y theta i bx by_ C H. unfold polygon_from_state. destruct (C27_transform_is_rigid s (x, y, theta)) as (E & Ec & _).
  rewrite E, Ec, C, nth_error_map, H. unfold rigid, cpt, px, py, pth. cbn. split.
  - f_equal; [f_equal|]; ring.
  - f_equal. f_equal; ring.
Qed.
Print Assumptions C27_polygon_from_state.

(** The predefined CarRectangle has another center (1.25, 0): placed at a state, its own origin is not
    at the state's position but swings around with the heading. *)
Theorem C27_car_rectangle_origin_refuted :
  exists s, car_rectangle = Some s /\
    forall x y theta, rigid (cpt (center s)) theta (x, y) (0, 0) = (x, y) -> cos theta = 1.
Proof.
  eexists. split; [reflexivity|]. intros x y theta H. unfold rigid, cpt, px, py in H. cbn in H. inversion H. lra.
Qed.
Print Assumptions C27_car_rectangle_origin_refuted.

(** Scaling: distances grow by |factor|. *)
Theorem C27_scaling : forall s f p i j a b a' b',
  nth_error (obj s) i = Some a -> nth_error (obj s) j = Some b ->
  nth_error (obj (scaling_transform s f p)) i = Some a' -> nth_error (obj (scaling_transform s f p)) j = Some b' ->
  dist a' b' = Rabs f * dist a b.
Proof.
  intros s f p i j a b a' b' Ha Hb Ha' Hb'. cbn in Ha', Hb'.
  rewrite !nth_error_map, Ha in Ha'. rewrite !nth_error_map, Hb in Hb'. cbn in Ha', Hb'. inversion Ha'. inversion Hb'.
  apply dist_scale; [apply Rabs_pos|]. rewrite <- Rabs_mult, Rabs_pos_eq by apply (Rle_0_sqr f).
  unfold dist2, shift_pt, scale_pt, rot_cw. cbn [fst snd]. rewrite cos_neg, sin_neg.
  transitivity ((cos (pth p) * cos (pth p) + sin (pth p) * sin (pth p)) * (f * f *
    ((fst a - fst b) * (fst a - fst b) + (snd a - snd b) * (snd a - snd b)))); [ring|]. rewrite cs2. ring.
Qed.
Print Assumptions C27_scaling.

Example C27_nonvacuous : exists s, generate_car_rectangle 3 1 = Some s /\ center s = (0, 0, 0) /\
  nth_error (obj s) 2 = Some (4, 1) /\
  nth_error (obj (polygon_from_state s 10 20 (PI / 2))) 2 = Some (9, 24).
Proof.
  eexists. split; [reflexivity|]. split; [reflexivity|]. assert (E : 3 + 1 = 4) by lra. split; [cbn; rewrite E; reflexivity|].
  cbn. unfold shift_pt, rot_cw, px, py, pth. cbn. rewrite cos_neg, sin_neg, cos_PI2, sin_PI2. f_equal. f_equal; lra.
Qed.

(** Lines: rigid transforms keep the stored arc lengths right, scaling does not update them. *)
Theorem C25_shape_transform_of_lines : forall l p,
  arc_lengths_of (obj (ls_shape l)) (ls_s l) ->
  arc_lengths_of (obj (ls_shape (line_transform l p))) (ls_s (line_transform l p)).
Proof.
  intros l p [L H]. cbn [ls_s line_transform ls_shape]. rewrite (proj1 (C27_transform_is_rigid _ _)).
  split; [rewrite map_length; auto|]. intros i Hi. rewrite map_length in Hi. rewrite H by auto.
  rewrite firstn_map, plen_map; auto. intros. apply C27_rigid_preserves; exact (0, 0).
Qed.
Print Assumptions C25_shape_transform_of_lines.
Theorem C25_scaling_transform_of_lines_refuted :
  exists l p, arc_lengths_of (obj (ls_shape l)) (ls_s l) /\
    ~ arc_lengths_of (obj (ls_shape (line_scaling_transform l 2 p))) (ls_s (line_scaling_transform l 2 p)).
Proof.
  exists (mkLS (mkShape [(0, 0); (1, 0)] (0, 0, 0) 0 0 0 0) [0; 1]), (0, 0, 0).
  assert (D : dist (0, 0) (1, 0) = 1) by (rewrite dist_h; unfold Rabs; destruct (Rcase_abs _); lra).
  split.
  - cbn. split; [reflexivity|]. intros [|[|i]] Hi; cbn in Hi; try lia; cbn; [reflexivity|]. rewrite D. f_equal. lra.
  - intros [_ H]. specialize (H 1%nat ltac:(cbn; lia)).
    pose proof (C27_scaling (mkShape [(0, 0); (1, 0)] (0, 0, 0) 0 0 0 0) 2 (0, 0, 0) 0 1 (0, 0) (1, 0) _ _ eq_refl eq_refl eq_refl eq_refl) as S.
    rewrite D, Rabs_pos_eq in S by lra. cbn in H, S. injection H. intros X. rewrite S in X. lra.
Qed.
Print Assumptions C25_scaling_transform_of_lines_refuted.

(** C50. The extents computed for a polygon whose center lies inside its bounding box, as seen by a
    vehicle at the center with heading zero. *)
Lemma lmax_spec a l : (In (lmax a l) (a :: l)) /\ (forall x, In x (a :: l) -> x <= lmax a l).
Proof.
  induction l as [|b l [IH1 IH2]]; cbn.
  - split; auto. intros x [->|[]]. lra.
  - fold (lmax a l). split.
    + unfold Rmax. destruct (Rle_dec b (lmax a l)); cbn in IH1; tauto.
    + intros x [->|[->|H]]; [|apply Rmax_l|]; eapply Rle_trans; [apply (IH2 x); cbn; auto|apply Rmax_r|apply (IH2 x); cbn; auto|apply Rmax_r].
Qed.
Lemma lmin_spec a l : (In (lmin a l) (a :: l)) /\ (forall x, In x (a :: l) -> lmin a l <= x).
Proof.
  induction l as [|b l [IH1 IH2]]; cbn.
  - split; auto. intros x [->|[]]. lra.
  - fold (lmin a l). split.
    + unfold Rmin. destruct (Rle_dec b (lmin a l)); cbn in IH1; tauto.
    + intros x [->|[->|H]]; [|apply Rmin_l|]; eapply Rle_trans; [apply Rmin_r|apply (IH2 x); cbn; auto|apply Rmin_r|apply (IH2 x); cbn; auto].
Qed.
Definition bounds (l : list pt) (mn mx : pt) : Prop :=
  greatest (fun p => - fst p) l (- fst mn) /\ greatest (fun p => - snd p) l (- snd mn) /\
  greatest fst l (fst mx) /\ greatest snd l (snd mx).
Lemma envelope_bounds l mn mx : envelope l = Some (mn, mx) -> bounds l mn mx.
Proof.
  destruct l as [|p r]; [discriminate|]. cbn. intros H. inversion H; subst. clear H.
  assert (IM : forall (f : pt -> R) v, In v (f p :: map f r) -> exists q, In q (p :: r) /\ f q = v).
  { intros f v Hv. change (f p :: map f r) with (map f (p :: r)) in Hv. apply in_map_iff in Hv. destruct Hv as (q & E & Hq). eauto. }
  assert (IN : forall (f : pt -> R) q, In q (p :: r) -> In (f q) (f p :: map f r)).
  { intros f q Hq. change (f p :: map f r) with (map f (p :: r)). apply in_map, Hq. }
  repeat split; cbn [fst snd];
   try (destruct (IM fst _ (proj1 (lmin_spec (fst p) (map fst r)))) as (q & Hq & E); exists q; split; [exact Hq|rewrite E; reflexivity]);
   try (destruct (IM snd _ (proj1 (lmin_spec (snd p) (map snd r)))) as (q & Hq & E); exists q; split; [exact Hq|rewrite E; reflexivity]);
   try (destruct (IM fst _ (proj1 (lmax_spec (fst p) (map fst r)))) as (q & Hq & E); exists q; split; [exact Hq|exact E]);
   try (destruct (IM snd _ (proj1 (lmax_spec (snd p) (map snd r)))) as (q & Hq & E); exists q; split; [exact Hq|exact E]);
   intros q Hq.
  - apply Ropp_le_contravar. apply lmin_spec. apply IN, Hq.
  - apply Ropp_le_contravar. apply lmin_spec. apply IN, Hq.
  - apply lmax_spec, IN, Hq.
  - apply lmax_spec, IN, Hq.
Qed.

Theorem C50_extents_partial : forall c ps s, make_polygon c ps = Some s -> pth c = 0 ->
  (exists p, In p ps /\ 0 <= body_x (cpt c) 0 p) -> (exists p, In p ps /\ body_x (cpt c) 0 p <= 0) ->
  (exists p, In p ps /\ 0 <= body_y (cpt c) 0 p) -> (exists p, In p ps /\ body_y (cpt c) 0 p <= 0) ->
  greatest (body_x (cpt c) 0) ps (front_dist s) /\
  greatest (fun p => - body_x (cpt c) 0 p) ps (rear_dist s) /\
  (* the field called right_dist is the extent to the left, and vice versa *)
  greatest (body_y (cpt c) 0) ps (right_dist s) /\
  greatest (fun p => - body_y (cpt c) 0 p) ps (left_dist s).
Proof.
  intros c ps s H _ (p1 & I1 & H1) (p2 & I2 & H2) (p3 & I3 & H3) (p4 & I4 & H4).
  unfold make_polygon, update_distances in H. cbn [obj center] in H.
  destruct (envelope ps) as [[mn mx]|] eqn:E; [|discriminate]. inversion H; subst s. clear H.
  cbn [front_dist rear_dist left_dist right_dist].
  destruct (envelope_bounds _ _ _ E) as ((A1 & A2) & (B1 & B2) & (C1 & C2) & (D1 & D2)).
  assert (EX : forall p, body_x (cpt c) 0 p = fst p - px c) by (intros; unfold body_x, cpt; cbn; rewrite cos_0, sin_0; ring).
  assert (EY : forall p, body_y (cpt c) 0 p = snd p - py c) by (intros; unfold body_y, cpt; cbn; rewrite cos_0, sin_0; ring).
  rewrite EX in H1, H2. rewrite EY in H3, H4.
  pose proof (C2 p1 I1). pose proof (A2 p2 I2). pose proof (D2 p3 I3). pose proof (B2 p4 I4). cbn in *.
  rewrite (Rabs_pos_eq (fst mx - px c)), (Rabs_pos_eq (snd mx - py c)) by lra.
  rewrite (Rabs_minus_sym (fst mn)), (Rabs_minus_sym (snd mn)), (Rabs_pos_eq (px c - fst mn)), (Rabs_pos_eq (py c - snd mn)) by lra.
  unfold greatest. repeat split.
  - destruct C1 as (q & Iq & Eq). exists q. rewrite EX. split; auto; lra.
  - intros p Hp. rewrite EX. specialize (C2 p Hp). lra.
  - destruct A1 as (q & Iq & Eq). exists q. rewrite EX. split; auto; lra.
  - intros p Hp. rewrite EX. specialize (A2 p Hp). lra.
  - destruct D1 as (q & Iq & Eq). exists q. rewrite EY. split; auto; lra.
  - intros p Hp. rewrite EY. specialize (D2 p Hp). lra.
  - destruct B1 as (q & Iq & Eq). exists q. rewrite EY. split; auto; lra.
  - intros p Hp. rewrite EY. specialize (B2 p Hp). lra.
Qed.
Print Assumptions C50_extents_partial.

(** Evaluates nested Rmin/Rmax of numerals, innermost first. *)
Ltac rmm := repeat match goal with
  | |- context [Rmax ?a ?b] => first [rewrite (Rmax_left a b) by lra | rewrite (Rmax_right a b) by lra]
  | |- context [Rmin ?a ?b] => first [rewrite (Rmin_left a b) by lra | rewrite (Rmin_right a b) by lra]
  end.

(** left_dist is not the extent to the left. *)
Theorem C50_left_right_swapped_refuted :
  exists ps s, make_polygon (0, 0, 0) ps = Some s /\ ~ greatest (body_y (0, 0) 0) ps (left_dist s) /\
    greatest (body_y (0, 0) 0) ps 3 /\ right_dist s = 3.
Proof.
  set (ps := [(-1, -1); (-1, 3); (2, 3); (2, -1); (-1, -1)]). exists ps. eexists. split; [reflexivity|].
  assert (EY : forall p, body_y (0, 0) 0 p = snd p) by (intros; unfold body_y; cbn; rewrite cos_0, sin_0; ring).
  assert (Mx : lmax (-1) [3; 3; -1; -1] = 3).
  { cbn. rmm. lra. }
  assert (Mn : lmin (-1) [3; 3; -1; -1] = -1).
  { cbn. rmm. lra. }
  cbn [left_dist right_dist]. cbn [map snd fst]. rewrite Mx, Mn. unfold py. cbn [fst snd center].
  split; [|split].
  - intros [_ H]. specialize (H (2, 3) ltac:(cbn; tauto)). rewrite EY in H. cbn in H. unfold Rabs in H. destruct (Rcase_abs _); lra.
  - split; [exists (2, 3); rewrite EY; cbn; auto|]. intros p Hp. rewrite EY.
    cbn in Hp. destruct Hp as [<-|[<-|[<-|[<-|[<-|[]]]]]]; cbn; lra.
  - unfold Rabs. destruct (Rcase_abs _); lra.
Qed.
Print Assumptions C50_left_right_swapped_refuted.

(** Inflate: in the body frame every point moves outwards by dx along x and dy along y (any heading). *)
Theorem C50_inflate_body_frame : forall s dx dy i p p', 0 <= dx -> 0 <= dy ->
  nth_error (obj s) i = Some p -> nth_error (obj (base_inflate s dx dy)) i = Some p' ->
  let c := cpt (center s) in let a := pth (center s) in
  Rabs (body_x c a p') = Rabs (body_x c a p) + dx /\ Rabs (body_y c a p') = Rabs (body_y c a p) + dy /\
  0 <= body_x c a p * body_x c a p' /\ 0 <= body_y c a p * body_y c a p' /\
  center (base_inflate s dx dy) = center s.
Proof.
  intros s dx dy i p p' Hx Hy H H' c a. cbn in H'. rewrite !nth_error_map, H in H'. cbn in H'. inversion H'. clear H'.
  assert (EB : rot_cw (pth (center s)) (shift_pt (- px (center s)) (- py (center s)) p) = (body_x c a p, body_y c a p)).
  { unfold rot_cw, shift_pt, body_x, body_y, c, a, cpt. cbn [fst snd]. f_equal; ring. }
  rewrite EB.
  assert (EI : forall q, let r := shift_pt (px (center s)) (py (center s)) (rot_cw (- pth (center s)) q) in
     body_x c a r = fst q /\ body_y c a r = snd q).
  { intros [u v]. unfold body_x, body_y, shift_pt, rot_cw, c, a, cpt. cbn [fst snd]. rewrite cos_neg, sin_neg. split.
    - transitivity ((cos (pth (center s)) * cos (pth (center s)) + sin (pth (center s)) * sin (pth (center s))) * u); [ring|].
      rewrite cs2. ring.
    - transitivity ((cos (pth (center s)) * cos (pth (center s)) + sin (pth (center s)) * sin (pth (center s))) * v); [ring|].
      rewrite cs2. ring. }
  cbv zeta in EI. destruct (EI (inflate_pt dx dy (body_x c a p, body_y c a p))) as [-> ->].
  unfold inflate_pt. cbn [fst snd]. generalize (body_x c a p), (body_y c a p). intros u v.
  destruct (Rleb_spec 0 u), (Rleb_spec 0 v), (Rltb_spec v 0), (Rltb_spec u 0); cbn [andb fst snd]; try lra;
    (split; [unfold Rabs; repeat destruct (Rcase_abs _); lra|]);
    (split; [unfold Rabs; repeat destruct (Rcase_abs _); lra|]);
    (split; [nra|]); (split; [nra|reflexivity]).
Qed.
Print Assumptions C50_inflate_body_frame.

(** Scale: body coordinates are multiplied; the factor 0 means 1. *)
Theorem C50_scale_body_frame : forall s fx fy i p p',
  nth_error (obj s) i = Some p -> nth_error (obj (base_scale s fx fy)) i = Some p' ->
  let c := cpt (center s) in let a := pth (center s) in
  (fx <> 0 -> body_x c a p' = fx * body_x c a p) /\ (fx = 0 -> body_x c a p' = body_x c a p) /\
  (fy <> 0 -> body_y c a p' = fy * body_y c a p) /\ (fy = 0 -> body_y c a p' = body_y c a p).
Proof.
  intros s fx fy i p p' H H' c a. cbn in H'. rewrite !nth_error_map, H in H'. cbn in H'. inversion H'. clear H'.
  assert (EB : rot_cw (pth (center s)) (shift_pt (- px (center s)) (- py (center s)) p) = (body_x c a p, body_y c a p)).
  { unfold rot_cw, shift_pt, body_x, body_y, c, a, cpt. cbn [fst snd]. f_equal; ring. }
  rewrite EB.
  assert (EI : forall q, let r := shift_pt (px (center s)) (py (center s)) (rot_cw (- pth (center s)) q) in
     body_x c a r = fst q /\ body_y c a r = snd q).
  { intros [u v]. unfold body_x, body_y, shift_pt, rot_cw, c, a, cpt. cbn [fst snd]. rewrite cos_neg, sin_neg. split.
    - transitivity ((cos (pth (center s)) * cos (pth (center s)) + sin (pth (center s)) * sin (pth (center s))) * u); [ring|].
      rewrite cs2. ring.
    - transitivity ((cos (pth (center s)) * cos (pth (center s)) + sin (pth (center s)) * sin (pth (center s))) * v); [ring|].
      rewrite cs2. ring. }
  cbv zeta in EI. set (m := scale2_pt _ _ _). destruct (EI m) as [-> ->]. unfold m, scale2_pt. cbn [fst snd].
  destruct (Reqb_spec fx 0), (Reqb_spec fy 0); repeat split; intros; try tauto; ring.
Qed.
Print Assumptions C50_scale_body_frame.

(** The extents of a rotated shape are wrong after Inflate: they are taken from the axis-parallel bounding
    box. A 4 x 2 rectangle heading north, inflated by nothing, gets front_dist 1 instead of 2. *)
Theorem C50_extents_after_inflate_refuted :
  exists s s', front_dist s = 2 /\ center s = (0, 0, PI / 2) /\
    greatest (body_x (0, 0) (PI / 2)) (obj s) 2 /\
    polygon_inflate s 0 0 = Some s' /\ obj s' = obj s /\ front_dist s' = 1.
Proof.
  set (o := [(1, -2); (-1, -2); (-1, 2); (1, 2); (1, -2)]).
  set (s := mkShape o (0, 0, PI / 2) 2 2 1 1). exists s.
  assert (EO : obj (base_inflate s 0 0) = o).
  { unfold base_inflate, with_obj. cbn [obj center s]. unfold px, py, pth. cbn [fst snd]. rewrite !map_map.
    rewrite <- (map_id o) at 2. apply map_ext. intros [u v]. unfold shift_pt. cbn [fst snd].
    assert (EI : forall q, inflate_pt 0 0 q = q).
    { intros [a b]. unfold inflate_pt. cbn [fst snd]. repeat match goal with |- context [if ?c then _ else _] => destruct c end; f_equal; ring. }
    rewrite EI. unfold rot_cw. cbn [fst snd]. rewrite cos_neg, sin_neg, cos_PI2, sin_PI2. f_equal; ring. }
  assert (Mx : lmax 1 [-1; -1; 1; 1] = 1).
  { cbn. rmm. lra. }
  unfold polygon_inflate, update_distances. rewrite EO. cbn [envelope o].
  eexists. split; [reflexivity|]. split; [reflexivity|]. split.
  - assert (EX : forall p, body_x (0, 0) (PI/2) p = snd p) by (intros; unfold body_x; cbn; rewrite cos_PI2, sin_PI2; ring).
    unfold s, o. cbn [obj]. split; [exists (1, 2); rewrite EX; cbn; tauto|]. intros p Hp. rewrite EX.
    cbn in Hp. destruct Hp as [<-|[<-|[<-|[<-|[<-|[]]]]]]; cbn; lra.
  - split; [reflexivity|]. split; [reflexivity|]. cbn [front_dist]. cbn [map fst snd]. rewrite Mx. unfold px. cbn. unfold Rabs. destruct (Rcase_abs _); lra.
Qed.
Print Assumptions C50_extents_after_inflate_refuted.

(** The bounding-box polygon encloses all points, and each side touches one. *)
Theorem C50_bounding_box : forall s b, bounding_box_polygon s = Some b ->
  exists x0 y0 x1 y1, obj b = [(x0, y0); (x0, y1); (x1, y1); (x1, y0); (x0, y0)] /\ center b = center s /\
    (forall p, In p (obj s) -> x0 <= fst p <= x1 /\ y0 <= snd p <= y1) /\
    (exists p, In p (obj s) /\ fst p = x0) /\ (exists p, In p (obj s) /\ fst p = x1) /\
    (exists p, In p (obj s) /\ snd p = y0) /\ (exists p, In p (obj s) /\ snd p = y1).
Proof.
  intros s b H. unfold bounding_box_polygon in H. destruct (envelope (obj s)) as [[[x0 y0] [x1 y1]]|] eqn:E; [|discriminate].
  destruct (envelope_bounds _ _ _ E) as ((A1 & A2) & (B1 & B2) & (C1 & C2) & (D1 & D2)). cbn in *.
  exists x0, y0, x1, y1. unfold make_polygon, update_distances in H. cbn [obj center] in H. inversion H. cbn [obj center].
  split; [reflexivity|]. split; [reflexivity|]. split.
  - intros p Hp. specialize (A2 p Hp). specialize (B2 p Hp). specialize (C2 p Hp). specialize (D2 p Hp). lra.
  - destruct A1 as (a & Ia & Ea), B1 as (b' & Ib & Eb), C1 as (c & Ic & Ec), D1 as (d & Id & Ed).
    repeat split; [exists a|exists c|exists b'|exists d]; split; auto; lra.
Qed.
Print Assumptions C50_bounding_box.
Example C50_nonvacuous : exists s, generate_car_rectangle 3 1 = Some s /\ front_dist s = 4 /\ rear_dist s = 1.
Proof.
  eexists. split; [reflexivity|]. cbn. unfold px. cbn.
  rmm. split; unfold Rabs; destruct (Rcase_abs _); lra.
Qed.
