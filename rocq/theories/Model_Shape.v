(** Model of bark/geometry/commons.hpp (Shape), polygon.hpp and standard_shapes.cpp: shapes and their
    transformations, over the real numbers. A shape is its point list (the outer ring of a polygon) with
    the center pose; boost::geometry::correct (closing/orienting a ring) is not modelled, rings are
    assumed to be closed and oriented already. *)
From Coq Require Import Reals List.
From Verif Require Import Base_Real Base_Geom Model_Line.
Import ListNotations.
Local Open Scope R_scope.

Definition pose : Type := (R * R * R)%type.
Definition px (p : pose) : R := fst (fst p).
Definition py (p : pose) : R := snd (fst p).
Definition pth (p : pose) : R := snd p.

(** commons.hpp:81 and 157-159, polygon.hpp:71-74 (distances to the center). *)
Record shape : Type := mkShape {
  obj : list pt; center : pose;
  rear_dist : R; front_dist : R; left_dist : R; right_dist : R }.

Definition with_obj (s : shape) (o : list pt) (c : pose) : shape :=
  mkShape o c (rear_dist s) (front_dist s) (left_dist s) (right_dist s).

(** boost's transformers; rotate_transformer turns clockwise, the code passes the negated angle. *)
Definition scale_pt (f : R) (p : pt) : pt := (fst p * f, snd p * f).
Definition scale2_pt (fx fy : R) (p : pt) : pt := (fst p * fx, snd p * fy).

(** commons.hpp:172-199, Rotate. *)
Definition shape_rotate (s : shape) (a : R) : shape :=
  let c := center s in
  let o1 := map (shift_pt (- px c) (- py c)) (obj s) in
  let o2 := map (rot_cw (- a)) o1 in
  let o3 := map (shift_pt (px c) (py c)) o2 in
  with_obj s o3 (px c, py c, pth c + a).

(** commons.hpp:201-234, ScalingTransform. *)
Definition scaling_transform (s : shape) (f : R) (p : pose) : shape :=
  let c := center s in
  let o1 := map (shift_pt (- px c) (- py c)) (obj s) in
  let o2 := map (scale_pt f) o1 in
  let o3 := map (rot_cw (- pth p)) o2 in
  let o4 := map (shift_pt (px c + px p) (py c + py p)) o3 in
  with_obj s o4 (px c + px p, py c + py p, pth c + pth p).

(** commons.hpp:236-250, Translate. *)
Definition shape_translate (s : shape) (q : pt) : shape :=
  let c := center s in
  with_obj s (map (shift_pt (fst q) (snd q)) (obj s)) (px c + fst q, py c + snd q, pth c).

(** commons.hpp:252-280, Transform. *)
Definition transform (s : shape) (p : pose) : shape :=
  let c := center s in
  let o1 := map (shift_pt (- px c) (- py c)) (obj s) in
  let o2 := map (rot_cw (- pth p)) o1 in
  let o3 := map (shift_pt (px c + px p) (py c + py p)) o2 in
  with_obj s o3 (px c + px p, py c + py p, pth c + pth p).

(** commons.hpp:282-318, Shape::Scale; a factor 0 counts as 1. *)
Definition base_scale (s : shape) (x_dir y_dir : R) : shape :=
  let c := center s in
  let o1 := map (shift_pt (- px c) (- py c)) (obj s) in
  let o2 := map (rot_cw (pth c)) o1 in
  let xm := if Reqb x_dir 0 then 1 else x_dir in
  let ym := if Reqb y_dir 0 then 1 else y_dir in
  let o3 := map (scale2_pt xm ym) o2 in
  let o4 := map (rot_cw (- pth c)) o3 in
  let o5 := map (shift_pt (px c) (py c)) o4 in
  with_obj s o5 c.

(** commons.hpp:320-376, Shape::Inflate. *)
Definition inflate_pt (dx dy : R) (p : pt) : pt :=
  if (Rleb 0 (fst p) && Rleb 0 (snd p))%bool then (fst p + dx, snd p + dy)
  else if (Rleb 0 (fst p) && Rltb (snd p) 0)%bool then (fst p + dx, snd p - dy)
  else if (Rltb (fst p) 0 && Rltb (snd p) 0)%bool then (fst p - dx, snd p - dy)
  else (fst p - dx, snd p + dy).
Definition base_inflate (s : shape) (dx dy : R) : shape :=
  let c := center s in
  let o1 := map (shift_pt (- px c) (- py c)) (obj s) in
  let o2 := map (rot_cw (pth c)) o1 in
  let o3 := map (inflate_pt dx dy) o2 in
  let o4 := map (rot_cw (- pth c)) o3 in
  let o5 := map (shift_pt (px c) (py c)) o4 in
  with_obj s o5 c.

(** boost::geometry::envelope of a non-empty ring: least and greatest coordinates. *)
Definition lmin (a : R) (l : list R) : R := fold_right Rmin a l.
Definition lmax (a : R) (l : list R) : R := fold_right Rmax a l.
Definition envelope (l : list pt) : option (pt * pt) :=
  match l with
  | [] => None
  | p :: r => Some ((lmin (fst p) (map fst r), lmin (snd p) (map snd r)),
                    (lmax (fst p) (map fst r), lmax (snd p) (map snd r)))
  end.

(** polygon.hpp:144-159, UpdateDistancesToCenter ([None]: the envelope of an empty polygon is inverse,
    not modelled). The left distance is taken from the minimal y, the right one from the maximal y. *)
Definition update_distances (s : shape) : option shape :=
  match envelope (obj s) with
  | None => None
  | Some (mn, mx) =>
    let cx := px (center s) in let cy := py (center s) in
    Some (mkShape (obj s) (center s) (Rabs (fst mn - cx)) (Rabs (fst mx - cx)) (Rabs (snd mn - cy)) (Rabs (snd mx - cy)))
  end.
(** polygon.hpp:84-95, the constructor from center and points. *)
Definition make_polygon (c : pose) (ps : list pt) : option shape := update_distances (mkShape ps c 0 0 0 0).
(** polygon.hpp:169-181, Polygon_t::Scale and Polygon_t::Inflate. *)
Definition polygon_scale (s : shape) (x y : R) : option shape := update_distances (base_scale s x y).
Definition polygon_inflate (s : shape) (x y : R) : option shape := update_distances (base_inflate s x y).

(** polygon.hpp:297-309, CalculateBoundingBoxPolygon. *)
Definition bounding_box_polygon (s : shape) : option shape :=
  match envelope (obj s) with
  | None => None
  | Some ((xmin, ymin), (xmax, ymax)) =>
    make_polygon (center s) [(xmin, ymin); (xmin, ymax); (xmax, ymax); (xmax, ymin); (xmin, ymin)]
  end.

(** standard_shapes.cpp:28-33, CarRectangle, and 53-63, GenerateCarRectangle. *)
Definition car_rectangle : option shape :=
  make_polygon (5/4, 0, 0) [(-1, -1); (-1, 1); (3, 1); (3, -1); (-1, -1)].
Definition generate_car_rectangle (wheelbase r : R) : option shape :=
  make_polygon (0, 0, 0) [(- r, - r); (- r, r); (wheelbase + r, r); (wheelbase + r, - r); (- r, - r)].

(** agent.cpp:147-154, GetPolygonFromState. *)
Definition polygon_from_state (s : shape) (x y theta : R) : shape := transform s (x, y, theta).

(** Transforming a line (Line_t::Clone keeps the stored arc lengths): commons.hpp:201-280 with
    line.hpp:182-187. *)
Record line_shape : Type := mkLS { ls_shape : shape; ls_s : list R }.
Definition line_transform (l : line_shape) (p : pose) : line_shape := mkLS (transform (ls_shape l) p) (ls_s l).
Definition line_scaling_transform (l : line_shape) (f : R) (p : pose) : line_shape :=
  mkLS (scaling_transform (ls_shape l) f p) (ls_s l).
