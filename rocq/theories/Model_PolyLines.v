(** Polygons made from lines and rounding of polygons, /repo/bark/geometry/polygon.hpp, over the real numbers. *)
From Coq Require Import Reals List Bool ZArith.
From Verif Require Import Base_Real Base_Geom Model_Line Model_Shape Model_GeomPickle.
Import ListNotations.
Local Open Scope R_scope.

(** boost::geometry::correct of a polygon: the outer ring is corrected; the polygons here have no holes. *)
Definition po_correct (p : polygon) : polygon :=
  mkPolygon (with_obj (po_shape p) (correct_ring (obj (po_shape p))) (center (po_shape p))) (po_holes p).
(** polygon.hpp:144-159, UpdateDistancesToCenter *)
Definition po_update (huge : R) (p : polygon) : polygon :=
  mkPolygon (extents huge (obj (po_shape p)) (center (po_shape p))) (po_holes p).

(** polygon.hpp:110-122, Polygon(center, line): the points are appended one by one *)
Definition polygon_of_line (huge : R) (c : pose) (l : line_obj) : polygon :=
  po_update huge (po_correct (fold_left po_add (pts (lo_line l)) (mkPolygon (mkShape [] c 0 0 0 0) []))).

(** polygon.hpp:124-142, Polygon(line1, line2); [None]: the start of an empty line is dereferenced *)
Definition polygon_of_lines (huge : R) (l1 l2 : line_obj) : option polygon :=
  let p := fold_left po_add (pts (lo_line l1)) new_polygon in
  let reversed_outer := lo_reverse l2 in
  let p := fold_left po_add (pts (lo_line reversed_outer)) p in
  match pts (lo_line l1) with
  | [] => None
  | first :: _ => Some (po_update huge (po_correct (po_add p first)))
  end.

(** C's round: to the nearest integer, halves away from zero *)
Definition c_round (x : R) : R :=
  if Rltb x 0 then - IZR (Int_part (- x + / 2)) else IZR (Int_part (x + / 2)).
(** polygon.hpp:61-70, SetPrecision: the outer ring only; pow(10, precision) is exact here *)
Definition round_to (precision : Z) (x : R) : R := let scale := powerRZ 10 precision in c_round (x * scale) / scale.
Definition set_precision (p : polygon) (precision : Z) : polygon :=
  let s := po_shape p in
  mkPolygon (with_obj s (map (fun q => (round_to precision (fst q), round_to precision (snd q))) (obj s)) (center s)) (po_holes p).
(** polygon.hpp:199-202, CalculateArea: the signed areas of the rings *)
Definition calculate_area (p : polygon) : R := fold_right Rplus (ring_area (obj (po_shape p))) (map ring_area (po_holes p)).
