(** Pickling of points, lines and polygons, /repo/bark/python_wrapper/geometry/geometry.cpp, with the
    constructors it goes through (/repo/bark/geometry/commons.hpp, line.hpp, polygon.hpp), over the real
    numbers.  A pickled array is its list of rows. *)
From Coq Require Import Reals List Bool.
From Verif Require Import Base_Real Base_Geom Model_Line Model_Shape.
Import ListNotations.
Local Open Scope R_scope.

(** geometry.cpp:44-51, Point2d: the tuple of the two coordinates and back *)
Definition pickle_point (p : pt) : R * R := (fst p, snd p).
Definition unpickle_point (t : R * R) : pt := (fst t, snd t).

(** line.hpp:32 with commons.hpp:157-159: points, stored arc lengths and center. *)
Record line_obj := mkLO { lo_line : line; lo_center : pose }.
(** line.hpp:35-37, Line2d() *)
Definition new_line : line_obj := mkLO empty_line (0, 0, 0).
(** line.hpp:165-170 with commons.hpp:97-105, Line2d(array): the center is not initialised, [junk] *)
Definition line_of_array (junk : pose) (rows : list pt) : line_obj := mkLO (line_of_matrix rows) junk.
(** line.hpp:46-48, AddPoint; 85-87, Reverse *)
Definition lo_add (l : line_obj) (p : pt) : line_obj := mkLO (add_point (lo_line l) p) (lo_center l).
Definition lo_reverse (l : line_obj) : line_obj := mkLO (reverse (lo_line l)) (lo_center l).
(** commons.hpp:252-280, Transform of a line; the clone keeps the arc lengths *)
Definition lo_transform (l : line_obj) (p : pose) : line_obj :=
  let s := transform (mkShape (pts (lo_line l)) (lo_center l) 0 0 0 0) p in
  mkLO (mkLine (obj s) (ss (lo_line l))) (center s).
(** geometry.cpp:165-179 with line.hpp:172-180: the array of the points; the points are added to a new line *)
Definition pickle_line (l : line_obj) : list pt := pts (lo_line l).
Definition unpickle_line (rows : list pt) : line_obj := fold_left lo_add rows new_line.

(* ------------------------------------------------------------------ *)
(** * Polygons: outer ring, center and extents ([shape]), and the holes. *)
Record polygon := mkPolygon { po_shape : shape; po_holes : list (list pt) }.

(** boost::geometry::area of a ring of a clockwise, closed polygon type: positive if it is clockwise; rings
    of less than four points have none. *)
Fixpoint seg_sum (l : list pt) : R :=
  match l with
  | p :: (q :: _) as r => (fst p + fst q) * (snd p - snd q) + seg_sum r
  | _ => 0
  end.
Definition ring_area (l : list pt) : R := if Nat.ltb (length l) 4 then 0 else seg_sum l / 2.
(** boost::geometry::correct: rings of more than two points are closed, then made clockwise (boost compares
    coordinates up to rounding, here exactly). *)
Definition close_ring (l : list pt) : list pt :=
  if Nat.leb (length l) 2 then l
  else match l with
       | [] => []
       | p :: _ => if pt_eq_dec p (last l p) then l else l ++ [p]
       end.
Definition orient (l : list pt) : list pt := if Rltb (ring_area l) 0 then rev l else l.
Definition correct_ring (l : list pt) : list pt := orient (close_ring l).

(** polygon.hpp:144-159, UpdateDistancesToCenter.  The envelope of an empty ring is inverse, correcting it
    gives the box of all numbers; [huge] is the greatest double. *)
Definition box_of (huge : R) (l : list pt) : pt * pt :=
  match envelope l with Some b => b | None => ((- huge, - huge), (huge, huge)) end.
Definition extents (huge : R) (l : list pt) (c : pose) : shape :=
  let b := box_of huge l in
  mkShape l c (Rabs (fst (fst b) - px c)) (Rabs (fst (snd b) - px c)) (Rabs (snd (fst b) - py c)) (Rabs (snd (snd b) - py c)).
(** polygon.hpp:76-82, Polygon2d(); 84-108, the constructors from center and points *)
Definition new_polygon : polygon := mkPolygon (mkShape [] (0, 0, 0) 0 0 0 0) [].
Definition polygon_of (huge : R) (c : pose) (rows : list pt) : polygon := mkPolygon (extents huge (correct_ring rows) c) [].
(** commons.hpp:139-142, AddPoint: boost::geometry::append to the outer ring only *)
Definition po_add (p : polygon) (x : pt) : polygon :=
  let s := po_shape p in mkPolygon (with_obj s (obj s ++ [x]) (center s)) (po_holes p).
(** commons.hpp:252-280, Transform *)
Definition po_transform (p : polygon) (q : pose) : polygon :=
  mkPolygon (transform (po_shape p) q) (map (fun h => obj (transform (mkShape h (center (po_shape p)) 0 0 0 0) q)) (po_holes p)).
(** geometry.cpp:239-249 with polygon.hpp:187-196 (ToArray: the outer ring): array and center; the
    constructor from center and array *)
Definition pickle_polygon (p : polygon) : list pt * pose := (obj (po_shape p), center (po_shape p)).
Definition unpickle_polygon (huge : R) (t : list pt * pose) : polygon := polygon_of huge (snd t) (fst t).
