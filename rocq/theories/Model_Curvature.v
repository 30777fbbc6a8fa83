(** Curvature, smoothing and signed distance of lines: bark/geometry/line.hpp:258-289, 492-503, 599-627, over the real numbers.
    [None]: undefined behaviour or an assertion of a library. *)
From Coq Require Import Reals List Bool ZArith.
From Verif Require Import Base_Real Base_Geom Model_Angle Model_Frenet Model_Line.
Import ListNotations.
Local Open Scope R_scope.

(** line.hpp:261-263: the central differences of the inner entries. *)
Fixpoint central (v : list R) : list R :=
  match v with
  | a :: (_ :: c :: _) as t => (c - a) / 2 :: central t
  | _ => []
  end.
(** line.hpp:258-268, Gradient: the first and the last entry are copied from their neighbours. With two entries these copies read
    uninitialised memory, with fewer they are out of range. *)
Definition gradient (v : list R) : option (list R) :=
  match central v with
  | [] => None
  | g :: gs => Some (g :: (g :: gs) ++ [last (g :: gs) g])
  end.
(** line.hpp:280-287: one entry; pow(r, 1.5) for r >= 0 is r times its root. *)
Definition curvature_at (dx dy ddx ddy : R) : R :=
  let n := dx * ddy - ddx * dy in
  let r := dx * dx + dy * dy in
  let d := r * sqrt r in
  if Reqb d 0 then 0 else n / d.
Fixpoint map4 (f : R -> R -> R -> R -> R) (a b c d : list R) : list R :=
  match a, b, c, d with
  | x :: a', y :: b', z :: c', w :: d' => f x y z w :: map4 f a' b' c' d'
  | _, _, _, _ => []
  end.
(** line.hpp:270-289, GetCurvature. *)
Definition get_curvature (l : line) : option (list R) :=
  match gradient (map fst (pts l)), gradient (map snd (pts l)) with
  | Some dx, Some dy =>
    match gradient dx, gradient dy with
    | Some ddx, Some ddy => Some (map4 curvature_at dx dy ddx ddy)
    | _, _ => None
    end
  | _, _ => None
  end.

(** boost::geometry::distance of a linestring and a point: to the nearest segment, clamped; an empty linestring throws. *)
Fixpoint segs_dist2 (l : list pt) (p : pt) : option R :=
  match l with
  | a :: (b :: _) as r =>
    match segs_dist2 r p with None => Some (seg_dist2 p a b) | Some d => Some (Rmin (seg_dist2 p a b) d) end
  | _ => None
  end.
Definition bg_distance (l : list pt) (p : pt) : option R :=
  match l with
  | [] => None
  | [q] => Some (dist q p)
  | _ => option_map sqrt (segs_dist2 l p)
  end.
(** line.hpp:490-503, SignedDistance. *)
Definition signed_distance (l : line) (p : pt) (orientation : R) : option R :=
  match get_nearest_point l p, bg_distance (pts l) p with
  | Some c, Some d =>
    let v := psub c p in
    let diff := sad orientation (atan2 (snd v) (fst v)) in
    let sign := if Rltb 0 diff then 1 else if Rltb diff 0 then - (1) else 0 in
    Some (d * sign)
  | _, _ => None
  end.

(** tk::spline::set_points asserts strictly increasing parameters. *)
Fixpoint increasing (s : list R) : bool :=
  match s with
  | a :: (b :: _) as r => Rltb a b && increasing r
  | _ => true
  end.
Definition INT_MAX : Z := 2147483647.
Section Smooth.
  (** tk::spline through the given points, evaluated. *)
  Variable spline : list R -> list R -> R -> R.
  (** line.hpp:599-627, SmoothLine: a spacing 0 divides by zero; a negative number of points is, compared with the unsigned
      counter, a huge one, so that the loop does not end before memory does; the splines assert as many parameters as points. *)
  Definition smooth_line (l : line) (ds : R) : option line :=
    if Nat.ltb (length (pts l)) 3 then Some l
    else if Reqb ds 0 then None
    else
      let num := Ztrunc0 (line_length l / ds) in
      if (num <? 0)%Z || (INT_MAX <? num)%Z then None
      else if negb (Nat.eqb (length (ss l)) (length (pts l))) || negb (increasing (ss l)) then None
      else
        let sx := spline (ss l) (map fst (pts l)) in
        let sy := spline (ss l) (map snd (pts l)) in
        let lss := fold_left (fun acc j => add_point acc (sx (INR j * ds), sy (INR j * ds))) (seq 0 (S (Z.to_nat num))) empty_line in
        if Rltb (IZR num * ds) (line_length l) then
          match last_opt (pts l) with Some e => Some (add_point lss e) | None => None end
        else Some lss.
End Smooth.
