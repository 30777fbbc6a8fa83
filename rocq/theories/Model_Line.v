(** Model of bark/geometry/line.hpp: polylines with stored arc lengths. Doubles are real numbers.
    The result [None] stands for undefined behaviour, a thrown exception or a NaN. *)
From Coq Require Import Reals List Bool.
From Verif Require Import Base_Real Base_Geom.
Import ListNotations.
Local Open Scope R_scope.

(** line.hpp:32-33 and 120: the points (obj_) and the stored arc lengths (s_). *)
Record line : Type := mkLine { pts : list pt; ss : list R }.

(** line.hpp:122-148, RecomputeS: running sum of the distances to the previous point. *)
Fixpoint rs_loop (acc : R) (last : pt) (l : list pt) : list R :=
  match l with
  | [] => []
  | p :: r => let acc' := acc + dist p last in acc' :: rs_loop acc' p r
  end.
Definition recompute (l : list pt) : list R :=
  match l with
  | [] => []
  | [_] => [0]
  | p :: _ => rs_loop 0 p l
  end.
(** Lines the constructors and RecomputeS produce. *)
Definition of_points (l : list pt) : line := mkLine l (recompute l).
(** line.hpp:35-37 (default constructor) and 165-170 (matrix constructor). *)
Definition empty_line : line := mkLine [] [].
Definition line_of_matrix (rows : list pt) : line := of_points rows.
(** line.hpp:46-48, AddPoint. *)
Definition add_point (l : line) (p : pt) : line := of_points (pts l ++ [p]).
(** line.hpp:50-55, AddPoints. *)
Definition add_points (l : line) (ps : list pt) : line := of_points (fold_left (fun a p => a ++ [p]) ps (pts l)).
(** line.hpp:57-59, Length: boost::geometry::length, the sum of the segment lengths. *)
Fixpoint bg_length (l : list pt) : R :=
  match l with
  | p :: (q :: _) as r => dist p q + bg_length r
  | _ => 0
  end.
Definition line_length (l : line) : R := bg_length (pts l).
(** line.hpp:65-68, AppendLinestring. *)
Definition append_linestring (l m : line) : line := of_points (pts l ++ pts m).
(** line.hpp:85-87, Reverse: only the points are reversed. *)
Definition reverse (l : line) : line := mkLine (rev (pts l)) (ss l).
(** line.hpp:150-153, RemoveDuplicates: boost::geometry::unique drops consecutive equal points. *)
Fixpoint bg_unique (l : list pt) : list pt :=
  match l with
  | p :: (q :: _) as r => if pt_eq_dec p q then bg_unique r else p :: bg_unique r
  | _ => l
  end.
Definition remove_duplicates (l : line) : line := of_points (bg_unique (pts l)).
(** line.hpp:209-216, free function Rotate. boost's rotate_transformer turns clockwise. *)
Definition rot_cw (h : R) (p : pt) : pt := (fst p * cos h + snd p * sin h, - fst p * sin h + snd p * cos h).
Definition rotate_line (l : line) (h : R) : line := of_points (map (rot_cw h) (pts l)).
(** line.hpp:218-224, free function Translate: the arc lengths of the result stay empty. *)
Definition shift_pt (x y : R) (p : pt) : pt := (fst p + x, snd p + y).
Definition translate_line (l : line) (x y : R) : line := mkLine (map (shift_pt x y) (pts l)) [].
(** line.hpp:226-231, Simplify; boost's simplify is a parameter. *)
Definition simplify_line (bg_simplify : list pt -> R -> list pt) (l : line) (d : R) : line := of_points (bg_simplify (pts l) d).

(** std::upper_bound: first index whose value is greater than [s] (the size if none).
    std::lower_bound: first index whose value is not less than [s].
    (Binary search and linear search agree on sorted vectors.) *)
Fixpoint upper_bound (l : list R) (s : R) : nat :=
  match l with [] => 0%nat | x :: r => if Rltb s x then 0%nat else S (upper_bound r s) end.
Fixpoint lower_bound (l : list R) (s : R) : nat :=
  match l with [] => 0%nat | x :: r => if Rltb x s then S (lower_bound r s) else 0%nat end.

(** line.hpp:233-242, GetSegmentEndIdx (the vector is not empty where it is called). *)
Definition segment_end_idx (l : line) (s : R) : nat :=
  let up := upper_bound (ss l) s in if Nat.eqb up (length (ss l)) then (length (ss l) - 1)%nat else up.
(** line.hpp:244-250, CheckSForSegmentIntersection. *)
Definition at_vertex (l : line) (s : R) : bool := negb (Nat.eqb (segment_end_idx l s) (lower_bound (ss l) s)).

Definition last_opt {A} (l : list A) : option A := nth_error l (length l - 1).

(** line.hpp:297-325, GetPointAtS. *)
Definition get_point_at_s (l : line) (s : R) : option pt :=
  let n := length (pts l) in
  if Nat.leb n 1 then Some (0, 0)
  else if Rleb s 0 then nth_error (pts l) 0
  else match last_opt (ss l) with
       | None => None                                  (* s_.back() of an empty vector *)
       | Some b =>
         if Rleb b s then nth_error (pts l) (n - 1)
         else match segment_end_idx l s with
              | 0%nat => None                           (* at(-1) *)
              | S i =>
                match nth_error (ss l) i, nth_error (ss l) (S i), nth_error (pts l) i, nth_error (pts l) (S i) with
                | Some s0, Some s1, Some p0, Some p1 =>
                  if Reqb (s1 - s0) 0 then None         (* division by zero *)
                  else let k := (s - s0) / (s1 - s0) in
                       Some (fst p0 + k * (fst p1 - fst p0), snd p0 + k * (snd p1 - snd p0))
                | _, _, _, _ => None
                end
              end
       end.

(** line.hpp:327-354, GetTangentAngleAtS. *)
Definition seg_angle (p q : pt) : R := atan2 (snd q - snd p) (fst q - fst p).
Definition mean_angle (p1 p2 p3 : pt) : R :=
  let sin_mean := / 2 * (sin (seg_angle p1 p2) + sin (seg_angle p2 p3)) in
  let cos_mean := / 2 * (cos (seg_angle p1 p2) + cos (seg_angle p2 p3)) in
  atan2 sin_mean cos_mean.
Definition nth_seg (l : list pt) (i : nat) : option R :=
  match nth_error l i, nth_error l (S i) with Some p, Some q => Some (seg_angle p q) | _, _ => None end.
Definition get_tangent_angle_at_s (l : line) (s : R) : option R :=
  match last_opt (ss l) with
  | None => None
  | Some b =>
    if Rleb b s then (match length (pts l) with S (S k) => nth_seg (pts l) k | _ => None end)
    else if Rleb s 0 then nth_seg (pts l) 0
    else match segment_end_idx l s with
         | 0%nat => None
         | S i =>
           if at_vertex l s then
             match i with
             | 0%nat => None
             | S j => match nth_error (pts l) j, nth_error (pts l) (S j), nth_error (pts l) (S (S j)) with
                      | Some p1, Some p2, Some p3 => Some (mean_angle p1 p2 p3)
                      | _, _, _ => None
                      end
             end
           else nth_seg (pts l) i
         end
  end.
(** line.hpp:356-361, GetNormalAtS. *)
Definition get_normal_at_s (l : line) (s : R) : option pt :=
  match get_tangent_angle_at_s l s with
  | Some t => Some (cos (t + asin 1), sin (t + asin 1))
  | None => None
  end.

(** line.hpp:70-79, GetPointsInSInterval; copying a range whose end precedes its begin, or that leaves
    the point vector, is undefined. *)
Definition get_points_in_s_interval (l : line) (b e : R) : option (list pt) :=
  let bi := upper_bound (ss l) b in let ei := lower_bound (ss l) e in
  if Nat.leb bi ei && Nat.leb ei (length (pts l)) then Some (firstn (ei - bi) (skipn bi (pts l))) else None.
(** line.hpp:363-372, GetLineFromSInterval. *)
Definition get_line_from_s_interval (l : line) (b e : R) : option line :=
  match get_point_at_s l b, get_points_in_s_interval l b e, get_point_at_s l e with
  | Some pb, Some ps, Some pe =>
      Some (add_point (fold_left add_point ps (add_point empty_line pb)) pe)
  | _, _, _ => None
  end.
(** line.hpp:374-383, GetLineShiftedLaterally. *)
Fixpoint shift_loop (l : line) (sh : R) (sl : list R) (acc : line) : option line :=
  match sl with
  | [] => Some acc
  | s :: r =>
    match get_normal_at_s l s, get_point_at_s l s with
    | Some n, Some p => shift_loop l sh r (add_point acc (padd p (pscale n sh)))
    | _, _ => None
    end
  end.
Definition get_line_shifted_laterally (l : line) (sh : R) : option line := shift_loop l sh (ss l) empty_line.

(** boost::geometry::comparable_distance of a two-point linestring and a point: squared distance to the
    projection, clamped to the segment (strategy projected_point). *)
Definition seg_dist2 (p a b : pt) : R :=
  let vx := fst b - fst a in let vy := snd b - snd a in
  let wx := fst p - fst a in let wy := snd p - snd a in
  let c1 := wx * vx + wy * vy in
  let c2 := vx * vx + vy * vy in
  if Rleb c1 0 then dist2 p a
  else if Rleb c2 c1 then dist2 p b
  else dist2 p (lerp (c1 / c2) a b).

(** line.hpp:396-408: the first segment with least comparable distance ([None]: the initial, maximal
    double). *)
Fixpoint min_seg (l : list pt) (p : pt) (idx : nat) (best : option R) (best_idx : nat) : nat :=
  match l with
  | a :: (b :: _) as r =>
    let d := seg_dist2 p a b in
    if match best with None => true | Some m => Rltb d m end
    then min_seg r p (S idx) (Some d) idx
    else min_seg r p (S idx) best best_idx
  | _ => best_idx
  end.

(** line.hpp:385-462, GetNearestPointAndS. *)
Definition nearest_on_segment (a b p : pt) (sa sb : R) (idx : nat) : option (pt * R * nat) :=
  let a1 := fst a in let a2 := snd a in let b1 := fst b in let b2 := snd b in let p1 := fst p in let p2 := snd p in
  let den := a1 * a1 - 2 * a1 * b1 + a2 * a2 - 2 * a2 * b2 + b1 * b1 + b2 * b2 in
  if Reqb den 0 then None                               (* 0 / 0 *)
  else
  let lambda := - (a1 * b1 + a2 * b2 + a1 * p1 + a2 * p2 - b1 * p1 - b2 * p2 - a1 * a1 - a2 * a2) / den in
  if Rltb lambda 0 then Some ((a1, a2), sa, idx)
  else if Rltb 1 lambda then Some ((b1, b2), sb, idx)
  else
    let s := (1 - lambda) * sa + lambda * sb in
    let s1 := (p1 * a1 * a1 - a1 * a2 * b2 + p2 * a1 * a2 - 2 * p1 * a1 * b1 + a1 * b2 * b2 - p2 * a1 * b2
               + a2 * a2 * b1 - a2 * b1 * b2 - p2 * a2 * b1 + p1 * b1 * b1 + p2 * b1 * b2) / den in
    let s2 := (a1 * a1 * b2 - a1 * a2 * b1 + p1 * a1 * a2 - a1 * b1 * b2 - p1 * a1 * b2 + p2 * a2 * a2
               + a2 * b1 * b1 - p1 * a2 * b1 - 2 * p2 * a2 * b2 + p1 * b1 * b2 + p2 * b2 * b2) / den in
    Some ((s1, s2), s, idx).
Definition get_nearest_point_and_s (l : line) (p : pt) : option (pt * R * nat) :=
  match pts l with
  | [] => Some ((0, 0), 0, 0%nat)
  | [q] => Some (q, 0, 0%nat)
  | _ =>
    let i := min_seg (pts l) p 0 None 0 in
    match nth_error (pts l) i, nth_error (pts l) (S i), nth_error (ss l) i, nth_error (ss l) (S i) with
    | Some a, Some b, Some sa, Some sb => nearest_on_segment a b p sa sb i
    | _, _, _, _ => None
    end
  end.
(** line.hpp:463-471. *)
Definition get_nearest_point (l : line) (p : pt) : option pt := option_map (fun x => fst (fst x)) (get_nearest_point_and_s l p).
Definition get_nearest_s (l : line) (p : pt) : option R := option_map (fun x => snd (fst x)) (get_nearest_point_and_s l p).

(** line.hpp:506-566, AppendLinesNoIntersect. The boost functions intersection (of two linestrings),
    intersects (self intersection) and simplify are parameters. *)
Section Append.
Variable bg_intersection : list pt -> list pt -> list pt.
Variable bg_self_intersects : list pt -> bool.
Variable bg_simplify : list pt -> R -> list pt.

Definition cut_part (l : line) (x : pt) : option line :=
  match get_nearest_s l x with
  | None => None
  | Some si =>
    let rel := si / line_length l in
    if Rltb rel (3/10) then get_line_from_s_interval l si (line_length l)
    else if Rltb (7/10) rel then get_line_from_s_interval l 0 si
    else Some l
  end.
Definition append_no_intersect (l1 l2 : line) : option line :=
  match (match bg_intersection (pts l1) (pts l2) with
         | [x] => match cut_part l1 x, cut_part l2 x with
                  | Some a, Some b => Some (append_linestring a b)
                  | _, _ => None
                  end
         | _ => Some (append_linestring l1 l2)
         end) with
  | None => None
  | Some lo =>
    let lo := remove_duplicates lo in
    Some (if bg_self_intersects (pts lo) then simplify_line bg_simplify lo (1 / 1000000) else lo)
  end.

(** line.hpp:568-597, ConcatenateLinestring. *)
Definition min3 (a b c : R) : R := Rmin a (Rmin b c).
Definition concatenate (l1 l2 : line) : option line :=
  match nth_error (pts l1) 0, last_opt (pts l1), nth_error (pts l2) 0, last_opt (pts l2) with
  | Some f1, Some e1, Some f2, Some e2 =>
    let ff := dist f1 f2 in let fl := dist f1 e2 in let lf := dist e1 f2 in let ll := dist e1 e2 in
    if Rleb ff (min3 fl lf ll) then append_no_intersect (reverse l1) l2
    else if Rleb fl (min3 ff lf ll) then append_no_intersect (reverse l1) (reverse l2)
    else if Rleb lf (min3 ff fl ll) then append_no_intersect l1 l2
    else append_no_intersect l1 (reverse l2)
  | _, _, _, _ => None
  end.
End Append.

(** line.hpp:630-653, ComputeCenterLine (the warnings are not modelled). *)
Fixpoint center_loop (less : line) (more : list pt) (acc : line) : option line :=
  match more with
  | [] => Some acc
  | p :: r =>
    match get_nearest_point less p with
    | Some q => center_loop less r (add_point acc (pdiv (padd p q) 2))
    | None => None
    end
  end.
Definition compute_center_line (outer inner : line) : option line :=
  if Nat.ltb (length (pts outer)) (length (pts inner)) then center_loop outer (pts inner) empty_line
  else center_loop inner (pts outer) empty_line.
