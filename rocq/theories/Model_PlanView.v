(** Model of bark/world/opendrive/plan_view.cpp, the position part of odrSpiral.cpp and
    CreateLineWithOffsetFromLine of opendrive/commons.hpp. Doubles are real numbers, M_PI is the number PI.
    The result [None] stands for undefined behaviour, an infinite or NaN coordinate, or a loop that does
    not end. The self-intersection checks only write log messages and are left out. *)
From Coq Require Import Reals ZArith List Bool.
From Verif Require Import Base_Real Base_Geom Model_Angle Model_Line.
Import ListNotations.
Local Open Scope R_scope.

(** plan_view.hpp:61-62: reference_line_ and length_; plan_view.hpp:26, the constructor. *)
Record plan_view : Type := mkPV { pv_line : line; pv_length : R }.
Definition empty_plan_view : plan_view := mkPV empty_line 0.

(** plan_view.hpp:47, GetLength. *)
Definition pv_get_length (v : plan_view) : R := pv_length v.

(** plan_view.cpp:28-55, AddLine. [int num_points] is the quotient truncated towards zero (the quotient
    is assumed to fit an int); for a negative value the comparison with the size_t counter does not end;
    the quotient of a zero increment is not a number an int can hold. *)
Definition line_place (p : pt) (h d : R) : pt := (fst p + d * cos h, snd p + d * sin h).
Definition pv_add_line (v : plan_view) (p : pt) (h len inc : R) : option plan_view :=
  if Reqb inc 0 then None
  else
    let num := Ztrunc0 (len / inc) in
    if Z.ltb num 0 then None
    else
      let l := fold_left (fun l i => add_point l (line_place p h (INR i * inc))) (seq 0 (S (Z.to_nat num))) (pv_line v) in
      let l := if Rltb (IZR num * inc) len then add_point l (line_place p h len) else l in
      Some (mkPV l (line_length l)).

(** plan_view.cpp:66-72 and 101-107 (also commons.hpp:213-224): the loop
    [for (; s <= len;) { use s; if (len - s < inc && len - s > 0) inc = len - s; s += inc; }]
    as the list of the visited [s]. [None] when the fuel is used up. *)
Fixpoint s_loop (fuel : nat) (len inc s : R) : option (list R) :=
  match fuel with
  | O => None
  | S fuel' =>
    if Rleb s len then
      let inc' := if Rltb (len - s) inc && Rltb 0 (len - s) then len - s else inc in
      match s_loop fuel' len inc' (s + inc') with Some r => Some (s :: r) | None => None end
    else Some []
  end.

(** plan_view.cpp:83-92, CalcArcPosition; [None] for the division by a zero curvature. *)
Definition calc_arc_position (s heading curvature : R) : option pt :=
  if Reqb curvature 0 then None
  else
    let initial_heading := fmod heading (2 * PI) in
    let hdg := initial_heading - PI / 2 in
    let a := 2 / curvature * sin (s * curvature / 2) in
    let alpha := (PI - s * curvature) / 2 - hdg in
    Some (- 1 * a * cos alpha, a * sin alpha).

(** [AddPoint] for every visited [s]. *)
Fixpoint add_samples (place : R -> option pt) (l : line) (sl : list R) : option line :=
  match sl with
  | [] => Some l
  | s :: r => match place s with Some p => add_samples place (add_point l p) r | None => None end
  end.

(** plan_view.cpp:94-113, AddArc. length_ is not written. [fuel] bounds the number of loop rounds. *)
Definition pv_add_arc (fuel : nat) (v : plan_view) (p : pt) (h len curvature inc : R) : option plan_view :=
  match s_loop fuel len inc 0 with
  | None => None
  | Some sl =>
    match add_samples (fun s => match calc_arc_position s h curvature with
                                | Some d => Some (fst p + fst d, snd p + snd d) | None => None end)
                      (pv_line v) sl with
    | Some l => Some (mkPV l (pv_length v))
    | None => None
    end
  end.

(** odrSpiral.cpp:240-284, odrSpiral with a start curvature (position only). [FC], [FS] are the two
    results cca, ssa of fresnel (odrSpiral.cpp:151-187). std::complex arithmetic is written out on pairs. *)
Definition cadd (a b : pt) : pt := (fst a + fst b, snd a + snd b).
Definition cmul (a b : pt) : pt := (fst a * fst b - snd a * snd b, fst a * snd b + snd a * fst b).
Definition creal (x : R) : pt := (x, 0).
Definition cexp_i (x : R) : pt := (cos x, sin x).
Definition ci : pt := (0, 1).
Definition odr_spiral (FC FS : R -> R) (s x0 y0 cdot k0 th : R) : pt :=
  let c0 := (x0, y0) in
  if Reqb cdot 0 && Reqb k0 0 then cadd c0 (cmul ci (creal (th * s)))
  else if Reqb cdot 0 then
    cadd c0 (cmul (cmul (cmul ci (creal th)) (creal (/ k0)))
                  (cadd (creal (sin (k0 * s))) (cmul ci (creal (1 - cos (k0 * s))))))
  else
    let xxa := (k0 + cdot * s) / sqrt (PI * Rabs cdot) in
    let xxb := k0 / sqrt (PI * Rabs cdot) in
    let cs1 := cmul (creal (sqrt (PI / Rabs cdot))) (cexp_i (th - k0 * k0 / 2 / cdot)) in
    let cs2 := if Rltb cdot 0 then (- (FC xxa - FC xxb), FS xxa - FS xxb) else (FC xxa - FC xxb, FS xxa - FS xxb) in
    cadd c0 (cmul cs1 cs2).

(** plan_view.cpp:57-81, AddSpiral; the curvature derivative divides by the length. *)
Definition pv_add_spiral (FC FS : R -> R) (fuel : nat) (v : plan_view) (p : pt) (h len k0 k1 inc : R) : option plan_view :=
  if Reqb len 0 then None
  else
    let cdot := (k1 - k0) / len in
    match s_loop fuel len inc 0 with
    | None => None
    | Some sl =>
      match add_samples (fun s => Some (odr_spiral FC FS s (fst p) (snd p) cdot k0 h)) (pv_line v) sl with
      | Some l => Some (mkPV l (line_length l))
      | None => None
      end
    end.

(** plan_view.cpp:115-121, ApplyOffsetTransform. *)
Definition pv_apply_offset (v : plan_view) (x y h : R) : plan_view :=
  mkPV (translate_line (rotate_line (pv_line v) h) x y) (pv_length v).

(** opendrive/commons.hpp:62-64, Polynom. *)
Definition polynom (x a b c d : R) : R := a + b * x + c * x * x + d * x * x * x.

(** opendrive/commons.hpp:58-60 and 164-168: XodrLaneOffset and XodrLaneWidth. *)
Record lane_width : Type := mkLW { lw_start : R; lw_end : R; lw_a : R; lw_b : R; lw_c : R; lw_d : R }.

(** opendrive/commons.hpp:189-217: offset copies of the vertices; the direction at a vertex is that of the
    incoming segment (of the first segment for the first vertex). *)
Definition seg_normal (p q : pt) : pt := (cos (seg_angle p q + asin 1), sin (seg_angle p q + asin 1)).
Definition off_pt (p n : pt) (scale : R) : pt := (fst p + scale * fst n, snd p + scale * snd n).
Fixpoint offset_rest (scale : R) (prev : pt) (l : list pt) (acc : line) : line :=
  match l with
  | [] => acc
  | c :: r => offset_rest scale c r (add_point acc (off_pt c (seg_normal prev c) scale))
  end.

(** opendrive/commons.hpp:170-236, CreateLineWithOffsetFromLine. [bg_simplify] is boost's simplify. *)
Definition lane_scale (id : Z) (w : R) : R := - (if Z.ltb 0 id then - (1) else 1) * w.
Definition create_line_with_offset (bg_simplify : list pt -> R -> list pt) (fuel : nat)
    (previous : line) (id : Z) (w : lane_width) (inc max_delta : R) : option line :=
  let prev := mkLine (bg_unique (pts previous)) (ss previous) in
  let sp := simplify_line bg_simplify prev max_delta in
  let s := lw_start w in
  let s_end := if Rltb (line_length sp) (lw_end w) then line_length sp else lw_end w in
  let tmp :=
    if Reqb (lw_b w) 0 && Reqb (lw_c w) 0 && Reqb (lw_d w) 0 && Nat.ltb 1 (length (pts sp)) && Reqb s 0
       && Rltb (Rabs (s_end - s - line_length sp)) 1 then
      match pts sp with
      | p0 :: p1 :: r =>
        let scale := lane_scale id (lw_a w) in
        Some (offset_rest scale p0 (p1 :: r) (add_point empty_line (off_pt p0 (seg_normal p0 p1) scale)))
      | _ => None
      end
    else
      match s_loop fuel s_end inc s with
      | None => None
      | Some sl =>
        add_samples (fun s' => match get_point_at_s sp s', get_normal_at_s sp s' with
          | Some p, Some n => Some (off_pt p n (lane_scale id (polynom (s' - lw_start w) (lw_a w) (lw_b w) (lw_c w) (lw_d w))))
          | _, _ => None end) empty_line sl
      end in
  match tmp with Some l => Some (simplify_line bg_simplify l max_delta) | None => None end.

(** lane.cpp:41-66, XodrLane::append (the intersection checks only log). *)
Definition lane_append (bg_simplify : list pt -> R -> list pt) (fuel : nat) (lane_line previous : line)
    (pos : Z) (w : lane_width) (inc : R) : option line :=
  match create_line_with_offset bg_simplify fuel previous pos w inc (1 / 1000) with
  | Some l => Some (append_linestring lane_line l)
  | None => None
  end.

(** A call of AddLine, AddArc or AddSpiral, and a sequence of such calls on a plan view. *)
Inductive geom : Type :=
| GLine (p : pt) (h len inc : R)
| GArc (p : pt) (h len k inc : R)
| GSpiral (p : pt) (h len k0 k1 inc : R).
Definition pv_add (FC FS : R -> R) (fuel : nat) (v : plan_view) (g : geom) : option plan_view :=
  match g with
  | GLine p h len inc => pv_add_line v p h len inc
  | GArc p h len k inc => pv_add_arc fuel v p h len k inc
  | GSpiral p h len k0 k1 inc => pv_add_spiral FC FS fuel v p h len k0 k1 inc
  end.
Fixpoint pv_add_all (FC FS : R -> R) (fuel : nat) (v : plan_view) (gs : list geom) : option plan_view :=
  match gs with
  | [] => Some v
  | g :: r => match pv_add FC FS fuel v g with Some v' => pv_add_all FC FS fuel v' r | None => None end
  end.
