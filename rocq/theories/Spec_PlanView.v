(** Curves of road geometries (specification for C46, C54, C55, C56). *)
From Coq Require Import Reals List.
From Verif Require Import Base_Geom.
Import ListNotations.
Local Open Scope R_scope.

(** [g] is the curve of unit speed that starts in [start] and has the heading [hd s] after the distance [s]. *)
Definition unit_curve (g : R -> pt) (start : pt) (hd : R -> R) : Prop :=
  g 0 = start /\
  forall s, derivable_pt_lim (fun x => fst (g x)) s (cos (hd s)) /\
            derivable_pt_lim (fun x => snd (g x)) s (sin (hd s)).

(** The positions from 0 to [len] in steps of [inc], the last one exactly at [len]. *)
Definition sample_grid (len inc : R) (l : list R) : Prop :=
  (len = 0 /\ l = [0]) \/
  (0 < len /\ exists n, INR n * inc < len <= INR (S n) * inc /\
     l = map (fun i => INR i * inc) (seq 0 (S n)) ++ [len]).

(** Headings along the OpenDRIVE primitives. *)
Definition line_heading (h s : R) : R := h.
Definition arc_heading (h k s : R) : R := h + k * s.
Definition spiral_heading (h len k0 k1 s : R) : R := h + k0 * s + (k1 - k0) / len * s * s / 2.

(** The Fresnel integrals are characterised by their derivatives. *)
Definition fresnel_integrals (FC FS : R -> R) : Prop :=
  forall x, derivable_pt_lim FC x (cos (PI / 2 * x * x)) /\ derivable_pt_lim FS x (sin (PI / 2 * x * x)).

(** The lateral offset of [q] from the directed line through [a] and [b], positive to the left. *)
Definition left_offset (a b q : pt) (d : R) : Prop :=
  (fst b - fst a) * (snd q - snd a) - (snd b - snd a) * (fst q - fst a) = d * dist a b.

(** ** Sequences of geometries *)
From Verif Require Import Model_PlanView.
Definition g_start (g : geom) : pt := match g with GLine p _ _ _ => p | GArc p _ _ _ _ => p | GSpiral p _ _ _ _ _ => p end.
Definition g_len (g : geom) : R := match g with GLine _ _ l _ => l | GArc _ _ l _ _ => l | GSpiral _ _ l _ _ _ => l end.
Definition g_inc (g : geom) : R := match g with GLine _ _ _ i => i | GArc _ _ _ _ i => i | GSpiral _ _ _ _ _ i => i end.
Definition g_heading (g : geom) : R -> R :=
  match g with
  | GLine _ h _ _ => line_heading h
  | GArc _ h _ k _ => arc_heading h k
  | GSpiral _ h len k0 k1 _ => spiral_heading h len k0 k1
  end.
(** Curves that can be built: a positive sampling distance, a nonnegative length, a curved arc, a spiral
    whose curvature changes. *)
Definition g_ok (g : geom) : Prop :=
  0 < g_inc g /\ 0 <= g_len g /\
  match g with GLine _ _ _ _ => True | GArc _ _ _ k _ => k <> 0 | GSpiral _ _ len k0 k1 _ => 0 < len /\ k0 <> k1 end.
(** Largest absolute curvature. *)
Definition g_curvature (g : geom) : R :=
  match g with GLine _ _ _ _ => 0 | GArc _ _ _ k _ => Rabs k | GSpiral _ _ _ k0 k1 _ => Rmax (Rabs k0) (Rabs k1) end.
Definition is_arc (g : geom) : Prop := match g with GArc _ _ _ _ _ => True | _ => False end.
(** Each geometry starts where the curve of the previous one ended; the whole ends in [e]. *)
Fixpoint chained (cur : pt) (gs : list geom) (e : pt) : Prop :=
  match gs with
  | [] => e = cur
  | g :: r => g_start g = cur /\ exists c, unit_curve c cur (g_heading g) /\ chained (c (g_len g)) r e
  end.
Fixpoint total_length (gs : list geom) : R := match gs with [] => 0 | g :: r => g_len g + total_length r end.
