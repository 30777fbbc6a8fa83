(** Specification vocabulary for Frenet coordinates (C26, C51). *)
From Coq Require Import Reals List.
From Verif Require Import Base_Geom.
Import ListNotations.
Local Open Scope R_scope.

(** Component of [v] to the left of the direction [a], and along it. *)
Definition left_of_dir (a : R) (v : pt) : R := cos a * snd v - sin a * fst v.
Definition along_dir (a : R) (v : pt) : R := cos a * fst v + sin a * snd v.

(** Corners of a vehicle with reach [f] to the front, [r] to the rear and [w] to either side. *)
Definition corners (f r w : R) : list pt := [(f, w); (f, - w); (- r, w); (- r, - w)].

(** [m] is the greatest reach of the corners in the direction [d] of the road frame, if the vehicle is
    turned by [h] (positive: left) against the road. *)
Definition turned (h : R) (p : pt) : pt := (fst p * cos h - snd p * sin h, fst p * sin h + snd p * cos h).
Definition reach (h : R) (f r w : R) (d : pt) (m : R) : Prop :=
  (exists p, In p (corners f r w) /\ fst (turned h p) * fst d + snd (turned h p) * snd d = m) /\
  (forall p, In p (corners f r w) -> fst (turned h p) * fst d + snd (turned h p) * snd d <= m).
Definition ahead : pt := (1, 0).
Definition backward : pt := (-1, 0).
Definition leftward : pt := (0, 1).
Definition rightward : pt := (0, -1).

(** Signed gap between the intervals [c1 - lo1, c1 + hi1] and [c2 - lo2, c2 + hi2]: positive if the second
    lies above, negative if below, and absent if they meet. *)
Definition interval_gap (c1 lo1 hi1 c2 lo2 hi2 g : R) : Prop :=
  (c1 + hi1 < c2 - lo2 /\ g = (c2 - lo2) - (c1 + hi1)) \/
  (c2 + hi2 < c1 - lo1 /\ g = (c2 + hi2) - (c1 - lo1)).
Definition intervals_meet (c1 lo1 hi1 c2 lo2 hi2 : R) : Prop := c2 - lo2 <= c1 + hi1 /\ c1 - lo1 <= c2 + hi2.
