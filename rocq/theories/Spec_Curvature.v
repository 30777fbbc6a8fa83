(** Discrete curvature of a point sequence (specification for C116). *)
From Coq Require Import Reals Arith.
From Verif Require Import Base_Geom.
Local Open Scope R_scope.

(** The inner index next to [i] among n >= 3 indices. *)
Definition inner (n i : nat) : nat := Nat.max 1 (Nat.min i (n - 2)).
(** Half the difference of the two neighbours of the inner index next to [i]. *)
Definition slope (n : nat) (f : nat -> R) (i : nat) : R := (f (S (inner n i)) - f (inner n i - 1)%nat) / 2.
(** Signed curvature of a curve with first derivative (x', y') and second (x'', y''); 0 where the curve stands still. *)
Definition is_curvature (x1 y1 x2 y2 k : R) : Prop :=
  if Req_EM_T (x1 * x1 + y1 * y1) 0 then k = 0
  else k * (sqrt (x1 * x1 + y1 * y1) * sqrt (x1 * x1 + y1 * y1) * sqrt (x1 * x1 + y1 * y1)) = x1 * y2 - x2 * y1.

(** Turning by [a] and enlarging by [m] about the origin, then moving by [t]; mirroring at the x axis. *)
Definition similarity (m a : R) (t : pt) (p : pt) : pt :=
  (m * (cos a * fst p - sin a * snd p) + fst t, m * (sin a * fst p + cos a * snd p) + snd t).
Definition mirror (p : pt) : pt := (fst p, - snd p).
(** The points at angle a + i phi on the circle with the given center and radius. *)
Definition circle_point (c : pt) (r a phi : R) (i : nat) : pt :=
  (fst c + r * cos (a + INR i * phi), snd c + r * sin (a + INR i * phi)).
