(** Rigid motions (specification for C27, C50). *)
From Coq Require Import Reals List.
From Verif Require Import Base_Geom.
Import ListNotations.
Local Open Scope R_scope.

(** Counter-clockwise rotation about [c] by [a], then translation by [t]. *)
Definition rigid (c : pt) (a : R) (t : pt) (p : pt) : pt :=
  (fst c + fst t + ((fst p - fst c) * cos a - (snd p - snd c) * sin a),
   snd c + snd t + ((fst p - fst c) * sin a + (snd p - snd c) * cos a)).

(** Coordinates of [p] in the frame of a vehicle at [c] with heading [a] (x ahead, y left). *)
Definition body_x (c : pt) (a : R) (p : pt) : R := (fst p - fst c) * cos a + (snd p - snd c) * sin a.
Definition body_y (c : pt) (a : R) (p : pt) : R := - (fst p - fst c) * sin a + (snd p - snd c) * cos a.

(** Twice the signed area of the triangle. *)
Definition cross3 (p q r : pt) : R := (fst q - fst p) * (snd r - snd p) - (snd q - snd p) * (fst r - fst p).

(** [m] is the greatest value of [f] on the points. *)
Definition greatest (f : pt -> R) (l : list pt) (m : R) : Prop := (exists p, In p l /\ f p = m) /\ forall p, In p l -> f p <= m.
