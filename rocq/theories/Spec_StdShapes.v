(** Contours (specification for C123). *)
From Coq Require Import Reals List.
From Verif Require Import Base_Geom Spec_Shape.
Import ListNotations.
Local Open Scope R_scope.

(** [a] and [b] are consecutive corners of the ring. *)
Definition edge (l : list pt) (a b : pt) : Prop := exists l1 l2, l = l1 ++ a :: b :: l2.

(** A closed, clockwise, convex contour: it ends in the corner it starts from, no other corner repeats,
    every corner lies to the right of (or on) the line through every edge, and not all on one line. *)
Definition convex_contour (l : list pt) : Prop :=
  (exists p q, l = p :: q /\ last q p = p /\ q <> []) /\
  NoDup (tl l) /\
  (forall a b p, edge l a b -> In p l -> cross3 a b p <= 0) /\
  (exists a b p, edge l a b /\ In p l /\ cross3 a b p < 0).

(** Mirror image in the vehicle's longitudinal axis. *)
Definition mirror_symmetric (l : list pt) : Prop := forall p, In p l -> In (fst p, - snd p) l.

(** [lo <= f <= hi] on the points, both attained. *)
Definition range (f : pt -> R) (l : list pt) (lo hi : R) : Prop :=
  (exists p, In p l /\ f p = lo) /\ (exists p, In p l /\ f p = hi) /\ forall p, In p l -> lo <= f p <= hi.
