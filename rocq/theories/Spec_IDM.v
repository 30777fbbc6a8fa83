(** Specification vocabulary for the Intelligent Driver Model: the published law, independent of the code. *)
From Coq Require Import Reals List.
Import ListNotations.
Local Open Scope R_scope.

(** Desired gap s* = s0 + v T + v (v - v_leader) / (2 sqrt(a b)). *)
Definition desired_gap (s0 T a b v vl : R) : R := s0 + v * T + v * (v - vl) / (2 * sqrt (a * b)).
(** Free-road acceleration a (1 - (v/v0)^delta). *)
Definition free_law (a v0 : R) (delta : nat) (v : R) : R := a * (1 - (v / v0) ^ delta).
(** IDM acceleration for gap s > 0. *)
Definition idm_law (s0 T a b v0 : R) (delta : nat) (s v vl : R) : R :=
  a * (1 - (v / v0) ^ delta - (desired_gap s0 T a b v vl / s) ^ 2).
(** y is x limited to [lo, hi]. *)
Definition limited (lo hi x y : R) : Prop :=
  (x < lo -> y = lo) /\ (hi < x -> y = hi) /\ (lo <= x <= hi -> y = x).

(** Consecutive elements of a list satisfy a relation. *)
Definition consecutive {A} (P : A -> A -> Prop) (l : list A) : Prop :=
  forall i x y, nth_error l i = Some x -> nth_error l (S i) = Some y -> P x y.
