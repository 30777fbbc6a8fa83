(** Angles modulo a full turn 2p. *)
From Coq Require Import Reals ZArith.
Local Open Scope R_scope.

(** Two angles denote the same direction. *)
Definition same_direction (p a b : R) : Prop := exists k : Z, a = b + IZR k * (2 * p).

(** Same direction up to an error [e]. *)
Definition nearly_same_direction (p e a b : R) : Prop :=
  exists k : Z, Rabs (a - (b + IZR k * (2 * p))) <= e.

(** [r] is a rotation taking [b] to [a]. *)
Definition rotates (p b r a : R) : Prop := same_direction p (b + r) a.
