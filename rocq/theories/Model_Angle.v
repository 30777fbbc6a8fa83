(** Model of bark/geometry/angle.hpp over the reals.

    [p] is the constant B_PI (angle.hpp:17), any positive real: the theorems
    hold both for the mathematical pi and for the double literal. [fl] is the
    rounding done by the conversion of a double to the float return type of
    NormToPI (angle.hpp:37). Rounding of the double operations themselves is not
    modelled (std::fmod is exact in IEEE arithmetic; the additions are not). *)
From Coq Require Import Reals ZArith.
Local Open Scope R_scope.

(** Truncation towards zero, as in the definition of std::fmod. *)
Definition Ztrunc0 (x : R) : Z :=
  if Rlt_dec x 0 then (- Int_part (- x))%Z else Int_part x.

(** std::fmod(x, y): x - trunc(x/y)*y. *)
Definition fmod (x y : R) : R := x - IZR (Ztrunc0 (x / y)) * y.

(** angle.hpp:29-35 Norm0To2PI *)
Definition Norm0To2PI (p angle : R) : R :=
  let normalized := fmod angle (p * 2) in
  if Rlt_dec normalized 0 then normalized + p * 2 else normalized.

(** angle.hpp:37-43 NormToPI (float return value: [fl]) *)
Definition NormToPI (p : R) (fl : R -> R) (angle : R) : R :=
  let normalized := fmod (angle + p) (p * 2) in
  let normalized := if Rlt_dec normalized 0 then normalized + p * 2 else normalized in
  fl (normalized - p).

(** angle.hpp:52-54 AngleDiff *)
Definition AngleDiff (p : R) (fl : R -> R) (angle1 angle2 : R) : R :=
  Rabs (NormToPI p fl angle1 - NormToPI p fl angle2).

(** angle.hpp:63-66 SignedAngleDiff *)
Definition SignedAngleDiff (p : R) (fl : R -> R) (angle1 angle2 : R) : R :=
  let adiff := NormToPI p fl (angle1 - angle2) in
  fmod (adiff + p) (p * 2) - p.

Definition exact (x : R) : R := x.
