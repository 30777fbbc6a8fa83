(** The asymptotic formula of fresnel. *)
From Coq Require Import Reals List Bool QArith Qreals Qabs Qround Lra Lia Psatz.
From Verif Require Import Base_Real Model_Fresnel Spec_PlanView Proof_Fresnel Proof_Fresnel2 Proof_Fresnel3.
Import ListNotations.
Local Open Scope R_scope.

Definition T1 (x : R) : R := 1 / (PI * (x * x)).
Definition U (x : R) : R := 1 / (PI * (x * x) * (PI * (x * x))).
Definition th (x : R) : R := PI * / 2 * (x * x).
Definition lf (x : R) : R := 1 - U x * pe fN (U x) / pe fD (U x).
Definition lg (x : R) : R := T1 x * pe gN (U x) / pe gD (U x).
Definition large_s (x : R) : R := / 2 - (lf x * cos (th x) + lg x * sin (th x)) / (PI * x).
Definition large_c (x : R) : R := / 2 + (lf x * sin (th x) - lg x * cos (th x)) / (PI * x).

