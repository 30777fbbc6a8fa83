(** Specification for C36: intents over a sequence of planning calls, in terms of what is seen after each call. *)
From Coq Require Import Reals List.
From Verif Require Import Model_Stochastic.
Import ListNotations.
Local Open Scope R_scope.

(** [phase_start is k j]: j is the call at which the intent held after call k was taken. *)
Definition phase_start (is : list yield_intent) (k j : nat) : Prop :=
  (j <= k)%nat /\
  (forall i, (j <= i <= k)%nat -> nth_error is i = nth_error is j) /\
  (forall j', j = S j' -> nth_error is j' <> nth_error is j).
Definition other_intent (i : yield_intent) : yield_intent := match i with YIELD => NO_YIELD | _ => YIELD end.
