(* Vocabulary for trajectories. *)
From Coq Require Import List NArith ZArith QArith Qabs Bool Arith Sorted.
From Verif Require Import Model_World Model_Traj.
Import ListNotations.

(* time stamps strictly increase *)
Definition increasing (tr : traj) : Prop := StronglySorted (fun a b => time a < time b) tr.

(* [s] is the point at time [t] on the straight line through the rows [a] and [b] *)
Definition on_line (a b : state) (t : Q) (s : state) : Prop :=
  length s = length a /\
  forall k x y, nth_error a k = Some x -> nth_error b k = Some y ->
    exists z, nth_error s k = Some z /\ z == x + (t - time a) / (time b - time a) * (y - x).

(* consecutive rows [a], [b] of a trajectory *)
Definition consecutive (tr : traj) (a b : state) : Prop := exists l r, tr = l ++ a :: b :: r.

(* rows with a common number (at least one) of components *)
Definition rectangular (n : nat) (tr : traj) : Prop := (1 <= n)%nat /\ Forall (fun r => length r = n) tr.

(* equally spaced rows *)
Definition uniform (tr : traj) (t0 h : Q) : Prop :=
  forall i r, nth_error tr i = Some r -> time r == t0 + inject_Z (Z.of_nat i) * h.
