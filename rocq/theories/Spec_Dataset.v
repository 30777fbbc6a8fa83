(** What a window of the moving-window search has to offer, and which agents belong
    into a scenario cut out of a data set. *)

From Coq Require Import String List Arith Lia Bool QArith ZArith.
Import ListNotations.
From Verif Require Import Model_Intersection Model_ScenGen Model_Dataset.
Local Open Scope Z_scope.
Local Open Scope list_scope.

Section Spec.
Context {MS : Type}.
Variables (lanes_at : MS -> list nat) (inside : MS -> bool) (one : bool) (mins : list nat) (len : Z).

(** The track is recorded during the whole window. *)
Definition covers (tr : track MS) (ws : Z) : Prop := t_first tr <= ws /\ ws + len <= t_last tr.

(** At the start of the window the vehicle lies in the road corridor, its first lane
    is [p] and, if demanded, its only one. *)
Definition stands_on (tr : track MS) (ws : Z) (p : nat) : Prop :=
  exists t ms r, init_state tr ws = Some (t, ms) /\ lanes_at ms = p :: r /\ inside ms = true /\ (one = true -> r = []).

(** A selection of at least [m] different covering tracks on lane [p]. *)
Definition enough (d : list (track MS)) (ws : Z) (p m : nat) : Prop :=
  exists l, length l = m /\ NoDup l /\ incl l d /\ forall tr, In tr l -> covers tr ws /\ stands_on tr ws p.

(** The window satisfies MinimumNumbersPerLane, and some vehicle is recorded during it. *)
Definition qualifies (d : list (track MS)) (ws : Z) : Prop :=
  (exists tr, In tr d /\ covers tr ws) /\ forall p m, nth_error mins p = Some m -> enough d ws p m.

(** The vehicle with identifier [id] is recorded during the window and stands, at its
    start, on one of the lanes MinimumNumbersPerLane speaks of. *)
Definition usable (d : list (track MS)) (ws : Z) (id : Z) : Prop :=
  exists tr p, In tr d /\ t_id tr = id /\ covers tr ws /\ stands_on tr ws p /\ (p < length mins)%nat.
End Spec.

(** Recorded every 100 ms from the first to the last time stamp, without gaps. *)
Definition contiguous {MS} (tr : track MS) : Prop :=
  (exists a b, t_first tr = 100 * a /\ t_last tr = 100 * b /\ a <= b) /\
  (forall t, (exists ms, In (t, ms) (t_states tr)) <-> (exists q, t = 100 * q) /\ t_first tr <= t <= t_last tr) /\
  NoDup (map fst (t_states tr)).

(** Present at the same time for more than an instant. *)
Definition together (a b : info) : Prop := i_start a < i_end b /\ i_start b < i_end a.
