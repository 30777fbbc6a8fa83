(* Vocabulary for the rule-based lane change decisions: what stands on a corridor, seen from the ego. *)
From Coq Require Import List NArith ZArith QArith Qabs Bool.
From Verif Require Import Model_Map Model_World Spec_World Model_FrontRear Spec_FrontRear Model_LaneChange.
Import ListNotations.
Local Open Scope Q_scope.

Section Spec.
  Context {T : Types} (O : Ops T).
  Variable Corridor : Type.
  Variable cor_poly : Corridor -> tPoly T.
  Variable position : tState T -> tPoint T.
  Variable rel : Corridor -> tState T -> tShape T -> tState T -> tShape T -> frel.
  Variable velocity : tState T -> Q.
  Variable until_end : Corridor -> tPoint T -> Q.
  (* the ego: id, agent object, current state *)
  Variables (w : world T) (ego : AgentId) (e : agent T) (s : tState T).

  (* another live agent of the world whose footprint touches corridor [c], at most 100 m beside it, with
     longitudinal distance [r_lon d] *)
  Definition on_corridor (c : Corridor) (a : agent T) (d : frel) : Prop :=
    (get_agent w (ag_id a) = Some a /\
     exists s', current_state a = Some s' /\ collide O (ag_shape a) s' (cor_poly c) = true) /\
    candidate O Corridor rel w ego s (ag_shape e) c 100 b_pi a d.
  Definition ahead (c : Corridor) (a : agent T) (d : frel) : Prop := on_corridor c a d /\ 0 <= r_lon d.
  Definition behind (c : Corridor) (a : agent T) (d : frel) : Prop := on_corridor c a d /\ r_lon d < 0.

  (* [x] is the free distance on [c]: the least of the remaining length of the corridor and the distances to the
     agents ahead on it (1e6 if there is none) *)
  Definition free_distance (c : Corridor) (x : Q) : Prop :=
    x <= until_end c (position s) /\
    (forall a d, ahead c a d -> x <= r_lon d) /\
    ((forall a d, ~ ahead c a d) -> x <= 1000000) /\
    (x == until_end c (position s) \/ (exists a d, ahead c a d /\ x == r_lon d) \/
     ((forall a d, ~ ahead c a d) /\ x == 1000000)).

  (* the gap behind, judged on the agent FARTHEST behind (smallest id on ties): see C10 *)
  Definition farthest_behind (c : Corridor) (a : agent T) (d : frel) : Prop :=
    behind c a d /\
    forall a' d', behind c a' d' -> r_lon d < r_lon d' \/ (r_lon d == r_lon d' /\ (ag_id a <= ag_id a')%N).
  Definition gap_to (p : lc_params) (a : agent T) (d : frel) : Prop :=
    exists sa, current_state a = Some sa /\
      lc_min_rear p + Qabs (velocity sa - velocity s) * lc_time_gap p <= - r_lon d.
  Definition rear_gap (p : lc_params) (c : Corridor) : Prop :=
    ((forall a d, ~ behind c a d) /\ lc_min_rear p <= 1000) \/
    (exists a d, farthest_behind c a d /\ gap_to p a d).

  (* corridor [c], with free distance [x], passes all filters *)
  Definition admissible (p : lc_params) (c : Corridor) (x : Q) : Prop :=
    lc_min_remaining p <= until_end c (position s) /\ free_distance c x /\ lc_min_front p <= x /\ rear_gap p c.

  (* [c] is the first corridor of [cs] with the largest free distance among the admissible ones *)
  Definition best_corridor (p : lc_params) (cs : list Corridor) (c : Corridor) : Prop :=
    exists l1 l2 x, cs = l1 ++ c :: l2 /\ admissible p c x /\
      (forall c' x', In c' l1 -> admissible p c' x' -> x' < x) /\
      (forall c' x', In c' l2 -> admissible p c' x' -> x' <= x).
End Spec.
