(** Model of bark/world/evaluation/safe_distances/evaluator_safe_dist_base.hpp, evaluator_static_safe_dist.cpp and
    evaluator_safe_dist_drivable_area.cpp. Polygons enter through oracles: [foot] (GetPolygonFromState), [wide] (Inflate by the two
    safety distances, then Transform to the pose), [meets] (Collide of two polygons), [wide_on_road] (bg::within of the inflated
    footprint in the road corridor's polygon; [None]: no road corridor). Model_Shape gives [foot] and [wide] below. *)
From Coq Require Import List NArith ZArith Bool Reals.
From Verif Require Import Base_Real Base_Geom Model_Map Model_World Model_Line Model_Shape.
Import ListNotations.

Section StaticDist.
  Context {T : Types} (O : Ops T).
  Variable pos : tState T -> tPoint T.
  Variable P : Type.
  Variables (foot wide : tShape T -> tState T -> P) (meets : P -> P -> bool).
  Variable wide_on_road : agent T -> tState T -> option bool.
  Notation agent := (agent T). Notation observed := (observed T).

  (** evaluator_static_safe_dist.cpp:48-70, the loop; the result is [colliding]. *)
  Fixpoint near_loop (ego : AgentId) (sh : tShape T) (s : tState T) (l : kmap agent) : option bool :=
    match l with
    | [] => Some false
    | (_, a) :: r =>
        if N.eqb ego (ag_id a) then near_loop ego sh s r
        else match current_state a with
             | None => None
             | Some s2 =>
                 if meets (wide sh s) (foot (ag_shape a) s2) then Some true
                 else if meets (wide (ag_shape a) s2) (foot sh s) then Some true
                 else near_loop ego sh s r
             end
    end.
  (** evaluator_static_safe_dist.cpp:29-72, CheckSafeDistance. *)
  Definition static_check (ow : observed) : option bool :=
    match get_agent (ow_world ow) (ow_ego ow) with
    | None => Some true
    | Some a =>
        match current_state a with
        | None => None
        | Some s => match get_nearest_agents O (ow_world ow) (pos s) 4 with
                    | None => None
                    | Some near => option_map negb (near_loop (ow_ego ow) (ag_shape a) s near)
                    end
        end
    end.
  (** evaluator_safe_dist_drivable_area.cpp:33-35 with evaluator_drivable_area.hpp:60-72; a missing ego is a null dereference. *)
  Definition area_check (ow : observed) : option bool :=
    match get_agent (ow_world ow) (ow_ego ow) with
    | None => None
    | Some a => match current_state a with None => None | Some s => wide_on_road a s end
    end.
  (** evaluator_safe_dist_base.hpp:27-31, Evaluate(ObservedWorld): the counter (an int, unbounded here) is the result. *)
  Definition count_check (check : observed -> option bool) (n : Z) (ow : observed) : option Z :=
    match check ow with None => None | Some ok => Some (n + (if ok then 0 else 1))%Z end.
  (** A sequence of evaluations with one evaluator object. *)
  Fixpoint count_all (check : observed -> option bool) (n : Z) (l : list observed) : option Z :=
    match l with
    | [] => Some n
    | ow :: r => match count_check check n ow with None => None | Some n' => count_all check n' r end
    end.
  (** evaluator_safe_dist_base.hpp:22-26, Evaluate(World): the ids not in the world are skipped by Observe, at(0) then throws. *)
  Definition count_world (check : observed -> option bool) (n : Z) (w : world T) (id : AgentId) : option Z :=
    match snd (observe_world O w [id]) with [] => None | ow :: _ => count_check check n ow end.
End StaticDist.

(** agent.cpp:147-154 and evaluator_static_safe_dist.cpp:40-45: the rings compared by Collide. *)
Definition foot_ring (s : shape) (p : pose) : list pt := obj (transform s p).
Definition wide_ring (dx dy : R) (s : shape) (p : pose) : list pt := obj (transform (base_inflate s dx dy) p).
