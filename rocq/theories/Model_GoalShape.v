(** Shapes of goals and the distance-to-goal evaluator:
    /repo/bark/world/goal_definition (GetShape, GetCurrentGoal) and
    /repo/bark/world/evaluation/evaluator_distance_to_goal.hpp, on the goals of Model_Goal. *)
From Coq Require Import List ZArith Bool.
From Verif Require Import Model_Goal.
Import ListNotations.

(** The shapes of a goal object, parallel to the object: goal_definition_polygon.hpp:31,
    goal_definition_state_limits.hpp:35, goal_definition_state_limits_frenet.hpp:52 (GetShape returns a
    stored polygon), goal_definition_sequential.hpp:48-50. *)
Inductive shapes (P : Type) := TAtom (s : P) | TSeq (ts : list (shapes P)).
Arguments TAtom {P}. Arguments TSeq {P}.

(** goal_definition_sequential.cpp:42-47, GetCurrentGoal: the index *)
Definition current_index (last : Z) : nat := if Z.eqb last (-1) then 0 else Z.to_nat last.

(** GetShape; None: at() throws, or shapes that are not those of the goal *)
Fixpoint get_shape {P O} (t : shapes P) (g : goal O) : option P :=
  match t, g with
  | TAtom s, GAtom _ => Some s
  | TSeq ts, GSeq gs last =>
      match nth_error (map get_shape ts) (current_index last), nth_error gs (current_index last) with
      | Some f, Some g' => f g'
      | _, _ => None
      end
  | _, _ => None
  end.

(** evaluator_distance_to_goal.hpp:31-50.  [agent]: the shapes, goal and position of the agent (of the
    given id, or the ego of an observed world); None: no such agent (the expectation only prints, the null
    pointer is then used), or an exception. *)
Definition distance_to_goal {P O X D} (distance : P -> X -> D) (agent : option (shapes P * goal O * X)) : option D :=
  match agent with
  | None => None
  | Some (t, g, pos) => match get_shape t g with Some s => Some (distance s pos) | None => None end
  end.
