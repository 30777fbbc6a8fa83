(** UniformVehicleDistribution, the scenario generator,
    /repo/bark/runtime/scenario/scenario_generation/uniform_vehicle_distribution.py.

    Center lines, poses and points of the plane are opaque.  [lanes_of src snk] is what the
    map answers for a road corridor from [src] to [snk]: None if there is none, otherwise
    the lane corridors (as numbers) below the sink and below the source.  The center lines
    of the map are part of the state, because the binding of LaneCorridor.center_line
    (/repo/bark/python_wrapper/world/map.cpp 121, lane_corridor.hpp 39: a reference) hands
    out the line of the map itself, and line 218 reverses it.  Random numbers: stream [u],
    numpy's generator seeded with 1000 whatever random_seed is (34, 84).
    Agents' shapes, models and parameters are opaque; [front], [rear] of the shape count. *)

From Coq Require Import List Arith Lia Bool QArith ZArith.
Import ListNotations.
From Verif Require Import Model_Intersection Model_ScenGen Model_Readers.
Local Open Scope nat_scope.
Local Open Scope list_scope.

Section UGen.
Context {Line Pose Pt : Type}.
Variable rev_line : Line -> Line.             (* Line::Reverse, line.hpp 84 *)
Variable pose_at : Line -> Q -> Pose.         (* GetPointAtS, GetTangentAngleAtS *)
Variable near : Line -> Pt -> Q.              (* GetNearestPointAndS, its s *)
Variable lanes_of : Pt -> Pt -> option (option nat * option nat).
Variable u : nat -> Q.
Variables (d_min d_max v_min v_max ev_min ev_max front rear : Q).

Definition lines := nat -> Line.
Definition reversed (m : lines) (i : nat) : lines := fun j => if Nat.eqb j i then rev_line (m j) else m j.

(** Goals: the polygon at a sink; at the end of the ego route; at EgoGoalEnd; the state
    limits around a lane part from [s] to [e] (lines 170-200). *)
Inductive ugoal := AtSink (p : Pt) | AtEgoGoal (p : Pt) | Limits (l : Line) (s e : Q).
(** An agent with its id, pose, speed, goal. *)
Record uagent := mkUA { u_id : nat; u_pose : Pose; u_vel : Q; u_goal : ugoal }.

(** 252-283 center_line_between_source_and_sink; returning None cannot be unpacked
    (TypeError); no road corridor: AttributeError, modelled as NameError. *)
Definition between (m : lines) (src snk : Pt) : gres (nat * Q * Q) :=
  match lanes_of src snk with
  | None => inr NameError
  | Some (Some a, Some b) => if Nat.eqb a b then inl (a, near (m a) src, near (m a) snk) else inr TypeError
  | Some _ => inr TypeError
  end.

(** 235-243: the agents of one route get the next ids *)
Fixpoint number (l : Line) (g : ugoal) (id : nat) (ags : list (Q * Q)) : list uagent :=
  match ags with [] => [] | (s, v) :: r => mkUA id (pose_at l s) v g :: number l g (S id) r end.

(** 208-241 place_agents_along_linestring *)
Definition place_on (fuel : nat) (m : lines) (lane : nat) (s_start s_end : Q) (g : ugoal) (k id : nat)
    : outcome (list uagent * lines * nat * nat) :=
  let back := negb (Qle_bool s_start s_end) in
  let m' := if back then reversed m lane else m in
  let '(lo, hi) := if back then (s_end, s_start) else (s_start, s_end) in
  match place d_min d_max v_min v_max front rear u fuel lo hi k with
  | Done (ags, k') => Done (number (m' lane) g id ags, m', k', id + length ags)
  | Crash => Crash | OutOfFuel => OutOfFuel
  end.

(** 104-124: the routes of the other agents one after the other *)
Fixpoint others (fuel : nat) (m : lines) (routes : list (Pt * Pt)) (k id : nat)
    : outcome (gres (list uagent * lines * nat * nat)) :=
  match routes with
  | [] => Done (inl ([], m, k, id))
  | (src, snk) :: r =>
      match between m src snk with
      | inr e => Done (inr e)
      | inl (lane, s0, s1) =>
          match place_on fuel m lane s0 s1 (AtSink snk) k id with
          | Done (ags, m1, k1, id1) =>
              match others fuel m1 r k1 id1 with
              | Done (inl (ags2, m2, k2, id2)) => Done (inl (ags ++ ags2, m2, k2, id2))
              | x => x
              end
          | Crash => Crash | OutOfFuel => OutOfFuel
          end
      end
  end.

(** 130-163: the ego agent and its place in the list, None: a new one *)
Definition ego (m : lines) (ags : list uagent) (route : option (Pt * Pt)) (k id : nat) : gres (uagent * option nat * nat * nat) :=
  match route with
  | None => match nth_error ags (length ags / 4) with
            | None => inr IndexError
            | Some a => inl (a, Some (length ags / 4), k, id)
            end
  | Some (src, snk) =>
      match between m src snk with
      | inr e => inr e
      | inl (lane, s0, s1) =>
          inl (mkUA id (pose_at (m lane) (uniform s0 s1 (u k))) (uniform ev_min ev_max (u (S k))) (AtSink snk), None, S (S k), S id)
      end
  end.

(** 169-200: the goal of the ego agent; [goal_start] None: EgoGoalStart is empty *)
Definition ego_goal (m : lines) (route : option (Pt * Pt)) (goal_start : option Pt) (goal_end : Pt) (old : ugoal) : gres ugoal :=
  match goal_start with
  | None => match route with None => inl old | Some _ => inl (AtEgoGoal goal_end) end
  | Some st =>
      match between m st goal_end with
      | inr e => inr e
      | inl (lane, s0, s1) => inl (Limits (m lane) s0 s1)
      end
  end.

Definition with_goal (a : uagent) (g : ugoal) : uagent := mkUA (u_id a) (u_pose a) (u_vel a) g.
Fixpoint put (l : list uagent) (i : nat) (a : uagent) : list uagent :=
  match l, i with [], _ => [] | _ :: r, 0 => a :: r | b :: r, S i => b :: put r i a end.

(** 97-206 create_single_scenario: agents, ids to evaluate, center lines of the scenario's
    map; the ego agent chosen from the list is appended to it once more (the same object:
    both places show its new goal). *)
Definition create_single (fuel : nat) (m : lines) (routes : list (Pt * Pt)) (route : option (Pt * Pt)) (goal_start : option Pt) (goal_end : Pt)
    (k id : nat) : outcome (gres (list uagent * list nat * lines * nat * nat)) :=
  match others fuel m routes k id with
  | Done (inl (ags, m1, k1, id1)) =>
      match ego m1 ags route k1 id1 with
      | inr e => Done (inr e)
      | inl (a, place, k2, id2) =>
          match ego_goal m1 route goal_start goal_end (u_goal a) with
          | inr e => Done (inr e)
          | inl g =>
              let a' := with_goal a g in
              Done (inl ((match place with Some i => put ags i a' | None => ags end) ++ [a'], [u_id a'], m1, k2, id2))
          end
      end
  | Done (inr e) => Done (inr e)
  | Crash => Crash | OutOfFuel => OutOfFuel
  end.

(** 87-95 create_scenarios: every scenario reads its own map *)
Fixpoint create_all (fuel n : nat) (m : lines) (routes : list (Pt * Pt)) (route : option (Pt * Pt)) (goal_start : option Pt) (goal_end : Pt)
    (k id : nat) : outcome (gres (list (list uagent * list nat * lines))) :=
  match n with
  | 0 => Done (inl [])
  | S n =>
      match create_single fuel m routes route goal_start goal_end k id with
      | Done (inl (l, e, m', k', id')) =>
          match create_all fuel n m routes route goal_start goal_end k' id' with Done (inl r) => Done (inl ((l, e, m') :: r)) | x => x end
      | Done (inr e) => Done (inr e)
      | Crash => Crash | OutOfFuel => OutOfFuel
      end
  end.
End UGen.
Arguments uagent : clear implicits. Arguments ugoal : clear implicits.
