(** Config readers of the configurable scenario generation
    (/repo/bark/runtime/scenario/scenario_generation/config_readers/).

    A road corridor is the list of its lane corridors (opaque).  Random draws are
    streams [u : nat -> Q] of numbers; uniform(a, b) is a + (b - a) * u and
    randint(0, n) a number below n.  Exceptions are values of [gexn]. *)

From Coq Require Import List Arith Lia Bool QArith ZArith.
Import ListNotations.
From Verif Require Import Model_Intersection Model_Runtime Model_ScenGen.
Local Open Scope nat_scope.
Local Open Scope list_scope.

Definition idx_or {A} (l : list A) (i : Z) : gres A :=
  match py_index l i with Some x => inl x | None => inr IndexError end.

Fixpoint gmap {A B} (f : A -> gres B) (l : list A) : gres (list B) :=
  match l with
  | [] => inl []
  | x :: r => match f x with
              | inr e => inr e
              | inl y => match gmap f r with inr e => inr e | inl ys => inl (y :: ys) end
              end
  end.

(* ------------------------------------------------------------------ *)
(** * UniformVehicleDistribution, agent_state_geometry_config_readers.py 29-105 *)

Section Uniform.
Context {Lane : Type}.

(** 65-73 select_lane_corridors; LanePositions None or a list. *)
Definition select_lanes (lanes : list Lane) (lp : option (list Z)) : gres (list Lane * list Z) :=
  match lp with
  | Some (p :: ps) =>
      match gmap (idx_or lanes) (p :: ps) with inl ls => inl (ls, p :: ps) | inr e => inr e end
  | _ => inl (lanes, map Z.of_nat (seq 1 (length lanes)))
  end.

Definition uniform (a b u : Q) : Q := (a + (b - a) * u)%Q.

Variables (d_min d_max v_min v_max : Q).     (* VehicleDistanceRange, OtherVehicleVelocityRange *)
Variables (front rear : Q).                  (* of CarLimousine *)
Variable u : nat -> Q.                       (* draws of random_state *)

(** 91-104: the loop.  The agents' positions along the center line and their speeds;
    [k] counts the draws.  GetPointAtS and GetTangentAngleAtS turn a position into a
    pose (line 93-94). *)
Fixpoint place (fuel : nat) (s s_end : Q) (k : nat) : outcome (list (Q * Q) * nat) :=
  match fuel with
  | 0 => OutOfFuel
  | S n =>
      if Qle_bool s_end s then Done ([], k)
      else let v := uniform v_min v_max (u k) in
           let s' := (s + (front + rear + uniform d_min d_max (u (S k))))%Q in
           match place n s' s_end (S (S k)) with
           | Done (l, k') => Done ((s, v) :: l, k')
           | Crash => Crash
           | OutOfFuel => OutOfFuel
           end
  end.

Variable length_of : Lane -> Q.              (* center_line.Length() *)
Variables (s0 s1 : Q).                       (* SRange *)

(** 82-105 *)
Definition agents_along (fuel : nat) (ln : Lane) (k : nat) : outcome (list (Q * Q) * nat) :=
  place fuel (s0 * length_of ln) (s1 * length_of ln) k.

(** 47-62: every agent as its lane, its position and speed, and the lane position recorded for it. *)
Fixpoint all_lanes (fuel : nat) (l : list (Lane * Z)) (k : nat) : outcome (list (Lane * (Q * Q) * Z)) :=
  match l with
  | [] => Done []
  | (ln, p) :: r =>
      match agents_along fuel ln k with
      | Done (ags, k') =>
          match all_lanes fuel r k' with
          | Done x => Done (map (fun a => (ln, a, p)) ags ++ x)
          | Crash => Crash | OutOfFuel => OutOfFuel
          end
      | Crash => Crash | OutOfFuel => OutOfFuel
      end
  end.

Definition uniform_reader (fuel : nat) (lanes : list Lane) (lp : option (list Z)) (k : nat)
    : outcome (list (Lane * (Q * Q) * Z)) :=
  match select_lanes lanes lp with
  | inl (ls, ps) => all_lanes fuel (combine ls ps) k
  | inr _ => Crash
  end.
End Uniform.

(* ------------------------------------------------------------------ *)
(** * Controlled agents, controlled_agents_config_readers.py *)

(** l[i] = True for a Python list *)
Fixpoint set_at (i : nat) (l : list bool) : list bool :=
  match l, i with [], _ => [] | _ :: r, 0 => true :: r | b :: r, S i => b :: set_at i r end.
Definition py_set (l : list bool) (i : Z) : gres (list bool) :=
  let j := if (i <? 0)%Z then (Z.of_nat (length l) + i)%Z else i in
  if ((j <? 0) || (Z.of_nat (length l) <=? j))%Z then inr IndexError else inl (set_at (Z.to_nat j) l).

(** 14-17 *)
Definition none_controlled (n : nat) : list bool := repeat false n.
(** 20-26; [draw n] is randint(0, n), which raises for n = 0. *)
Definition random_single (draw : nat -> nat) (n : nat) : gres (list bool) :=
  if n =? 0 then inr ValueError else inl (set_at (draw n) (repeat false n)).
(** The recorded lane position of an agent: a number, or a list of numbers (track readers). *)
Inductive lanepos := Single (p : Z) | Many (ps : list Z).
(** e == lane_pos in Python: a list never equals a number *)
Definition at_lane (p : Z) (e : lanepos) : bool := match e with Single q => Z.eqb q p | Many _ => false end.
(** 30-40; [where_] is the expression WhereOnLane as a function of num_agents. *)
Definition positioning (lane : Z) (where_ : nat -> Z) (lps : list lanepos) (n : nat) : gres (list bool) :=
  py_set (repeat false n) (where_ (length (filter (at_lane lane) lps))).
(** the default "math.floor(num_agents/2)" *)
Definition where_default (n : nat) : Z := Z.of_nat (n / 2).
(** 42-53 *)
Definition by_ids (wanted ids : list Z) : list bool := map (fun i => existsb (Z.eqb i) wanted) ids.

(* ------------------------------------------------------------------ *)
(** * Goals, goal_definition_config_readers.py *)

(** GoalTypeControlled / GoalTypeOthers: the three methods, or another name
    (AttributeError, modelled as NameError). *)
Inductive goal_type := EndOfLane | LaneChangeRight | LaneChangeLeft | Unknown.

Section Goals.
Context {Lane : Type}.

(** 29-52: the lane whose center line the goal lies on. *)
Definition raw_goal (lanes : list Lane) (t : goal_type) (p : Z) : gres Lane :=
  match t with
  | EndOfLane => idx_or lanes p
  | LaneChangeRight => if (p + 1 <? Z.of_nat (length lanes))%Z then idx_or lanes (p + 1) else inr ValueError
  | LaneChangeLeft => if (0 <=? p - 1)%Z then idx_or lanes (p - 1) else inr ValueError
  | Unknown => inr NameError
  end.

(** 19-27 get_goal_definition *)
Definition get_goal (lanes : list Lane) (t : goal_type) (p : Z) (enforce : bool) : gres Lane :=
  match raw_goal lanes t p with
  | inl x => inl x
  | inr e => if enforce then inr e else raw_goal lanes EndOfLane p
  end.

(** A goal: on one lane, or reached only after [n] goals on that lane (69-73). *)
Inductive agoal := OnLane (l : Lane) | Sequence (l : Lane) (n : nat).

(** 91-93: the first of several lanes *)
Definition first_lane (e : lanepos) : gres Z :=
  match e with Single p => inl p | Many (p :: _) => inl p | Many [] => inr IndexError end.

(** 76-103 FixedGoalTypes for one agent; agent_lane_positions[idx], controlled_agent_ids[idx]
    raise IndexError if too short. *)
Definition agent_goal (lanes : list Lane) (tc to : goal_type) (ec eo : bool) (sq : option nat)
    (lp : lanepos) (c : bool) : gres agoal :=
  match first_lane lp with
  | inr e => inr e
  | inl p =>
      if c then match get_goal lanes tc p ec with
                | inr e => inr e
                | inl l => inl (match sq with Some n => Sequence l n | None => OnLane l end)
                end
      else match get_goal lanes to p eo with inr e => inr e | inl l => inl (OnLane l) end
  end.

Fixpoint fixed_goals (lanes : list Lane) (tc to : goal_type) (ec eo : bool) (sq : option nat)
    (n : nat) (lps : list lanepos) (cs : list bool) : gres (list agoal) :=
  match n with
  | 0 => inl []
  | S n =>
      match lps, cs with
      | lp :: lps, c :: cs =>
          match agent_goal lanes tc to ec eo sq lp c with
          | inr e => inr e
          | inl g => match fixed_goals lanes tc to ec eo sq n lps cs with inr e => inr e | inl r => inl (g :: r) end
          end
      | _, _ => inr IndexError
      end
  end.
End Goals.

(** An agent of UniformVehicleDistribution with the goal of FixedGoalTypes: the lane
    it stands on and the lane its goal is on (87-103 with the kwargs of line 62 of the
    states reader). *)
Definition uniform_goal {Lane} (lanes : list Lane) (a : Lane * (Q * Q) * Z) (t : goal_type) (enforce : bool) : gres Lane :=
  get_goal lanes t (snd a) enforce.
