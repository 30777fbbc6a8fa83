(** ConfigWithEase, /repo/bark/runtime/scenario/scenario_generation/config_with_ease.py.

    Random numbers come from numpy's global generator: a stream [u] of draws in [0, 1),
    with uniform(a, b) = a + (b - a) * u, and [rnd k n] for randint(0, n) at draw [k].
    Center lines are opaque ([Line]) with their point and angle at a position along them.
    Numbers are rational. *)

From Coq Require Import List Arith Lia Bool QArith ZArith.
Import ListNotations.
From Verif Require Import Model_Intersection Model_ScenGen Model_Readers.
Local Open Scope nat_scope.
Local Open Scope list_scope.

Section Ease.
Context {Line Pose Beh : Type}.
Variable pose_at : Line -> Q -> Pose.      (* GetPointAtS and GetTangentAngleAtS *)
Variable u : nat -> Q.
Variable rnd : nat -> nat -> nat.

(** 30-57 LaneCorridorConfig.  [lane]: the center line of the lane corridor used; None if
    there is no road corridor (or no lane corridor), an exception if the lane corridor
    index is out of range (117-127). *)
Record config := mkCfg {
  lane : option (gres Line); c_smin : Q; c_smax : Q; ds_min : Q; ds_max : Q; min_vel : Q; max_vel : Q;
  beh : Beh; ctrl_beh : option Beh; ctrl_ids : option (list Z) }.

(** An agent: id, position along the lane, pose, speed, behavior model (None: none). *)
Record eagent := mkEA { e_id : nat; e_s : Q; e_pose : Pose; e_vel : Q; e_beh : option Beh }.

(** 72-87, 117-139: the next agent from the running position [cur] (None at the start);
    [k] counts the draws. *)
Definition next_state (c : config) (ln : Line) (cur : option Q) (k : nat) : option (Q * Pose * Q) * option Q * nat :=
  let '(s, k) := match cur with Some s => (s, k) | None => (uniform 0 (ds_max c) (u k), S k) end in
  if negb (Qle_bool s (c_smax c)) then (None, Some s, k)
  else let s' := (s + uniform (ds_min c) (ds_max c) (u k))%Q in
       let v := uniform (min_vel c) (max_vel c) (u (S k)) in
       (Some (s, pose_at ln s, v), Some s', S (S k)).

(** 258-284: the loop over one configuration; the id counts on also when no agent was made *)
Fixpoint fill (fuel : nat) (c : config) (ln : Line) (cur : option Q) (k id : nat) : outcome (list eagent * nat * nat) :=
  match fuel with
  | 0 => OutOfFuel
  | S n =>
      match next_state c ln cur k with
      | (None, _, k') => Done ([], k', S id)
      | (Some (s, p, v), cur', k') =>
          match fill n c ln cur' k' (S id) with
          | Done (l, k'', id') => Done (mkEA id s p v (Some (beh c)) :: l, k'', id')
          | Crash => Crash | OutOfFuel => OutOfFuel
          end
      end
  end.

(** 168-175 controlled_ids, 188-194 controlled_behavior_model, 286-292 *)
Fixpoint set_beh (l : list eagent) (i : nat) (b : option Beh) : list eagent :=
  match l, i with
  | [], _ => []
  | a :: r, 0 => mkEA (e_id a) (e_s a) (e_pose a) (e_vel a) b :: r
  | a :: r, S i => a :: set_beh r i b
  end.
Definition controlled (c : config) (l : list eagent) (k : nat) : gres (list eagent * list nat * nat) :=
  match ctrl_ids c with
  | None => inl (l, [], k)
  | Some _ =>
      match nth_error l (rnd k (length l)) with
      | None => inr ValueError
      | Some a => inl (set_beh l (rnd k (length l)) (match ctrl_beh c with None => Some (beh c) | Some _ => None end), [e_id a], S k)
      end
  end.

(** 255-298 for one configuration *)
Definition one_config (fuel : nat) (c : config) (k id : nat) : outcome (gres (list eagent * list nat * nat * nat)) :=
  match lane c with
  | Some (inr e) => Done (inr e)
  | Some (inl ln) =>
      match fill fuel c ln None k id with
      | Done (l, k1, id') =>
          match controlled c l k1 with
          | inl (l', ids, k2) => Done (inl (l', ids, k2, id'))
          | inr e => Done (inr e)
          end
      | Crash => Crash | OutOfFuel => OutOfFuel
      end
  | None =>
      match controlled c [] k with
      | inl (l', ids, k2) => Done (inl (l', ids, k2, S id))
      | inr e => Done (inr e)
      end
  end.
(** 253-299: agents and ids of the controlled ones of one scenario *)
Fixpoint all_configs (fuel : nat) (cs : list config) (k id : nat) : outcome (gres (list eagent * list nat * nat)) :=
  match cs with
  | [] => Done (inl ([], [], k))
  | c :: r =>
      match one_config fuel c k id with
      | Done (inl (l, ids, k1, id1)) =>
          match all_configs fuel r k1 id1 with
          | Done (inl (l2, ids2, k2)) => Done (inl (l ++ l2, ids ++ ids2, k2))
          | x => x
          end
      | Done (inr e) => Done (inr e)
      | Crash => Crash | OutOfFuel => OutOfFuel
      end
  end.
(** 231 create_single_scenario *)
Definition create_one (fuel : nat) (cs : list config) (k : nat) := all_configs fuel cs k 0.
(** 221-229 create_scenarios; the seed is not used *)
Fixpoint create_many (fuel n : nat) (cs : list config) (k : nat) : outcome (gres (list (list eagent * list nat))) :=
  match n with
  | 0 => Done (inl [])
  | S n =>
      match create_one fuel cs k with
      | Done (inl (l, ids, k')) =>
          match create_many fuel n cs k' with Done (inl r) => Done (inl ((l, ids) :: r)) | x => x end
      | Done (inr e) => Done (inr e)
      | Crash => Crash | OutOfFuel => OutOfFuel
      end
  end.
End Ease.
Arguments eagent : clear implicits. Arguments config : clear implicits.
