(** Model of bark/models/behavior/rule_based/intersection_behavior.{hpp,cpp} on top of the world model, of the
    prediction settings (Model_Prediction.v), of the lane change behaviour (Model_LaneChange.v) and of the IDM
    (Model_IDM.v). Times are exact rationals, angles, arc lengths and speeds exact reals. *)
From Coq Require Import List NArith ZArith QArith Bool Reals Qreals.
From Verif Require Import Base_Real Base_Ext Model_Map Model_World Model_Prediction Model_Angle Model_IDM.
Import ListNotations.

(** The result of a loop that may crash (null pointer, empty history) or not have ended within the given fuel. *)
Inductive outcome (A : Type) : Type := Done (a : A) | Crash | OutOfFuel.
Arguments Done {A}. Arguments Crash {A}. Arguments OutOfFuel {A}.

(** intersection_behavior.hpp:41-53, the parameters. *)
Record inter_params : Type := mkIP { ip_horizon : Q; ip_inc : Q; ip_braking : R; ip_angle : R }.
Definition inter_defaults : inter_params := mkIP (5 # 1) (1 # 2) 10%R (14 / 10)%R.

Section Inter.
  Context {T : Types} (O : Ops T).
  Variables Road Corridor : Type.
  Variable ceqb : Corridor -> Corridor -> bool.                 (* comparison of corridor pointers *)
  Variable road_of : AgentId -> option Road.                    (* Agent::GetRoadCorridor; cloning keeps it *)
  Variable nearest_lane : Road -> tPoint T -> option Corridor.  (* RoadCorridor::GetNearestLaneCorridor *)
  Variable lane_at : Road -> tPoint T -> option Corridor.       (* RoadCorridor::GetCurrentLaneCorridor *)
  Variable position : tState T -> tPoint T.
  Variable theta velocity : tState T -> R.                      (* state[THETA_POSITION], state[VEL_POSITION] *)
  Variable arc : Corridor -> tPoint T -> R.                     (* GetNearestPointAndS on the corridor's centre line *)
  Variable cor_poly : Corridor -> tPoly T.                      (* GetMergedPolygon *)
  Variables (pi : R) (fl : R -> R).                             (* B_PI and the float rounding, see Model_Angle.v *)

  (** ObservedWorld::GetLaneCorridor (observed_world.cpp:75-88) for an ego in state [es]. *)
  Definition ego_lane (ego : AgentId) (es : tState T) : option Corridor :=
    match road_of ego with None => None | Some rd => nearest_lane rd (position es) end.

  (** intersection_behavior.cpp:65-84, the loop body after the null checks. *)
  Definition is_crossing (p : inter_params) (ego : AgentId) (es : tState T) (rd : Road) (id : AgentId) (s : tState T) : bool :=
    match ego_lane ego es, lane_at rd (position s) with
    | Some c, Some c' =>
        negb (ceqb c' c) && negb (N.eqb id ego) &&
        Rltb (ip_angle p) (SignedAngleDiff pi fl (theta es) (theta s)) &&
        Rltb (arc c (position es)) (arc c (position s)) &&
        Rltb (arc c (position s) - arc c (position es)) (ip_braking p)
    | _, _ => false
    end.

  (** intersection_behavior.cpp:55-90, GetIntersectingAgent. [None]: null road corridor or empty history. *)
  Fixpoint intersecting_agent (p : inter_params) (l : kmap (agent T)) (pw : observed T) : option (option AgentId) :=
    match l with
    | [] => Some None
    | (_, a) :: r =>
        match get_agent (ow_world pw) (ow_ego pw) with
        | None => Some None
        | Some e =>
            match road_of (ag_id a), current_state a, current_state e with
            | Some rd, Some s, Some es =>
                if is_crossing p (ow_ego pw) es rd (ag_id a) s then Some (Some (ag_id a)) else intersecting_agent p r pw
            | _, _, _ => None
            end
        end
    end.

  (** intersection_behavior.cpp:117-133, the prediction loop from time [t]; [sw] is the clone with the prediction
      models, [w] the observed world itself, [c] the stored lane corridor. *)
  Fixpoint detect_loop (p : inter_params) (fuel : nat) (w : world T) (sw : observed T) (c : Corridor) (t : Q)
    : outcome (option (Q * agent T)) :=
    match fuel with
    | Datatypes.O => OutOfFuel
    | S f =>
        if Qle_bool (ip_horizon p) t then Done None
        else
          match predict O sw t with
          | None => Crash
          | Some pw =>
              match get_agents_intersecting O (ow_world pw) (cor_poly c) with
              | None => Crash
              | Some m =>
                  match intersecting_agent p m pw with
                  | None => Crash
                  | Some None => detect_loop p f w sw c (t + ip_inc p)
                  | Some (Some id) =>
                      match get_agent w id with
                      | Some a => Done (Some (t, a))
                      | None => detect_loop p f w sw c (t + ip_inc p)
                      end
                  end
              end
          end
    end.

  (** intersection_behavior.cpp:100-137, CheckIntersectingVehicles. [ns] is the not-started model of the prediction
      settings, [ca] the constant acceleration model; [c] the corridor stored in the behaviour (None: null). *)
  Definition check_intersecting (p : inter_params) (fuel : nat) (ns ca : tBM T) (ow : observed T) (c : option Corridor)
    : outcome (option (Q * agent T)) :=
    match apply_settings O ns (mkSettings (Some ca) (Some ca) None []) (clone_observed O ow) with
    | None => Crash
    | Some sw =>
        match c with
        | None => if Qle_bool (ip_horizon p) 0 then match fuel with Datatypes.O => OutOfFuel | S _ => Done None end
                  else match fuel with Datatypes.O => OutOfFuel | S _ => Crash end
        | Some c => detect_loop p fuel (ow_world ow) sw c 0
        end
    end.

  (** intersection_behavior.cpp:164-190, Plan: the relative values after the intersection check. [None]: empty
      history. *)
  Definition yield_values (es : tState T) (found : option (Q * agent T)) (rv : rel_values) : option rel_values :=
    match found with
    | None => Some rv
    | Some (t, a) =>
        match current_state a with
        | None => None
        | Some s =>
            if Rltb (SignedAngleDiff pi fl (theta es) (theta s)) 0
            then Some (mkRV (Rmin (velocity s * Q2R t) (leading_distance rv)) 0 (leading_acc rv) true)
            else Some rv
        end
    end.

  (** intersection_behavior.cpp:140-200, Plan up to GenerateTrajectory: corridor to track and relative values.
      [decided] is the corridor of the lane change decision, [rel_on] CalcRelativeValues on the corridor stored then.
      [Done None]: no lane corridor, the behaviour expires. *)
  Definition inter_plan (p : inter_params) (fuel : nat) (ns ca : tBM T) (ow : observed T) (cur stored decided : option Corridor)
    (rel_on : Corridor -> option rel_values) : outcome (option (Corridor * rel_values)) :=
    match cur with
    | None => Done None
    | Some _ =>
        let stored' := match decided with Some c => Some c | None => stored end in
        match check_intersecting p fuel ns ca ow stored' with
        | Crash => Crash
        | OutOfFuel => OutOfFuel
        | Done found =>
            match stored', get_agent (ow_world ow) (ow_ego ow) with
            | Some c, Some e =>
                match rel_on c, current_state e with
                | Some rv, Some es => match yield_values es found rv with Some rv' => Done (Some (c, rv')) | None => Crash end
                | _, _ => Crash
                end
            | _, _ => Crash
            end
        end
    end.
End Inter.
