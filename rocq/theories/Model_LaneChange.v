(** Model of bark/models/behavior/rule_based/lane_change_behavior.{hpp,cpp} on top of the world model and of
    GetAgentFrontRearForId (Model_FrontRear.v). Numbers are exact rationals. A lane corridor is a value of an
    arbitrary type with a decidable equality (the code compares pointers); its polygon, its length until the end and
    the Frenet differences on it are arbitrary functions. *)
From Coq Require Import List NArith ZArith QArith Qabs Qminmax Bool.
From Verif Require Import Model_Map Model_World Model_FrontRear.
Import ListNotations.
Local Open Scope Q_scope.

(** lane_change_behavior.hpp:30-34 (Undefined is never used). *)
Inductive decision : Type := KeepLane | ChangeLane.

(** lane_change_behavior.hpp:82-99, the parameters. *)
Record lc_params : Type := mkLC { lc_min_remaining : Q; lc_min_rear : Q; lc_min_front : Q; lc_time_gap : Q }.
Definition lc_defaults : lc_params := mkLC 60 5 5 1.

(** std::min(a, b) = (b < a) ? b : a. *)
Definition qmin (a b : Q) : Q := if Qle_bool a b then a else b.

(** bark/geometry/angle.hpp:17, B_PI. *)
Definition b_pi : Q := 314159265358979323846 # 100000000000000000000.

Section LC.
  Context {T : Types} (O : Ops T).
  Variable Corridor : Type.
  Variable ceqb : Corridor -> Corridor -> bool.
  Variable cor_poly : Corridor -> tPoly T.
  Variable position : tState T -> tPoint T.
  Variable rel : Corridor -> tState T -> tShape T -> tState T -> tShape T -> frel.
  Variable velocity : tState T -> Q.                      (* state[VEL_POSITION] *)
  Variable until_end : Corridor -> tPoint T -> Q.         (* LaneCorridor::LengthUntilEnd *)

  (** lane_change_behavior.hpp:40-46, AgentInformation: the agent with its current velocity. *)
  Record agent_info : Type := mkAI { ai_agent : option (agent T); ai_vehicle : bool; ai_rel_vel : Q; ai_rel_dist : Q }.
  (** lane_change_behavior.hpp:57-73, LaneCorridorInformation. *)
  Record lane_info : Type := mkLI { li_front : agent_info; li_rear : agent_info; li_corr : Corridor; li_remaining : Q }.

  (** lane_change_behavior.hpp:155-158, GetVelocity; None = empty history. *)
  Definition agent_velocity (a : agent T) : option Q :=
    match current_state a with Some s => Some (velocity s) | None => None end.

  (** lane_change_behavior.cpp:61-80: one AgentInformation from an entry of the query result; [dist0] and [vel0]
      are the values without an agent (1e6, 1e6 in front; -1000, 0 behind). *)
  Definition info_of (v_ego dist0 vel0 : Q) (b : option (agent T * frel)) : option agent_info :=
    match b with
    | None => Some (mkAI None false vel0 dist0)
    | Some (a, d) =>
        match agent_velocity a with
        | None => None
        | Some v => Some (mkAI (Some a) true (v - v_ego) (r_lon d))
        end
    end.

  (** lane_change_behavior.cpp:47-83, FrontRearAgents. *)
  Definition front_rear_agents (w : world T) (ego : AgentId) (c : Corridor) : option (agent_info * agent_info) :=
    match get_front_rear O Corridor cor_poly position rel w ego c 100 b_pi true 0, get_agent w ego with
    | Some (f, r), Some e =>
        match agent_velocity e with
        | None => None
        | Some v =>
            match info_of v 1000000 1000000 f, info_of v (-(1000)) 0 r with
            | Some fi, Some ri => Some (fi, ri)
            | _, _ => None
            end
        end
    | _, _ => None
    end.

  (** ObservedWorld::CurrentEgoPosition, observed_world.hpp:109-111. *)
  Definition ego_position (w : world T) (ego : AgentId) : option (tPoint T) :=
    match get_agent w ego with
    | None => None
    | Some e => match current_state e with Some s => Some (position s) | None => None end
    end.

  (** lane_change_behavior.cpp:85-101, FillLaneCorridorInformation. *)
  Definition fill_info (w : world T) (ego : AgentId) (c : Corridor) : option lane_info :=
    match ego_position w ego, front_rear_agents w ego c with
    | Some p, Some (f, r) =>
        let rem := until_end c p in
        Some (mkLI (mkAI (ai_agent f) (ai_vehicle f) (ai_rel_vel f) (qmin rem (ai_rel_dist f))) r c rem)
    | _, _ => None
    end.

  (** lane_change_behavior.cpp:110-123, ScanLaneCorridors over the unique corridors of the ego's road corridor. *)
  Fixpoint scan_corridors (w : world T) (ego : AgentId) (cs : list Corridor) : option (list lane_info) :=
    match cs with
    | [] => Some []
    | c :: r =>
        match fill_info w ego c, scan_corridors w ego r with
        | Some i, Some l => Some (i :: l)
        | _, _ => None
        end
    end.

  (** lane_change_behavior.cpp:169-187: the three filters. *)
  Definition enough_remaining (p : lc_params) (i : lane_info) : bool := Qle_bool (lc_min_remaining p) (li_remaining i).
  Definition enough_rear (p : lc_params) (i : lane_info) : bool :=
    Qle_bool (ai_rel_dist (li_rear i)) (- lc_min_rear p - Qabs (ai_rel_vel (li_rear i)) * lc_time_gap p).
  Definition enough_front (p : lc_params) (i : lane_info) : bool := Qle_bool (lc_min_front p) (ai_rel_dist (li_front i)).

  (** lane_change_behavior.cpp:137-146: the corridor with most free space; null (None) at the start. *)
  Fixpoint most_space (best : Q) (tmp : option Corridor) (l : list lane_info) : option Corridor :=
    match l with
    | [] => tmp
    | i :: r =>
        if negb (Qle_bool (ai_rel_dist (li_front i)) best)
        then most_space (ai_rel_dist (li_front i)) (Some (li_corr i)) r
        else most_space best tmp r
    end.

  (** comparison of two corridor pointers *)
  Definition same_corr (a b : option Corridor) : bool :=
    match a, b with Some x, Some y => ceqb x y | None, None => true | _, _ => false end.

  (** lane_change_behavior.cpp:131-157, ChooseLaneCorridor; [cur] is observed_world.GetLaneCorridor(). *)
  Definition choose_corridor (infos : list lane_info) (cur : option Corridor) : decision * option Corridor :=
    match infos with
    | [] => (KeepLane, cur)
    | _ =>
        let tmp := most_space 0 None infos in
        if same_corr tmp cur then (KeepLane, cur) else (ChangeLane, tmp)
    end.

  (** lane_change_behavior.cpp:160-190, CheckIfLaneChangeBeneficial. ChooseLaneCorridor is virtual: [choose]. *)
  Definition admissible_infos (p : lc_params) (l : list lane_info) : list lane_info :=
    filter (enough_front p) (filter (enough_rear p) (filter (enough_remaining p) l)).
  Definition check_beneficial (choose : list lane_info -> option (decision * option Corridor)) (p : lc_params)
             (w : world T) (ego : AgentId) (cs : list Corridor) : option (decision * option Corridor) :=
    match scan_corridors w ego cs with
    | None => None
    | Some l => choose (admissible_infos p l)
    end.
  Definition lc_check (p : lc_params) (w : world T) (ego : AgentId) (cs : list Corridor) (cur : option Corridor)
    : option (decision * option Corridor) :=
    check_beneficial (fun l => Some (choose_corridor l cur)) p w ego cs.

  (** lane_change_behavior.cpp:192-230, Plan. The trajectory on the stored corridor (CalcRelativeValues and
      GenerateTrajectory of the IDM lane tracking model, Model_IDM.v) is the parameter [track]. *)
  Record lc_state : Type := mkLS { ls_status : bstatus; ls_corr : option Corridor; ls_traj : tTraj T; ls_action : tAction T }.
  Definition lc_plan (check : option (decision * option Corridor)) (track : Corridor -> option (tTraj T * tAction T))
             (cur : option Corridor) (st : lc_state) : option (lc_state * tTraj T) :=
    match cur with
    | None => Some (mkLS EXPIRED (ls_corr st) (ls_traj st) (ls_action st), ls_traj st)
    | Some _ =>
        match check with
        | None => None
        | Some (_, target) =>
            let stored := match target with Some c => Some c | None => ls_corr st end in
            match stored with
            | None => Some (mkLS EXPIRED None (ls_traj st) (ls_action st), ls_traj st)
            | Some c =>
                match track c with
                | None => None
                | Some (tr, a) => Some (mkLS VALID (Some c) tr a, tr)
                end
            end
        end
    end.
End LC.
Arguments agent_info : clear implicits.
Arguments lane_info : clear implicits.
Arguments lc_state : clear implicits.
