(** The car-following models with a fixed lane corridor (SetConstantLaneCorridor), as the safety and RSS behaviors use
    them: bark/models/behavior/idm and bark/world/map/commons.hpp. *)
From Coq Require Import Reals List Bool.
From Verif Require Import Base_Real Base_Ext Base_Geom Model_Line Model_Frenet Model_Dynamic Model_IDM.
Import ListNotations.
Local Open Scope R_scope.

(** A lane corridor as seen from the ego: center line, the points strictly inside its merged polygon (geometry's Within),
    the length until its end and the answer of GetAgentInFront (observed_world.cpp:44-55) with the model's thresholds. *)
Record lane_corr := mkLC { lc_line : line; lc_within : pt -> bool; lc_until : R; lc_front : option (R * R * action) }.

(** commons.hpp:46-70, ChooseLaneCorridorBasedOnVehicleState: [shape] the vertices of the ego's polygon, [cur]
    observed_world.GetLaneCorridor() (null allowed); [None]: the Frenet state cannot be computed.  It is computed first,
    whether needed or not. *)
Definition choose_corridor (st : dstate) (shape : list pt) (cur : option lane_corr) (target : lane_corr) (deviation : R)
  : option (option lane_corr) :=
  bind (frenet_state st (lc_line target)) (fun fs =>
    if existsb (lc_within target) shape then Some (Some target)
    else if Rltb (Rabs (angle fs)) deviation then Some cur else Some (Some target)).

(** base_idm.cpp:366-401, Plan, for either kind of trajectory; [gen_line nearest] is the line the trajectory is generated
    for.  [nearest]: observed_world.GetLaneCorridor(); [fixed]: constant_lane_corr_. *)
Definition plan_on (p : idm_params) (gen : acc_source -> line -> vec -> R -> R -> R -> option (list vec * action))
           (gen_line : lane_corr -> line) (st : idm_state) (ego : vec) (shape : list pt) (start T : R)
           (nearest fixed : option lane_corr) : option (idm_state * list vec) :=
  match nearest with
  | None => Some (mkIS EXPIRED (i_traj st) (i_action st), i_traj st)
  | Some near =>
    bind (match fixed with
          | Some target => bind (dstate_of ego) (fun ds => choose_corridor ds shape nearest target (2 / 10))
          | None => Some (Some near)
          end) (fun current =>
    bind current (fun cur =>
    bind (calc_relative_values p (lc_front cur) (lc_until cur) (i_action st)) (fun rv =>
    bind (at_ ego 4) (fun v0 =>
    bind (gen (idm_source p v0 rv) (gen_line near) ego start (leading_distance rv) (idm_dt p T)) (fun r =>
      Some (mkIS VALID (fst r) (snd r), fst r))))))
  end.
(** idm_classic.cpp:34-38: the line of the corridor passed in, the nearest one *)
Definition classic_plan (p : idm_params) := fun st ego shape start T nearest fixed =>
  plan_on p (classic_trajectory p) lc_line st ego shape start T nearest fixed.
(** idm_lane_tracking.cpp:55-62: the line of the fixed corridor if there is one *)
Definition tracking_line (fixed : option lane_corr) (near : lane_corr) : line :=
  match fixed with Some c => lc_line c | None => lc_line near end.
Definition tracking_plan (p : idm_params) (m : st_params) (gain : R) (limit : bool) := fun st ego shape start T nearest fixed =>
  plan_on p (tracking_trajectory p m gain limit) (tracking_line fixed) st ego shape start T nearest fixed.

(** idm_lane_tracking.cpp:112-143, CheckAccelerationLimits: what is reported; nothing else happens.  [None]: no message. *)
Inductive violation := LonMax | LonMin | LatMin | LatMax.
Definition almost_smaller (a b : R) : bool := Rleb a b || Rltb (Rabs (a - b)) (1 / 10).
Definition almost_larger (a b : R) : bool := Rleb b a || Rltb (Rabs (a - b)) (1 / 10).
Definition reported (lon_max lon_min lat_max lat_min acc_lon acc_lat : R) : list violation :=
  (if Rleb 0 acc_lon && negb (almost_smaller acc_lon lon_max) then [LonMax] else []) ++
  (if Rltb acc_lon 0 && negb (almost_larger acc_lon lon_min) then [LonMin] else []) ++
  (if Rleb acc_lat 0 && negb (almost_larger acc_lat lat_min) then [LatMin] else []) ++
  (if Rltb 0 acc_lat && negb (almost_smaller acc_lat lat_max) then [LatMax] else []).
