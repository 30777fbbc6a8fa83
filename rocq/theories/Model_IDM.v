(** Model of bark/models/behavior/idm/*.cpp and constant_acceleration.cpp. Numbers that may become infinite or NaN
    are [ext] (Base_Ext.v), all others exact reals. *)
From Coq Require Import Reals List Bool Arith.
From Verif Require Import Base_Real Base_Ext Base_Geom Model_Line Model_Frenet Model_Dynamic.
Import ListNotations.
Local Open Scope R_scope.

(** base_idm.hpp:141-170 and base_idm.cpp:35-91: the parameters (the exponent is an int; negative ones are not
    modelled). *)
Record idm_params : Type := mkIDM {
  min_spacing : R; time_headway : R; max_acc : R; desired_vel : R; comf_brake : R;
  min_vel : R; max_vel : R; exponent : nat; acc_ub : R; acc_lb : R;
  brake_lane_end : bool; lane_end_enabled : R; lane_end_offset : R;
  num_points : nat; coolness : R }.

Notation "a +! b" := (eadd a b) (at level 50, left associativity).
Notation "a -! b" := (esub a b) (at level 50, left associativity).
Notation "a *! b" := (emul a b) (at level 40, left associativity).
Notation "a /! b" := (ediv a b) (at level 40, left associativity).

(** base_idm.cpp:93-98, CalcFreeRoadTerm. *)
Definition free_road_term (p : idm_params) (vel_ego : R) : ext :=
  Fin 1 -! epow (Fin vel_ego /! Fin (desired_vel p)) (exponent p).

(** base_idm.cpp:100-121, CalcInteractionTerm. *)
Definition helper_state (p : idm_params) (vel_ego vel_other : R) : ext :=
  let net_velocity := vel_ego - vel_other in
  Fin (min_spacing p + vel_ego * time_headway p) +!
  Fin (vel_ego * net_velocity) /! (Fin 2 *! esqrt (Fin (max_acc p * comf_brake p))).
Definition interaction_term (p : idm_params) (net_distance vel_ego vel_other : R) : ext :=
  let net := Fin (Rmax net_distance 0) in
  let h := helper_state p vel_ego vel_other in
  let t := (h /! net) *! (h /! net) in
  if is_nan t then PInf else t.

(** base_idm.cpp:258-264, CalcRawIDMAcc. *)
Definition raw_idm_acc (p : idm_params) (net_distance vel_ego vel_other : R) : ext :=
  Fin (max_acc p) *! (free_road_term p vel_ego -! interaction_term p net_distance vel_ego vel_other).

(** std::max(std::min(acc, acc_upper_bound), acc_lower_bound). *)
Definition clamp_acc (p : idm_params) (acc : ext) : ext := emax (emin acc (Fin (acc_ub p))) (Fin (acc_lb p)).

(** base_idm.cpp:159-168, CalcIDMAcc. *)
Definition idm_acc (p : idm_params) (net_distance vel_ego vel_other : R) : ext :=
  clamp_acc p (raw_idm_acc p net_distance vel_ego vel_other).

(** base_idm.cpp:271-289, CalcCAHAcc (acc_ego is not used by the code). *)
Definition cah_acc (p : idm_params) (net_distance vel_ego vel_other acc_other : R) : ext :=
  let effect_acc_other := Rmin acc_other (max_acc p) in
  if Rltb (vel_other * (vel_ego - vel_other)) (-2 * net_distance * effect_acc_other) then
    Fin (vel_ego * vel_ego * effect_acc_other) /! Fin (vel_other * vel_other - 2 * net_distance * effect_acc_other)
  else
    let step_function := if Rleb 0 (vel_ego - vel_other) then 1 else 0 in
    Fin effect_acc_other -!
      Fin ((vel_ego - vel_other) * (vel_ego - vel_other) * step_function) /! Fin (2 * net_distance).

(** std::numeric_limits<double>::min() *)
Definition dbl_min : R := / 2 ^ 1022.

(** base_idm.cpp:296-330, CalcACCAcc. [None]: LOG(FATAL) because the heuristic is NaN. *)
Definition acc_acc (p : idm_params) (net_distance vel_ego vel_other acc_other : R) : option ext :=
  let c := coolness p in
  let idm := raw_idm_acc p net_distance vel_ego vel_other in
  if Reqb c 0 then Some (clamp_acc p idm)
  else
    let net := if Reqb net_distance 0 then dbl_min else net_distance in
    let cah := cah_acc p net vel_ego vel_other acc_other in
    if is_nan cah then None
    else
      let b := Fin (comf_brake p) in
      let acc := if egeb idm cah then idm
                 else Fin (1 - c) *! idm +! Fin c *! (cah +! b *! etanh ((idm -! cah) /! b)) in
      Some (clamp_acc p acc).

(** base_idm.hpp:32-38, IDMRelativeValues (ego_acc is not used by any computation). *)
Record rel_values : Type := mkRV { leading_distance : R; leading_velocity : R; leading_acc : R; has_leading : bool }.

(** base_idm.cpp:337-363, GetTotalAcc: acceleration and new relative distance. [vel0] is the velocity of
    observed_world.CurrentEgoState(). *)
Definition total_acc (p : idm_params) (vel0 : R) (rv : rel_values) (rel_distance dt : R) : option (ext * ext) :=
  if has_leading rv then
    bind (if Rltb 0 (coolness p) then acc_acc p rel_distance vel0 (leading_velocity rv) (leading_acc rv)
          else Some (idm_acc p rel_distance vel0 (leading_velocity rv)))
      (fun acc =>
        let traveled_ego := Fin (1 / 2) *! acc *! Fin dt *! Fin dt +! Fin (vel0 * dt) in
        Some (acc, Fin rel_distance +! (Fin (leading_velocity rv * dt) -! traveled_ego)))
  else
    Some (clamp_acc p (Fin (max_acc p) *! free_road_term p vel0), Fin rel_distance).

(** base_idm.cpp:144-153, GetDistanceToLaneEnding; [until_end] is lane_corr->LengthUntilEnd(pos). *)
Definition distance_to_lane_ending (p : idm_params) (until_end : R) : bool * R :=
  let len := until_end - lane_end_offset p in
  if Rleb len (lane_end_enabled p) then (true, len) else (false, 1000000).

(** An agent's last action: the variants of the action type. *)
Inductive action : Type := Continuous1D (a : R) | LonLat (acc_lat acc_lon : R) | InputAction (u : vec) | DiscreteAction (i : nat).
Definition lon_acc_of (a : action) : option R :=
  match a with Continuous1D x => Some x | LonLat _ x => Some x | InputAction u => at_ u 0 | DiscreteAction _ => None end.

(** base_idm.cpp:179-256, CalcRelativeValues. The front agent, if any, is given by the longitudinal distance,
    its longitudinal velocity and its last action; [None]: LOG(FATAL) for an action without acceleration. *)
Definition calc_relative_values (p : idm_params) (front : option (R * R * action)) (until_end : R)
           (ego_action : action) : option rel_values :=
  bind (match front with
        | Some (_, _, a) => if Rltb 0 (coolness p) then lon_acc_of a else Some 0
        | None => Some 0
        end) (fun l_acc =>
  let '(dist, vel, act) :=
    match front with Some (d, v, _) => (d, v, true) | None => (0, 1000000, false) end in
  let '(dist, vel, act) :=
    if brake_lane_end p then
      let '(req, len) := distance_to_lane_ending p until_end in
      if req then
        match front with
        | None => (len, 0, true)
        | Some _ => let d := Rmin dist len in (d, (if Reqb d len then 0 else vel), true)
        end
      else (dist, vel, act)
    else (dist, vel, act) in
  bind (lon_acc_of ego_action) (fun _ => Some (mkRV dist vel l_acc act))).

(** The rollouts run over an acceleration source: GetTotalAcc of BaseIDM, or constant_acceleration.cpp:49-53
    (BehaviorConstantAcceleration::GetTotalAcc). *)
Definition acc_source : Type := R -> R -> option (ext * ext).
Definition idm_source (p : idm_params) (vel0 : R) (rv : rel_values) : acc_source := fun rel dt => total_acc p vel0 rv rel dt.
Definition const_source (const_acc : R) : acc_source := fun _ _ => Some (Fin const_acc, Fin 0).

(** idm_classic.cpp:59-86: the loop. A row is (time, x, y, theta, vel); each step also carries s and the
    acceleration. [None]: assertion on a NaN, or an infinite acceleration (excluded by finite limits). *)
Record step_data : Type := mkStep { st_acc : R; st_s : R; st_vel : R; st_row : vec }.
Fixpoint classic_loop (p : idm_params) (src : acc_source) (ln : line) (dt start : R)
         (i : nat) (s vel rel : R) (n : nat) : option (list step_data) :=
  match n with
  | O => Some []
  | S n' =>
    bind (src rel dt) (fun ar =>
    match ar with
    | (Fin acc, Fin rel') =>
      let s' := s + (1 / 2 * acc * dt * dt + vel * dt) in
      let vel' := Rmax (Rmin (vel + acc * dt) (max_vel p)) (min_vel p) in
      let t := INR i * dt + start in
      bind (get_point_at_s ln s') (fun pnt =>
      bind (get_tangent_angle_at_s ln s') (fun th =>
      bind (classic_loop p src ln dt start (S i) s' vel' rel' n') (fun r =>
        Some (mkStep acc s' vel' [t; fst pnt; snd pnt; th; vel'] :: r))))
    | _ => None
    end)
  end.
(** idm_classic.cpp:34-91, GenerateTrajectory: rows and the action. [None] also for an empty center line (rows
    uninitialised) and for no trajectory points at all (writing row 0 fails). *)
Definition classic_trajectory (p : idm_params) (src : acc_source) (ln : line) (ego : vec) (start : R) (rel0 dt : R)
  : option (list vec * action) :=
  match pts ln, num_points p with
  | [], _ => None
  | _, O => None
  | _, S n =>
    bind (at_ ego 1) (fun x => bind (at_ ego 2) (fun y => bind (at_ ego 4) (fun v =>
    bind (get_nearest_s ln (x, y)) (fun s0 =>
    bind (classic_loop p src ln dt start 1 s0 v rel0 n) (fun steps =>
      Some (firstn 5 ego :: map st_row steps,
            Continuous1D (match steps with st :: _ => st_acc st | [] => 0 end)))))))
  end.

(** idm_lane_tracking.cpp:67-107: the loop; [m] are the parameters of the ego's single track model with this
    behavior's acceleration limits (lines 49), [limit] is limit_steering_rate_. *)
Definition dstate_of (row : vec) : option dstate :=
  bind (at_ row 1) (fun x => bind (at_ row 2) (fun y => bind (at_ row 3) (fun th => bind (at_ row 4) (fun v => Some (mkDS x y th v))))).
Fixpoint tracking_loop (p : idm_params) (m : st_params) (gain : R) (limit : bool) (src : acc_source) (ln : line)
         (dt start : R) (i : nat) (prev : vec) (rel : R) (n : nat) : option (list (vec * vec)) :=
  match n with
  | O => Some []
  | S n' =>
    bind (src rel dt) (fun ar =>
    match ar with
    | (Fin acc, Fin rel') =>
      bind (dstate_of prev) (fun st =>
      bind (calculate_steering_angle m st ln gain limit) (fun angle =>
      let input := [acc; angle] in
      bind (euler_int (single_track (wheel_base m)) prev input dt) (fun nxt =>
      bind (at_ nxt 4) (fun v =>
      let row := set_at (set_at nxt 4 (Rmax v (min_vel p))) 0 (INR i * dt + start) in
      bind (tracking_loop p m gain limit src ln dt start (S i) row rel' n') (fun r =>
        Some ((input, row) :: r))))))
    | _ => None
    end)
  end.
(** idm_lane_tracking.cpp:37-110, GenerateTrajectory (with one point the action is an empty vector). *)
Definition tracking_trajectory (p : idm_params) (m : st_params) (gain : R) (limit : bool) (src : acc_source) (ln : line)
           (ego : vec) (start rel0 dt : R) : option (list vec * action) :=
  match pts ln, num_points p with
  | [], _ => None
  | _, O => None
  | _, S n =>
    if Nat.ltb (length ego) 5 then None else
    let row0 := set_at (firstn 5 ego) 0 start in
    bind (tracking_loop p m gain limit src ln dt start 1 row0 rel0 n) (fun steps =>
      Some (row0 :: map snd steps, InputAction (match steps with st :: _ => fst st | [] => [] end)))
  end.

(** base_idm.cpp:366-400, BaseIDM::Plan, and constant_acceleration.cpp:18-42: state of the model and one call.
    [corridor]: center line of the ego's lane corridor and length until its end, if there is one. With a constant lane corridor set the
    relative values come from another corridor: Model_FixedLane.v. *)
Inductive bstatus : Type := VALID | EXPIRED.
Record idm_state : Type := mkIS { i_status : bstatus; i_traj : list vec; i_action : action }.
Definition idm_dt (p : idm_params) (T : R) : R := T / (INR (num_points p) - 1).
Definition idm_plan (p : idm_params) (gen : acc_source -> line -> vec -> R -> R -> R -> option (list vec * action))
           (st : idm_state) (ego : vec) (start T : R) (corridor : option (line * R)) (front : option (R * R * action))
  : option (idm_state * list vec) :=
  match corridor with
  | None => Some (mkIS EXPIRED (i_traj st) (i_action st), i_traj st)
  | Some (ln, until_end) =>
    bind (calc_relative_values p front until_end (i_action st)) (fun rv =>
    bind (at_ ego 4) (fun v0 =>
    bind (gen (idm_source p v0 rv) ln ego start (leading_distance rv) (idm_dt p T)) (fun r =>
      Some (mkIS VALID (fst r) (snd r), fst r))))
  end.
Definition const_plan (p : idm_params) (const_acc : R) (st : idm_state) (ego : vec) (start T : R)
           (corridor : option line) : option (idm_state * list vec) :=
  match corridor with
  | None => Some (mkIS EXPIRED (i_traj st) (i_action st), i_traj st)
  | Some ln =>
    bind (classic_trajectory p (const_source const_acc) ln ego start 0 (idm_dt p T)) (fun r =>
      Some (mkIS VALID (fst r) (snd r), fst r))
  end.
