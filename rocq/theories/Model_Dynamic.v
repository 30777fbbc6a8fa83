(** Model of bark/models/dynamic/*.hpp and behavior/dynamic_model/dynamic_model.cpp over the real numbers.
    State and Input are Eigen vectors, here lists; [None]: Eigen's size or index assertion fails. *)
From Coq Require Import Reals List Bool ZArith.
From Verif Require Import Base_Real Base_Geom Model_Angle Model_Line Model_Frenet.
Import ListNotations.
Local Open Scope R_scope.

Definition vec : Type := list R.
Definition vscale (k : R) (v : vec) : vec := map (Rmult k) v.
Fixpoint vadd (a b : vec) : option vec :=
  match a, b with
  | [], [] => Some []
  | x :: a', y :: b' => match vadd a' b' with Some r => Some (x + y :: r) | None => None end
  | _, _ => None
  end.
Definition bind {A B} (o : option A) (f : A -> option B) : option B := match o with Some x => f x | None => None end.
(** v(i) *)
Definition at_ (v : vec) (i : nat) : option R := nth_error v i.
Definition set_at (v : vec) (i : nat) (x : R) : vec := firstn i v ++ x :: skipn (S i) v.

(** dynamic_model.hpp:51-67: StateSpaceModel and GetStateSize. *)
Record dyn_model : Type := mkDM { ssm : vec -> vec -> option vec; state_size : nat }.

(** single_track.hpp:66-75, SingleTrackModel::StateSpaceModel (u(0) acceleration, u(1) steering angle). *)
Definition single_track (wheel_base : R) : dyn_model :=
  mkDM (fun x u =>
    bind (at_ x 3) (fun th => bind (at_ x 4) (fun v => bind (at_ u 0) (fun a => bind (at_ u 1) (fun delta =>
      Some [1; v * cos th; v * sin th; v * tan delta / wheel_base; a]))))) 5.
(** single_track_steering_rate.hpp:43-55 and 63-66. *)
Definition single_track_rate (wheel_base : R) : dyn_model :=
  mkDM (fun x u =>
    bind (at_ x 3) (fun th => bind (at_ x 4) (fun v => bind (at_ x 5) (fun d => bind (at_ u 0) (fun a => bind (at_ u 1) (fun rate =>
      Some [1; v * cos th; v * sin th; v * tan d / wheel_base; a; rate])))))) 6.

(** triple_integrator.hpp:38-57: A * x + B * u with the entries A(0,0)=1, A(6,7)=A(7,8)=A(9,10)=A(10,11)=
    A(12,13)=A(13,14)=1, B(8,0)=B(11,1)=B(14,2)=1; GetStateSize is not overridden (dynamic_model.hpp:62-64). *)
Definition triple_integrator : dyn_model :=
  mkDM (fun x u =>
    match x, u with
    | [t; _; _; _; _; _; _; vx; ax; _; vy; ay; _; vz; az], [ux; uy; uz] =>
        Some [t; 0; 0; 0; 0; 0; vx; ax; ux; vy; ay; uy; vz; az; uz]
    | _, _ => None
    end) 5.

(** integration.hpp:20-28, euler_int. *)
Definition euler_int (m : dyn_model) (x u : vec) (dt : R) : option vec :=
  bind (ssm m x u) (fun d => bind (vadd x (vscale dt d)) (fun n =>
    bind (at_ n 3) (fun th => Some (set_at n 3 (ntp th))))).
(** integration.hpp:30-37, rk4. *)
Definition rk4 (m : dyn_model) (x u : vec) (dt : R) : option vec :=
  bind (ssm m x u) (fun d0 => let k0 := vscale dt d0 in
  bind (vadd x (vscale (/ 2) k0)) (fun x1 => bind (ssm m x1 u) (fun d1 => let k1 := vscale dt d1 in
  bind (vadd x (vscale (/ 2) k1)) (fun x2 => bind (ssm m x2 u) (fun d2 => let k2 := vscale dt d2 in
  bind (vadd x k2) (fun x3 => bind (ssm m x3 u) (fun d3 => let k3 := vscale dt d3 in
  bind (vadd k0 (vscale 2 k1)) (fun s1 => bind (vadd s1 (vscale 2 k2)) (fun s2 => bind (vadd s2 k3) (fun s3 =>
    vadd x (vscale (1 / 6) s3))))))))))).

(** single_track.hpp:21-26, AccelerationLimits, with the other parameters of the model. *)
Record st_params : Type := mkSTP { wheel_base : R; delta_max : R;
  lat_acc_max : R; lat_acc_min : R; lon_acc_max : R; lon_acc_min : R }.

(** single_track.hpp:148-155, CalculateLateralAcceleration. *)
Definition lateral_acceleration (m : st_params) (delta vel : R) : R :=
  let theta_dot := vel * tan delta / wheel_base m in vel * theta_dot.

(** single_track.hpp:167-170 and 172-175: boundValue, SteeringAngle. *)
Definition bound_value (v mn mx : R) : R := Rmax (Rmin v mx) mn.
Definition steering_angle_of (acc_lat vel_lon wheelbase : R) : R := atan2 (acc_lat * wheelbase) (vel_lon * vel_lon).

(** single_track.hpp:157-218, CalculateSteeringAngle. *)
Definition front_axle (m : st_params) (st : dstate) : dstate :=
  mkDS (sx st + wheel_base m * cos (sth st)) (sy st + wheel_base m * sin (sth st)) (sth st) (sv st).
Definition raw_steering (f : fstate) (gain vel : R) : R := ntp (angle f) + atan2 (- gain * lat f) vel.
Definition limited_steering (m : st_params) (delta vel : R) : R :=
  let dmax := steering_angle_of (lat_acc_max m) vel (wheel_base m) in
  let dmin := steering_angle_of (lat_acc_min m) vel (wheel_base m) in
  let delta1 := bound_value delta (- delta_max m) (delta_max m) in
  bound_value delta1 dmin dmax.
Definition calculate_steering_angle (m : st_params) (st : dstate) (ref_line : line) (gain : R) (limit : bool) : option R :=
  match frenet_state (front_axle m st) ref_line with
  | None => None
  | Some f =>
    let delta := raw_steering f gain (sv st) in
    Some (if limit then limited_steering m delta (sv st) else delta)
  end.

(** single_track.hpp:124-134. *)
Definition get_lon_acc_max (m : st_params) (v : R) : R := lon_acc_max m.
Definition get_lon_acc_min (m : st_params) (v : R) : R := if Rltb (Rabs v) (1 / 100000) then 0 else lon_acc_min m.

(** single_track.hpp:104-122, CalculateLatAccelerationMaxAtFrenetAngle. *)
Definition lat_acc_max_at_frenet_angle (m : st_params) (v theta tangent a_total_max : R) (on_left : bool) : R :=
  let delta_max := atan2 (lat_acc_max m * wheel_base m) (v * v) in
  let abs_angle_diff := Rabs (sad theta tangent) in
  let delta_ev := if (on_left && Rltb abs_angle_diff (PI / 2) || negb on_left && Rltb (PI / 2) abs_angle_diff)%bool
                  then delta_max else delta_max in
  let from_steering := v * v * sin delta_ev / wheel_base m * cos (tangent + theta) in
  let from_long := Rabs a_total_max * sin (tangent - theta) in
  Rabs (from_long - from_steering).

(** std::ceil. *)
Definition ceil (x : R) : Z := (- Int_part (- x))%Z.

(** behavior/dynamic_model/dynamic_model.cpp:38-68, BehaviorDynamicModel::Plan: rows of the trajectory. A row
    takes a vector of GetStateSize() entries. *)
Fixpoint dm_rows (m : dyn_model) (u : vec) (dt start : R) (i : nat) (prev : vec) (n : nat) : option (list vec) :=
  match n with
  | O => Some []
  | S n' =>
    bind (euler_int m prev u dt) (fun nxt =>
      if Nat.eqb (length nxt) (state_size m) then
        let row := set_at nxt 0 (start + INR i * dt) in
        bind (dm_rows m u dt start (S i) row n') (fun r => Some (row :: r))
      else None)
  end.
Definition dm_plan (m : dyn_model) (u x0 : vec) (dt start T : R) : option (list vec) :=
  let n := (ceil (T / dt) + 2)%Z in
  if (n <=? 0)%Z then None
  else if Nat.eqb (length x0) (state_size m) then
    bind (dm_rows m u dt start 1 x0 (Z.to_nat n - 1)) (fun r => Some (x0 :: r))
  else None.
