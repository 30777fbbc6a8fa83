(** Model of bark/commons/transformation/frenet.cpp and frenet_state.cpp over the real numbers.
    B_PI is the mathematical pi and the float conversion of NormToPI is exact (its error is treated in
    C20/C21). [None]: undefined behaviour, an exception or a NaN in the line functions. *)
From Coq Require Import Reals List Bool.
From Verif Require Import Base_Real Base_Geom Model_Angle Model_Line Model_Shape.
Import ListNotations.
Local Open Scope R_scope.

Definition sad (a b : R) : R := SignedAngleDiff PI exact a b.
Definition ntp (a : R) : R := NormToPI PI exact a.

(** A State vector restricted to the entries used: x, y, theta, velocity (state.hpp:28-41). *)
Record dstate : Type := mkDS { sx : R; sy : R; sth : R; sv : R }.
(** frenet.hpp:25-37, frenet_state.hpp:23-46. *)
Record fpos : Type := mkFP { p_lon : R; p_lat : R }.
Record fstate : Type := mkFS { lon : R; lat : R; vlon : R; vlat : R; angle : R; angle_road : R }.

(** frenet.cpp:29-44 and frenet_state.cpp:35-53: signed distance to the nearest point. *)
Definition lateral (pos near : pt) (tangent : R) : R :=
  let x_diff := fst near - fst pos in
  let y_diff := snd near - snd pos in
  let lat_val := sqrt (x_diff * x_diff + y_diff * y_diff) in
  let diff := sad tangent (atan2 (snd pos - snd near) (fst pos - fst near)) in
  let sign := if Rltb 0 diff then -1 else if Rltb diff 0 then 1 else 0 in
  lat_val * sign.

(** frenet.cpp:19-45, FrenetPosition::FrenetPosition. *)
Definition frenet_position (pos : pt) (path : line) : option fpos :=
  match get_nearest_point_and_s path pos with
  | None => None
  | Some (near, s, _) =>
    match get_tangent_angle_at_s path s with
    | None => None
    | Some t => Some (mkFP s (lateral pos near t))
    end
  end.

(** frenet_state.cpp:27-59, FrenetState::FrenetState. *)
Definition frenet_state (st : dstate) (path : line) : option fstate :=
  let pos := (sx st, sy st) in
  match get_nearest_point_and_s path pos with
  | None => None
  | Some (near, s, _) =>
    match get_tangent_angle_at_s path s with
    | None => None
    | Some t =>
      Some (mkFS s (lateral pos near t)
                 (cos (sad (sth st) t) * sv st) (sin (sad (sth st) t) * sv st)
                 (sad t (sth st)) t)
    end
  end.

(** frenet_state.cpp:61-85, FrenetStateToDynamicState. *)
Definition to_dynamic_state (f : fstate) (path : line) : option dstate :=
  match get_point_at_s path (lon f), get_tangent_angle_at_s path (lon f), get_normal_at_s path (lon f) with
  | Some p, Some a, Some n =>
    let pos := padd p (pscale n (lat f)) in
    Some (mkDS (fst pos) (snd pos) (ntp (atan2 (vlat f) (vlon f) + a)) (sqrt (vlon f * vlon f + vlat f * vlat f)))
  | _, _, _ => None
  end.

(** frenet_state.hpp:69. *)
Record extension : Type := mkExt { e_front : R; e_rear : R; e_left : R; e_right : R }.

(** frenet_state.cpp:95-116, ShapeExtensionAtTangentAngle (BARK_EXPECT_TRUE does not stop the program). *)
Definition shape_extension (a : R) (s : shape) : extension :=
  let side := left_dist s in
  let norm := ntp a in
  let pa := if Rltb (Rabs a) (PI / 2) then Rabs norm else Rabs (Rabs norm - PI) in
  let front := cos pa * front_dist s + sin pa * side in
  let rear := cos pa * rear_dist s + sin pa * side in
  let left := sin pa * front_dist s + cos pa * side in
  let right := sin pa * rear_dist s + cos pa * side in
  if Rltb (PI / 2) a then mkExt rear front left right
  else if Rltb a (- (PI / 2)) then mkExt rear front right left
  else mkExt front rear right left.

(** frenet_state.cpp:128-171, FrenetStateDifference. *)
Record fdiff : Type := mkFD { d_lon : R; d_lat : R; d_vlon : R; d_vlat : R; d_angle : R;
                              lon_zeroed : bool; lat_zeroed : bool }.
Definition lon_difference (f1 : fstate) (e1 : extension) (f2 : fstate) (e2 : extension) : R * bool :=
  if Rleb (lon f1) (lon f2) then
    let d := lon f2 - e_rear e2 - (lon f1 + e_front e1) in
    (if Rltb 0 d then d else lon f2 - lon f1, Rleb d 0)
  else
    let d := lon f2 + e_front e2 - (lon f1 - e_rear e1) in
    (if Rltb d 0 then d else lon f2 - lon f1, Rleb 0 d).
Definition lat_difference (f1 : fstate) (e1 : extension) (f2 : fstate) (e2 : extension) : R * bool :=
  if Rleb (lat f1) (lat f2) then
    let d := lat f2 - e_right e2 - (lat f1 + e_left e1) in
    (if Rltb 0 d then d else lat f2 - lat f1, Rleb d 0)
  else
    let d := lat f2 + e_right e1 - (lat f1 - e_right e2) in
    (if Rltb d 0 then d else lat f2 - lat f1, Rleb 0 d).
Definition frenet_difference (f1 : fstate) (s1 : shape) (f2 : fstate) (s2 : shape) : fdiff :=
  let e1 := shape_extension (angle f1) s1 in
  let e2 := shape_extension (angle f2) s2 in
  mkFD (fst (lon_difference f1 e1 f2 e2)) (fst (lat_difference f1 e1 f2 e2))
       (vlon f2 - vlon f1) (vlat f2 - vlat f1) (ntp (Norm0To2PI PI (angle f2 - angle f1)))
       (snd (lon_difference f1 e1 f2 e2)) (snd (lat_difference f1 e1 f2 e2)).

(** frenet_state.cpp:186-211, LatAccStreetToVehicleCs; [None]: division by zero. *)
Definition lat_acc_street_to_vehicle (acc_lat_street acc_lon dt theta v road road_last : R) : option R :=
  let delta := sad theta road in
  if Reqb dt 0 then None else if Reqb (cos delta) 0 then None
  else let rate := sad road road_last / dt in
       Some ((acc_lat_street - acc_lon * sin delta) / cos delta + v * rate).
