(** The region of a lane goal, /repo/bark/world/goal_definition/goal_definition_state_limits_frenet.cpp. *)
From Coq Require Import Reals List Bool.
From Verif Require Import Base_Real Base_Geom Model_Line Model_Shape Model_GeomPickle Model_PolyLines.
Import ListNotations.
Local Open Scope R_scope.

(** goal_definition_state_limits_frenet.cpp:27-48, the constructor: the shape; [None]: the normals or points of the
    center line cannot be computed. *)
Definition lane_goal_shape (huge : R) (center_line : line) (max_lateral : R * R) : option polygon :=
  match get_line_shifted_laterally center_line (- fst max_lateral), get_line_shifted_laterally center_line (snd max_lateral),
        get_point_at_s center_line (line_length center_line) with
  | Some line_shifted_left, Some line_shifted_right, Some shape_center =>
      let border := append_linestring line_shifted_left (reverse line_shifted_right) in
      Some (polygon_of_line huge (fst shape_center, snd shape_center, 0) (mkLO border (0, 0, 0)))
  | _, _, _ => None
  end.
(** 67-70: the direction of the center line at the point nearest to the agent (0 where the code's calls fail). *)
Definition tangent_at_nearest (l : line) (pos : pt) : R :=
  match get_nearest_point_and_s l pos with
  | Some (_, s, _) => match get_tangent_angle_at_s l s with Some t => t | None => 0 end
  | None => 0
  end.
