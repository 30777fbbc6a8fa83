(** Model of bark/geometry/standard_shapes.cpp: the predefined car contours and the goal rectangle, as
    polygons over the real numbers (CarRectangle and GenerateCarRectangle are in Model_Shape). The decimal
    literals are the exact decimals, not their nearest doubles. *)
From Coq Require Import Reals List.
From Verif Require Import Base_Real Base_Geom Model_Line Model_Shape.
Import ListNotations.
Local Open Scope R_scope.

(** standard_shapes.cpp:15-25, CarLimousine. *)
Definition car_limousine_points : list pt :=
  [((3850/1000), (0));
   ((3772/1000), (-495/1000));
   ((3426/1000), (-887/1000));
   ((2914/1000), (-956/1000));
   ((1457/1000), (-956/1000));
   ((0), (-956/1000));
   ((-512/1000), (-886/1000));
   ((-1020/1000), (-589/1000));
   ((-1119/1000), (0));
   ((-1020/1000), (589/1000));
   ((-512/1000), (886/1000));
   ((0), (956/1000));
   ((1457/1000), (956/1000));
   ((2914/1000), (956/1000));
   ((3426/1000), (887/1000));
   ((3772/1000), (495/1000));
   ((3850/1000), (0))].
Definition car_limousine : option shape := make_polygon (0, 0, 0) car_limousine_points.

(** standard_shapes.cpp:34-49, GenerateCarLimousine. *)
Definition generate_car_limousine_points (wheelbase collision_radius : R) : list pt :=
  let sw := collision_radius in
  let sl := (wheelbase + 2 * collision_radius) / (12906/10000) in
  [((1) * sl, (0) * sw);
   ((9797/10000) * sl, (-5178/10000) * sw);
   ((8899/10000) * sl, (-9278/10000) * sw);
   ((7569/10000) * sl, (-1) * sw);
   ((3784/10000) * sl, (-1) * sw);
   ((0) * sl, (-1) * sw);
   ((-1330/10000) * sl, (-9268/10000) * sw);
   ((-2649/10000) * sl, (-6161/10000) * sw);
   ((-2906/10000) * sl, (0) * sw);
   ((-2649/10000) * sl, (6161/10000) * sw);
   ((-1330/10000) * sl, (9268/10000) * sw);
   ((0) * sl, (1) * sw);
   ((3784/10000) * sl, (1) * sw);
   ((7569/10000) * sl, (1) * sw);
   ((8899/10000) * sl, (9278/10000) * sw);
   ((9797/10000) * sl, (5178/10000) * sw);
   ((1) * sl, (0) * sw)].
Definition generate_car_limousine (wheelbase collision_radius : R) : option shape :=
  make_polygon (0, 0, 0) (generate_car_limousine_points wheelbase collision_radius).

(** standard_shapes.cpp:62-68, GenerateGoalRectangle. *)
Definition generate_goal_rectangle (length width : R) : option shape :=
  make_polygon (width / 2, length / 2, 0) [(0, 0); (0, length); (width, length); (width, 0); (0, 0)].
