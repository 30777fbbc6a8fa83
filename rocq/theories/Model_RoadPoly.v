(** The drivable area of a road corridor: bark/world/map/road_corridor.hpp (ComputeRoadPolygon, AddPolygonToRoadCorridor,
    GetJunctionIds), roadgraph.cpp (ComputeJunctionArea), map_interface.cpp:543-553 and the polygon operations they use
    (geometry/polygon.hpp). The boost::geometry algorithms are arguments. *)
From Coq Require Import List Bool NArith QArith.
Import ListNotations.

Section RoadPoly.
  (** Poly: a boost polygon with its holes. *)
  Variable Poly : Type.
  Variable empty : Poly.
  (** bg::correct, bg::union_ (the polygons it returns), bg::buffer with mitred joins (the polygons of the result), the polygon
      of an exterior ring, inners().clear(). *)
  Variable correct : Poly -> Poly.
  Variable union : Poly -> Poly -> list Poly.
  Variable buffer : Q -> Poly -> list Poly.
  Variable outer : Poly -> Poly.

  (** polygon.hpp:47-55, ConcatenatePolygons. *)
  Definition concatenate (a b : Poly) : Poly :=
    match union (correct a) (correct b) with [] => correct a | u :: _ => u end.
  (** polygon.hpp:57-59, ClearInners: what is left is the exterior ring. *)
  Definition clear_inners (a : Poly) : Poly := outer a.
  (** polygon.hpp:264-293, BufferPolygon into a fresh polygon: the result (ignored by all callers here) and the polygon. *)
  Definition buffer_polygon (a : Poly) (d : Q) : bool * Poly :=
    match buffer d (correct a) with [b] => (true, outer b) | _ => (false, empty) end.

  (** road_corridor.hpp:114-129, ComputeRoadPolygon: [corridors]: the unique lane corridors, each with the polygons of its lanes in
      map order. *)
  Definition compute_road_polygon (d : Q) (corridors : list (list Poly)) : Poly :=
    let merged := fold_left (fun m lanes => fold_left (fun m lane => concatenate m (snd (buffer_polygon lane d))) lanes m) corridors empty in
    snd (buffer_polygon merged (- d)).
  (** road_corridor.hpp:134-147, AddPolygonToRoadCorridor. *)
  Definition add_polygon (d : Q) (road input : Poly) : Poly :=
    let buffered_input := snd (buffer_polygon input d) in
    let road_buffered := snd (buffer_polygon road d) in
    snd (buffer_polygon (concatenate road_buffered buffered_input) (- d)).
  (** road_corridor.hpp:148-159, GetJunctionIds: the lanes of the corridors as (junction, if in one). *)
  Definition junction_ids (corridors : list (list (option N))) : list N :=
    flat_map (fun lanes => flat_map (fun j => match j with Some i => [i] | None => [] end) lanes) corridors.

  (** A vertex of the road graph: junction of the lane, whether the lane is for driving, polygon. *)
  Record vtx : Type := mkV { v_junction : option N; v_driving : bool; v_polygon : option Poly }.
  (** roadgraph.cpp:823-838, ComputeJunctionArea. *)
  Definition junction_area (g : list vtx) (j : N) : Poly :=
    clear_inners (fold_left (fun m v =>
      if (match v_junction v with Some i => N.eqb i j | None => false end) && v_driving v
      then match v_polygon v with Some p => concatenate m p | None => m end else m) g empty).

  (** map_interface.cpp:547-553: [lanes]: polygon and junction of the lanes of the unique corridors. *)
  Definition road_area (full_junction : bool) (g : list vtx) (lanes : list (list (Poly * option N))) : Poly :=
    let road := compute_road_polygon (3 # 10) (map (map fst) lanes) in
    if full_junction then fold_left (fun r j => add_polygon (1 # 10) r (junction_area g j)) (junction_ids (map (map snd) lanes)) road
    else road.
End RoadPoly.
Arguments mkV {Poly}. Arguments v_junction {Poly}. Arguments v_driving {Poly}. Arguments v_polygon {Poly}.
