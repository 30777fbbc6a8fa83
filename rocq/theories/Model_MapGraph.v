(** Reading the map's graph: the queries of the roadgraph and of the map interface that hand out vertices, edges,
    boundaries and neighbours.  bark/world/map/roadgraph.cpp, roadgraph.hpp, map_interface.cpp. *)
From Coq Require Import List NArith Bool Arith.
From Verif Require Import Model_Map Model_Roadgraph Model_RoadSearch.
Import ListNotations.

Section MapGraph.
  Context {P : Type}.
  Implicit Types g : graph P.

  (** A vertex descriptor is the vertex's number, an edge descriptor the number of the edge in order of insertion (boost:
      source, target and a pointer to the edge's data; two descriptors are equal when the pointers are).  [None]: a
      descriptor that is not of the graph is used. *)
  (** roadgraph.cpp:331-338, GetVertices *)
  Definition get_vertices g : list nat := seq 0 (length (g_v g)).
  (** roadgraph.hpp, GetVertex and GetEdge *)
  Definition get_vertex g (v : nat) : option (vertex P) := nth_error (g_v g) v.
  Definition get_edge g (d : nat) : option edge := nth_error (g_e g) d.
  (** roadgraph.cpp:340-350, GetNextVertices *)
  Definition get_next_vertices g (v : nat) : option (list nat) :=
    if v <? length (g_v g) then Some (map e_dst (out_edges g v)) else None.

  (** boost::edge(u, v, g).first: the first edge out of u that leads to v, counted from [k]; [None]: there is none, the
      descriptor is of no edge. *)
  Fixpoint edge_from (k : nat) (es : list edge) (u v : nat) : option nat :=
    match es with
    | [] => None
    | e :: r => if (e_src e =? u) && (e_dst e =? v) then Some k else edge_from (S k) r u v
    end.
  (** roadgraph.cpp:376-378, GetEdgeDescr *)
  Definition get_edge_descr g (u v : nat) : option nat := edge_from 0 (g_e g) u v.
  (** roadgraph.cpp:352-363, GetOutEdges: every edge is looked up again by its ends *)
  Definition get_out_edges g (v : nat) : option (list (option nat)) :=
    if v <? length (g_v g) then Some (map (fun e => get_edge_descr g (e_src e) (e_dst e)) (out_edges g v)) else None.
  (** roadgraph.cpp:365-374, GetEdges: the same, edges in order of insertion (bidirectionalS) *)
  Definition get_edges g : list (option nat) := map (fun e => get_edge_descr g (e_src e) (e_dst e)) (g_e g).

  (** roadgraph.cpp:238-241, GetLanePolygonForLaneId; [None]: an unknown lane, [Some None]: null. *)
  Definition polygon_for_lane g (id : N) : option (option (list P)) :=
    match vertex_by_lane g id with
    | None => None
    | Some i => option_map v_poly (nth_error (g_v g) i)
    end.

  (** roadgraph.cpp:653-664, ComputeRouteBoundaries *)
  Fixpoint route_boundaries g (horizon : list N) : option (list (option (xlane P)) * list (xlane P)) :=
    match horizon with
    | [] => Some ([], [])
    | h :: r =>
      match lane_boundaries g h, route_boundaries g r with
      | Some (i, o), Some (is_, os) => Some (i :: is_, o :: os)
      | _, _ => None
      end
    end.
  (** map_interface.cpp:270-288, ComputeAllPathBoundaries *)
  Fixpoint path_boundaries g (path : list N) : option (list (option (xlane P) * xlane P)) :=
    match path with
    | [] => Some []
    | h :: r => match lane_boundaries g h, path_boundaries g r with Some b, Some bs => Some (b :: bs) | _, _ => None end
    end.
  Fixpoint paths_boundaries g (paths : list (list N)) : option (list (list (option (xlane P) * xlane P))) :=
    match paths with
    | [] => Some []
    | p :: r => match path_boundaries g p, paths_boundaries g r with Some b, Some bs => Some (b :: bs) | _, _ => None end
    end.
  Definition all_path_boundaries (ver : nv_version) (D : dijkstra P) g (ids : list N) :=
    match find_all_paths ver D g [LANE_SUCC] ids with
    | None => None
    | Some paths => paths_boundaries g paths
    end.
  (** map_interface.cpp:290-306, GetInnerNeighbor and GetOuterNeighbor; the pointer may be null *)
  Definition neighbor_lane g (n : option (N * bool)) : option (option (xlane P) * bool) :=
    match n with
    | None => None
    | Some (i, true) => Some (lane_ptr g i, true)
    | Some (_, false) => Some (None, false)
    end.
  Definition mi_inner_neighbor g (id : N) := neighbor_lane g (inner_neighbor g id).
  Definition mi_outer_neighbor g (id : N) := neighbor_lane g (outer_neighbor g id).
End MapGraph.

(** map_interface.cpp:618-624, GetNextRoad: [Undefined]: past the end of the list, or the last of an empty one; [Thrown]:
    the next road is not among the roads. *)
Inductive next_road_result (A : Type) := Undefined | Thrown | NoRoad | ARoad (r : A).
Arguments Undefined {A}. Arguments Thrown {A}. Arguments NoRoad {A}. Arguments ARoad {A}.
Fixpoint after_first (cur : N) (ids : list N) : option N :=
  match ids with
  | [] => None
  | i :: r => if (i =? cur)%N then hd_error r else after_first cur r
  end.
Definition get_next_road {A} (cur : N) (roads : kmap A) (ids : list N) : next_road_result A :=
  match rev ids with
  | [] => Undefined
  | l :: _ =>
    if (l =? cur)%N then NoRoad
    else match after_first cur ids with
         | None => Undefined
         | Some n => match m_find n roads with Some r => ARoad r | None => Thrown end
         end
  end.
