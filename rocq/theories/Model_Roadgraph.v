(* OpenDRIVE map data, the roadgraph built from it and its queries.
   bark/world/opendrive/{commons,lane,lane_section,road,junction,opendrive}.hpp,
   bark/world/map/roadgraph.{hpp,cpp}, roadgraph_impl.hpp.
   Points are an arbitrary type P: the graph never looks at coordinates.
   Undefined behaviour (null dereference, uninitialised vertex descriptor, front() of an empty vector,
   unbounded recursion) is the explicit result None. *)
From Coq Require Import List NArith ZArith Bool Arith.
From Verif Require Import Model_Map.
Import ListNotations.

(* bark/world/opendrive/commons.hpp:90 *)
Inductive dir := FORWARD | BACKWARD | BOTH.
Definition dir_eqb (a b : dir) : bool :=
  match a, b with
  | FORWARD, FORWARD | BACKWARD, BACKWARD | BOTH, BOTH => true
  | _, _ => false
  end.

(* bark/world/opendrive/commons.hpp:92-118; every type other than DRIVING is kept apart by its code. *)
Inductive ltype := DRIVING | OTHERTYPE (code : N).
Definition is_driving (t : ltype) : bool := match t with DRIVING => true | OTHERTYPE _ => false end.

(* bark/world/map/roadgraph.hpp:48-53 *)
Inductive etype := LANE_SUCC | INNER | OUTER | ROAD_SUCC.
Definition etype_eqb (a b : etype) : bool :=
  match a, b with
  | LANE_SUCC, LANE_SUCC | INNER, INNER | OUTER, OUTER | ROAD_SUCC, ROAD_SUCC => true
  | _, _ => false
  end.

Section Roadgraph.
  Context {P : Type}.

  (* bark/world/opendrive/lane.hpp:79-93: id, position, type, direction, link, junction and line.
     Speed and road mark are not modelled. l_junction is Some id exactly when is_in_junction_. *)
  Record xlane := mkLane {
    l_id : N; l_pos : Z; l_type : ltype; l_dir : dir;
    l_from : Z; l_to : Z; l_junction : option N; l_line : list P }.

  (* bark/world/opendrive/lane_section.hpp:41-43: std::map<XodrLaneId, XodrLanePtr>. *)
  Definition section := kmap xlane.

  (* bark/world/opendrive/road.hpp:66-72, commons.hpp:27-56. A link is (id_, type_ == "road").
     Name and plan view geometry are not modelled; section pointers are taken to be non-null. *)
  Record road := mkRoad { r_succ : N * bool; r_pred : N * bool; r_sections : list section }.

  (* bark/world/opendrive/commons.hpp:81-88 *)
  Record connection := mkConn { c_incoming : N; c_connecting : N; c_links : list (Z * Z) }.

  (* bark/world/opendrive/opendrive.hpp:72-75, junction.hpp:39-42 *)
  Record xmap := mkMap { m_roads : kmap road; m_junctions : kmap (kmap connection) }.

  (* bark/world/opendrive/lane_section.cpp:22-24 *)
  Definition sec_add (l : xlane) (s : section) : section := m_insert (l_id l) l s.

  (* bark/world/opendrive/lane_section.cpp:26-35: the last match in increasing id order. *)
  Definition lane_by_position (s : section) (p : Z) : option xlane :=
    fold_left (fun acc kv => if (p =? l_pos (snd kv))%Z then Some (snd kv) else acc) s None.

  (* bark/world/map/roadgraph.hpp:33-46. global_lane_id is the id the lane has in AddLane; lanes are
     not renamed afterwards. *)
  Record vertex := mkVertex { v_road : N; v_id : N; v_lane : xlane; v_poly : option (list P) }.
  (* bark/world/map/roadgraph.hpp:55-65: vertices are indexed 0,1,2,... (vecS). Parallel edges are
     allowed; edges leaving one vertex are kept in insertion order. *)
  Record edge := mkEdge { e_src : nat; e_dst : nat; e_type : etype }.
  Record graph := mkGraph { g_v : list vertex; g_e : list edge }.

  Definition empty_graph : graph := mkGraph [] [].

  (* bark/world/map/roadgraph.hpp:60-64 *)
  Definition weight (t : etype) : nat := match t with LANE_SUCC => 1 | _ => 10 end.

  (* bark/world/map/roadgraph.cpp:17-22 *)
  Definition add_lane (r : N) (l : xlane) (g : graph) : graph :=
    mkGraph (g_v g ++ [mkVertex r (l_id l) l None]) (g_e g).

  (* bark/world/map/roadgraph.cpp:381-395: the first vertex carrying the id. None: not found, in which
     case retval.first stays uninitialised. *)
  Fixpoint find_v (vs : list vertex) (id : N) : option nat :=
    match vs with
    | [] => None
    | v :: r => if (v_id v =? id)%N then Some 0 else option_map S (find_v r id)
    end.
  Definition vertex_by_lane (g : graph) (id : N) : option nat := find_v (g_v g) id.

  (* bark/world/map/roadgraph.cpp:305-313 *)
  Definition has_lane (g : graph) (id : N) : bool :=
    existsb (fun v => (v_id v =? id)%N) (g_v g).

  (* bark/world/map/roadgraph.cpp:693-705 *)
  Definition add_edge (g : graph) (src dst : N) (t : etype) : graph * bool :=
    match vertex_by_lane g src, vertex_by_lane g dst with
    | Some i, Some j => (mkGraph (g_v g) (g_e g ++ [mkEdge i j t]), true)
    | _, _ => (g, false)
    end.

  (* bark/world/map/roadgraph.cpp:24-42 *)
  Definition add_inner (g : graph) (inner outer : N) := add_edge g outer inner INNER.
  Definition add_outer (g : graph) (inner outer : N) := add_edge g inner outer OUTER.
  Definition add_lane_succ (g : graph) (prev succ : N) := add_edge g prev succ LANE_SUCC.
  Definition add_road_succ (g : graph) (prev succ : N) := add_edge g prev succ ROAD_SUCC.

  (* boost::out_edges / in_edges of adjacency_list<vecS, vecS, bidirectionalS>: insertion order. *)
  Definition out_edges (g : graph) (i : nat) : list edge := filter (fun e => e_src e =? i) (g_e g).
  Definition in_edges (g : graph) (i : nat) : list edge := filter (fun e => e_dst e =? i) (g_e g).

  Definition vid (g : graph) (i : nat) : N :=
    match nth_error (g_v g) i with Some v => v_id v | None => 0%N end.
  Definition vroad (g : graph) (i : nat) : N :=
    match nth_error (g_v g) i with Some v => v_road v | None => 0%N end.

  (* bark/world/map/roadgraph.cpp:44-58, 60-74. None: unknown lane, uninitialised descriptor used. *)
  Definition successor_lanes (g : graph) (id : N) : option (list N) :=
    match vertex_by_lane g id with
    | None => None
    | Some i => Some (map (fun e => vid g (e_dst e))
                        (filter (fun e => etype_eqb (e_type e) LANE_SUCC) (out_edges g i)))
    end.
  Definition predecessor_lanes (g : graph) (id : N) : option (list N) :=
    match vertex_by_lane g id with
    | None => None
    | Some i => Some (map (fun e => vid g (e_src e))
                        (filter (fun e => etype_eqb (e_type e) LANE_SUCC) (in_edges g i)))
    end.

  (* bark/world/map/roadgraph.cpp:168-175: NULL for an unknown lane. *)
  Definition lane_ptr (g : graph) (id : N) : option xlane :=
    match vertex_by_lane g id with
    | None => None
    | Some i => option_map v_lane (nth_error (g_v g) i)
    end.

  (* bark/world/map/roadgraph.cpp:177-186 *)
  Definition all_lane_ids (g : graph) : list N :=
    map v_id (filter (fun v => negb (l_pos (v_lane v) =? 0)%Z) (g_v g)).

  (* bark/world/map/roadgraph.cpp:188-200 *)
  Definition plan_view_for_road (g : graph) (r : N) : N * bool :=
    match find (fun v => (v_road v =? r)%N && (l_pos (v_lane v) =? 0)%Z) (g_v g) with
    | Some v => (v_id v, true)
    | None => (0%N, false)
    end.

  (* bark/world/map/roadgraph.cpp:202-213: road_found is never set. *)
  Definition driving_directions_for_road (g : graph) (r : N) : list dir * bool :=
    (map (fun v => l_dir (v_lane v)) (filter (fun v => (v_road v =? r)%N) (g_v g)), false).

  (* bark/world/map/roadgraph.cpp:707-724 *)
  Definition neighbors_of_type (g : graph) (id : N) (t : etype) : option (list (N * bool)) :=
    match vertex_by_lane g id with
    | None => None
    | Some i =>
        let r := map (fun e => (vid g (e_dst e), true))
                   (filter (fun e => etype_eqb (e_type e) t) (out_edges g i)) in
        Some (match r with [] => [(0%N, false)] | _ => r end)
    end.

  (* bark/world/map/roadgraph.cpp:248-262: neighbors.front(). *)
  Definition inner_neighbor (g : graph) (id : N) : option (N * bool) :=
    match neighbors_of_type g id INNER with
    | Some (n :: _) => Some n
    | _ => None
    end.
  Definition outer_neighbor (g : graph) (id : N) : option (N * bool) :=
    match neighbors_of_type g id OUTER with
    | Some (n :: _) => Some n
    | _ => None
    end.
  (* bark/world/map/roadgraph.cpp:264-269 *)
  Definition outer_neighbors_plan_view (g : graph) (id : N) : option (list (N * bool)) :=
    neighbors_of_type g id OUTER.

  (* bark/world/map/roadgraph.cpp:215-236. The recursion follows a function of the lane id, so more
     steps than vertices means it never returns: fuel = number of vertices, None when exhausted. *)
  Fixpoint plan_view_for_lane_f (fuel : nat) (g : graph) (id : N) : option (N * bool) :=
    match fuel with
    | Datatypes.O => None
    | S n =>
        match lane_ptr g id with
        | None => None
        | Some l =>
            if (l_pos l =? 0)%Z then Some (id, true)
            else match inner_neighbor g (l_id l) with
                 | Some (i, true) => plan_view_for_lane_f n g i
                 | Some (_, false) => Some (0%N, false)
                 | None => None
                 end
        end
    end.
  Definition plan_view_for_lane (g : graph) (id : N) : option (N * bool) :=
    plan_view_for_lane_f (S (length (g_v g))) g id.

  (* bark/world/map/roadgraph.cpp:243-246 *)
  Definition road_for_lane (g : graph) (id : N) : option N :=
    match vertex_by_lane g id with
    | None => None
    | Some i => Some (vroad g i)
    end.

  (* bark/world/map/roadgraph.cpp:271-303. Throws for the plan view (None). *)
  Fixpoint inner_chain (fuel : nat) (g : graph) (cur nxt : N * bool) : option (list N) :=
    if snd nxt then
      match fuel with
      | Datatypes.O => None
      | S n => match inner_neighbor g (fst nxt) with
               | None => None
               | Some nn => option_map (cons (fst cur)) (inner_chain n g nxt nn)
               end
      end
    else Some [].
  Fixpoint outer_chain (fuel : nat) (g : graph) (cur : N * bool) : option (list N) :=
    if snd cur then
      match fuel with
      | Datatypes.O => None
      | S n => match outer_neighbor g (fst cur) with
               | None => None
               | Some nn => option_map (cons (fst cur)) (outer_chain n g nn)
               end
      end
    else Some [].
  Definition all_neighbors (g : graph) (id : N) : option (list N) :=
    match lane_ptr g id with
    | None => None
    | Some l =>
        if (l_pos l =? 0)%Z then None
        else
          match inner_neighbor g id with
          | None => None
          | Some cur =>
              match (if snd cur then inner_neighbor g (fst cur) else Some (0%N, false)) with
              | None => None
              | Some nxt =>
                  match inner_chain (S (length (g_v g))) g cur nxt, outer_neighbor g id with
                  | Some a, Some o =>
                      option_map (app a) (outer_chain (S (length (g_v g))) g o)
                  | _, _ => None
                  end
              end
          end
    end.

  (* bark/world/map/roadgraph.cpp:726-742 *)
  Definition next_lane (g : graph) (roads : list N) (id : N) : option (N * bool) :=
    match vertex_by_lane g id with
    | None => None
    | Some i =>
        Some (match find (fun e => etype_eqb (e_type e) LANE_SUCC
                                   && existsb (N.eqb (vroad g (e_dst e))) roads) (out_edges g i) with
              | Some e => (vid g (e_dst e), true)
              | None => (0%N, false)
              end)
    end.

  (* the plan-view crossing loop of GetLeftLane / GetRightLane,
     bark/world/map/roadgraph.cpp:753-757, 786-790 *)
  Definition across_plan_view (ns : list (N * bool)) (id : N) : N * bool :=
    match find (fun n => snd n && negb (fst n =? id)%N) ns with
    | Some n => (fst n, true)
    | None => (0%N, false)
    end.

  (* bark/world/map/roadgraph.cpp:744-765 *)
  Definition left_lane (g : graph) (id : N) (d : dir) : option (N * bool) :=
    match lane_ptr g id with
    | None => None
    | Some l =>
        if dir_eqb d (l_dir l) then
          match inner_neighbor g id with
          | None => None
          | Some (_, false) => Some (0%N, false)
          | Some (i, true) =>
              match lane_ptr g i with
              | None => None
              | Some il =>
                  if negb (l_pos il =? 0)%Z then Some (i, true)
                  else option_map (fun ns => across_plan_view ns id) (outer_neighbors_plan_view g i)
              end
          end
        else outer_neighbor g id
    end.

  (* bark/world/map/roadgraph.cpp:767-795 *)
  Definition right_lane (g : graph) (id : N) (d : dir) : option (N * bool) :=
    match lane_ptr g id with
    | None => None
    | Some l =>
        if dir_eqb d (l_dir l) then outer_neighbor g id
        else
          match inner_neighbor g id with
          | None => None
          | Some (_, false) => Some (0%N, false)
          | Some (i, true) =>
              match lane_ptr g i with
              | None => None
              | Some il =>
                  if negb (l_pos il =? 0)%Z then Some (i, true)
                  else option_map (fun ns => across_plan_view ns id) (outer_neighbors_plan_view g i)
              end
          end
    end.

  (* bark/world/map/roadgraph.cpp:797-808, 810-821: the lane whose line is the boundary. *)
  Definition left_boundary (g : graph) (id : N) (d : dir) : option (N * bool) :=
    match lane_ptr g id with
    | None => None
    | Some l => if dir_eqb d (l_dir l) then inner_neighbor g id else Some (id, true)
    end.
  Definition right_boundary (g : graph) (id : N) (d : dir) : option (N * bool) :=
    match lane_ptr g id with
    | None => None
    | Some l => if dir_eqb d (l_dir l) then Some (id, true) else inner_neighbor g id
    end.

  (* ---------------------------------------------------------------- generation *)

  (* bark/world/map/roadgraph.cpp:396-406 *)
  Definition gen_vertices (m : xmap) (g : graph) : graph :=
    fold_left (fun g kr =>
      fold_left (fun g s =>
        fold_left (fun g kl => add_lane (fst kr) (snd kl) g) s g)
        (r_sections (snd kr)) g)
      (m_roads m) g.

  (* bark/world/map/roadgraph.cpp:516-543 *)
  Definition gen_neighbours_lane (s : section) (l : xlane) (g : graph) : graph :=
    if (l_pos l =? 0)%Z then g
    else
      let inner_pos := if (0 <? l_pos l)%Z then (l_pos l - 1)%Z else (l_pos l + 1)%Z in
      match lane_by_position s inner_pos with
      | None => g
      | Some il => fst (add_outer (fst (add_inner g (l_id il) (l_id l))) (l_id il) (l_id l))
      end.
  Definition gen_neighbours (m : xmap) (g : graph) : graph :=
    fold_left (fun g kr =>
      fold_left (fun g s =>
        fold_left (fun g kl => gen_neighbours_lane s (snd kl) g) s g)
        (r_sections (snd kr)) g)
      (m_roads m) g.

  (* folds with failure *)
  Fixpoint ofold {A B : Type} (f : A -> B -> option A) (l : list B) (a : A) : option A :=
    match l with
    | [] => Some a
    | b :: r => match f a b with Some a' => ofold f r a' | None => None end
    end.

  (* both directions of a lane successor, then both directions of the road successor between the
     plan views: bark/world/map/roadgraph.cpp:465-476 (link), 494-505 (predecessor link),
     564-582 (junction). The insertion order of the two lane edges is given by (a, b).
     BARK_EXPECT_TRUE (bark/commons/util/util.hpp:34-41) only prints, so generation goes on with lane
     id 0 when a plan view is missing. *)
  Definition connect (a b : N) (g : graph) : option graph :=
    let g1 := fst (add_lane_succ g a b) in
    let g2 := fst (add_lane_succ g1 b a) in
    match plan_view_for_lane g2 a, plan_view_for_lane g2 b with
    | Some pa, Some pb =>
        let g3 := fst (add_road_succ g2 (fst pa) (fst pb)) in
        Some (fst (add_road_succ g3 (fst pb) (fst pa)))
    | _, _ => None
    end.

  (* the neighbouring road's section a link refers to: front() of the successor, back() of the
     predecessor, nullptr when the link is not of type road or the road is not in the map;
     outer None: front()/back() of an empty vector. bark/world/map/roadgraph.cpp:423-447 *)
  Definition succ_section (m : xmap) (r : road) : option (option section) :=
    if snd (r_succ r) then
      match m_find (fst (r_succ r)) (m_roads m) with
      | None => Some None
      | Some r' => match r_sections r' with [] => None | s :: _ => Some (Some s) end
      end
    else Some None.
  Definition pred_section (m : xmap) (r : road) : option (option section) :=
    if snd (r_pred r) then
      match m_find (fst (r_pred r)) (m_roads m) with
      | None => Some None
      | Some r' => match rev (r_sections r') with [] => None | s :: _ => Some (Some s) end
      end
    else Some None.

  (* bark/world/map/roadgraph.cpp:478-507 *)
  Definition gen_pred_lane (ps : option section) (l : xlane) (g : graph) : option graph :=
    match ps with
    | None => Some g
    | Some s =>
        if (l_from l =? 0)%Z then Some g
        else match lane_by_position s (l_from l) with
             | None => Some g
             | Some pl => connect (l_id pl) (l_id l) g
             end
    end.

  (* bark/world/map/roadgraph.cpp:449-511: `continue` on a zero successor position also skips the
     predecessor. *)
  Definition gen_links_lane (ss ps : option section) (g : graph) (l : xlane) : option graph :=
    match ss with
    | None => gen_pred_lane ps l g
    | Some s =>
        if (l_to l =? 0)%Z then Some g
        else match lane_by_position s (l_to l) with
             | None => gen_pred_lane ps l g
             | Some sl => match connect (l_id l) (l_id sl) g with
                          | None => None
                          | Some g' => gen_pred_lane ps l g'
                          end
             end
    end.

  (* bark/world/map/roadgraph.cpp:408-514: a road whose successor id exceeds 1000 is skipped. *)
  Definition gen_links_road (m : xmap) (g : graph) (r : road) : option graph :=
    if (1000 <? fst (r_succ r))%N then Some g
    else
      match succ_section m r, pred_section m r with
      | Some ss, Some ps =>
          ofold (fun g s => ofold (fun g kl => gen_links_lane ss ps g (snd kl)) s g) (r_sections r) g
      | _, _ => None
      end.
  Definition gen_links (m : xmap) (g : graph) : option graph :=
    ofold (fun g kr => gen_links_road m g (snd kr)) (m_roads m) g.

  (* bark/world/map/roadgraph.cpp:545-589: GetRoad throws std::out_of_range for an unknown road (None),
     front() of an empty section vector is undefined (None). *)
  Definition gen_connection (m : xmap) (g : graph) (c : connection) : option graph :=
    match m_find (c_incoming c) (m_roads m), m_find (c_connecting c) (m_roads m) with
    | Some ri, Some rc =>
        match r_sections ri, r_sections rc with
        | si :: _, sc :: _ =>
            ofold (fun g lk =>
              match lane_by_position si (fst lk), lane_by_position sc (snd lk) with
              | Some pl, Some sl => connect (l_id pl) (l_id sl) g
              | _, _ => Some g
              end) (c_links c) g
        | _, _ => None
        end
    | _, _ => None
    end.
  Definition gen_junctions (m : xmap) (g : graph) : option graph :=
    ofold (fun g kj => ofold (fun g kc => gen_connection m g (snd kc)) (snd kj) g) (m_junctions m) g.

  (* bark/world/map/roadgraph.cpp:631-651: (inner, outer); an unknown lane id is undefined. *)
  Definition lane_boundaries (g : graph) (id : N) : option (option xlane * xlane) :=
    match lane_ptr g id, inner_neighbor g id with
    | Some l, Some (i, true) => Some (lane_ptr g i, l)
    | Some l, Some (_, false) => Some (None, l)
    | _, _ => None
    end.

  (* bark/world/map/roadgraph.cpp:667-691. Outer None: undefined (unknown lane, or begin() of an empty
     inner line dereferenced); inner None: no inner boundary, success = false. *)
  Definition lane_polygon (g : graph) (id : N) : option (option (list P)) :=
    match lane_boundaries g id with
    | None => None
    | Some (None, _) => Some None
    | Some (Some i, o) =>
        match l_line i with
        | [] => None
        | p :: _ => Some (Some (l_line i ++ rev (l_line o) ++ [p]))
        end
    end.

  (* bark/world/map/roadgraph.cpp:591-604. The polygons do not influence each other. *)
  Fixpoint gen_polys (g : graph) (vs : list vertex) : option (list vertex) :=
    match vs with
    | [] => Some []
    | v :: r =>
        match gen_polys g r with
        | None => None
        | Some r' =>
            if (l_pos (v_lane v) =? 0)%Z then Some (v :: r')
            else match lane_polygon g (l_id (v_lane v)) with
                 | None => None
                 | Some None => Some (v :: r')
                 | Some (Some p) => Some (mkVertex (v_road v) (v_id v) (v_lane v) (Some p) :: r')
                 end
        end
    end.
  Definition gen_polygons (g : graph) : option graph :=
    option_map (fun vs => mkGraph vs (g_e g)) (gen_polys g (g_v g)).

  (* bark/world/map/roadgraph.cpp:619-629 *)
  Definition generate (m : xmap) : option graph :=
    match gen_links m (gen_neighbours m (gen_vertices m empty_graph)) with
    | None => None
    | Some g => match gen_junctions m g with
                | None => None
                | Some g' => gen_polygons g'
                end
    end.

  (* bark/world/map/roadgraph.cpp:619-622, the unit-test entry points without links *)
  Definition generate_neighbours_only (m : xmap) : graph :=
    gen_neighbours m (gen_vertices m empty_graph).

  (* bark/world/map/roadgraph.cpp:606-617 *)
  Definition set_polygon (g : graph) (id : N) (p : list P) : graph * bool :=
    match vertex_by_lane g id with
    | None => (g, false)
    | Some i =>
        (mkGraph (firstn i (g_v g) ++
                  match nth_error (g_v g) i with
                  | Some v => [mkVertex (v_road v) (v_id v) (v_lane v) (Some p)]
                  | None => []
                  end ++ skipn (S i) (g_v g)) (g_e g), true)
    end.
End Roadgraph.
Arguments xlane : clear implicits.
Arguments section : clear implicits.
Arguments road : clear implicits.
Arguments xmap : clear implicits.
Arguments vertex : clear implicits.
Arguments graph : clear implicits.
