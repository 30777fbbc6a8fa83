(* A map interface as users hold it: loading an OpenDRIVE map or a CSV table, and the queries that take
   points. bark/world/map/map_interface.{hpp,cpp} (everything not already in Model_Corridor),
   bark/world/opendrive/opendrive.hpp:53-64, bark/geometry/commons.hpp:148-155,
   bark/world/objects/agent.cpp:100-131.
   Coordinates are rationals (rounding is not modelled). Undefined behaviour (null pointers, *begin() of an
   empty line, a missing column) and exceptions (a cell that is no number) are Crash or None.
   External: the R-tree query `nearest(point, n) && satisfies(...)` and boost's covered_by are arguments. *)
From Coq Require Import List NArith ZArith QArith Qminmax Bool Arith.
From Verif Require Import Model_Map Model_Roadgraph Model_RoadSearch Model_Intersection Model_Corridor.
Import ListNotations.
Local Open Scope Q_scope.

Definition qp : Type := Q * Q.

(* squared distance of two points *)
Definition d2 (a b : qp) : Q := (fst a - fst b) * (fst a - fst b) + (snd a - snd b) * (snd a - snd b).

(* boost::geometry's comparable distance of a point to a segment, the order of an R-tree of segments:
   the foot of the perpendicular, or the nearer end. *)
Definition seg_d2 (p a b : qp) : Q :=
  let vx := fst b - fst a in let vy := snd b - snd a in
  let c1 := (fst p - fst a) * vx + (snd p - snd a) * vy in
  let c2 := vx * vx + vy * vy in
  if Qle_bool c1 0 then d2 p a
  else if Qle_bool c2 c1 then d2 p b
  else d2 p (fst a + c1 / c2 * vx, snd a + c1 / c2 * vy).

(* map_interface.hpp:33-38: rtree_lane_value, a segment and a lane *)
Definition entry : Type := (qp * qp) * xlane qp.
Definition entry_d2 (p : qp) (e : entry) : Q := seg_d2 p (fst (fst e)) (snd (fst e)).

(* *line.begin() and *(line.end() - 1), map_interface.cpp:32-33; None: the line is empty *)
Definition line_ends (l : list qp) : option (qp * qp) :=
  match l with [] => None | p :: r => Some (p, last r p) end.

(* map_interface.cpp:31-34 *)
Definition lane_entry (l : xlane qp) : option (list entry) :=
  if (l_pos l =? 0)%Z then Some []
  else option_map (fun se => [(se, l)]) (line_ends (l_line l)).

(* map_interface.cpp:28-37 *)
Definition lane_tree (m : xmap qp) : option (list entry) :=
  ofold (fun acc kr =>
    ofold (fun acc s =>
      ofold (fun acc kl => option_map (fun e => acc ++ e) (lane_entry (snd kl))) s acc)
      (r_sections (snd kr)) acc) (m_roads m) [].

(* geometry/commons.hpp:148-155 of a linestring or ring: corners of the smallest box. None: no point. *)
Definition envelope (l : list qp) : option (qp * qp) :=
  match l with
  | [] => None
  | p :: r => Some (fold_left (fun b q => ((Qmin (fst (fst b)) (fst q), Qmin (snd (fst b)) (snd q)),
                                           (Qmax (fst (snd b)) (fst q), Qmax (snd (snd b)) (snd q)))) r (p, p))
  end.

(* opendrive.hpp:53-64: the lines of all lanes appended *)
Definition map_points (m : xmap qp) : list qp :=
  fold_left (fun acc kr =>
    fold_left (fun acc s => fold_left (fun acc kl => acc ++ l_line (snd kl)) s acc)
      (r_sections (snd kr)) acc) (m_roads m) [].

(* map_interface.hpp:136-146. mi_map, mi_graph: None is a null pointer. mi_bbox: None while unset (or for a
   map without any point). num_points_nearest_lane_ is the constant 20 of the constructor. *)
Record miface := mkMI {
  mi_map : option (xmap qp); mi_graph : option (graph qp); mi_tree : list entry;
  mi_bbox : option (qp * qp); mi_corr : kmap (rcorr qp); mi_csv : bool }.

(* map_interface.hpp:42-46 *)
Definition new_iface : miface := mkMI None None [] None [] false.

(* map_interface.cpp:20-41 interface_from_opendrive, called by SetOpenDriveMap (hpp:68-72). The stored road
   corridors and road_from_csvtable_ are not touched. *)
Definition set_map (m : xmap qp) (mi : miface) : option miface :=
  match generate m with
  | None => None
  | Some g =>
      match lane_tree m with
      | None => None
      | Some t => Some (mkMI (Some m) (Some g) t (envelope (map_points m)) (mi_corr mi) (mi_csv mi))
      end
  end.

(* ------------------------------------------------------------------------------------ CSV tables *)

(* one line of the file: its cells, None for a cell stod throws on *)
Definition csv_line : Type := list (option Q).
Definition cell (r : csv_line) (k : nat) : option Q := match nth_error r k with Some c => c | None => None end.

(* map_interface.cpp:61-66, one pair of columns *)
Definition csv_point (xo yo : Q) (r : csv_line) (kx ky : nat) : option qp :=
  match cell r kx, cell r ky with
  | Some x, Some y => Some (x - xo, y - yo)
  | _, _ => None
  end.

(* map_interface.cpp:57-70: every line but the first; (centre, right, left) *)
Fixpoint csv_rows (xo yo : Q) (ls : list csv_line) : option (list (qp * qp * qp)) :=
  match ls with
  | [] => Some []
  | r :: rest =>
      match csv_point xo yo r 1 2, csv_point xo yo r 3 4, csv_point xo yo r 5 6, csv_rows xo yo rest with
      | Some c, Some ri, Some le, Some t => Some ((c, ri, le) :: t)
      | _, _, _, _ => None
      end
  end.
Definition csv_table (xo yo : Q) (ls : list csv_line) : option (list (qp * qp * qp)) := csv_rows xo yo (tl ls).

(* map_interface.cpp:93-112: the one lane. Its speed is not modelled. *)
Definition csv_lane (center : list qp) : xlane qp := mkLane 0%N (-1)%Z DRIVING FORWARD 0 0 None center.

(* map_interface.cpp:118-124, 130-136, 148-166 *)
Definition csv_corridor (center poly : list qp) : rcorr qp :=
  let c := mkCL (csv_lane center) poly None None None [] [] center in
  mkRC [(0%N, [(0%N, c)])] [(0%N, 0%nat)]
       [mkLC [(0%N, 0%N)] [(0, (0%N, 0%N))] center center [] [] poly] [0%N] FORWARD.

(* map_interface.cpp:43-211 interface_from_csvtable; file = None: the file cannot be opened. *)
Definition set_csv (h : hash_fn) (file : option (list csv_line)) (xo yo : Q) (mi : miface) : outcome (miface * bool) :=
  match file with
  | None => Done (mi, false)
  | Some ls =>
      match csv_table xo yo ls with
      | None => Crash
      | Some rows =>
          let center := map (fun t => fst (fst t)) rows in
          let right := map (fun t => snd (fst t)) rows in
          let left := map (fun t => snd t) rows in
          let poly := left ++ rev right in
          let lane := csv_lane center in
          let gs := set_polygon (add_lane 0%N lane empty_graph) 0%N poly in
          if snd gs then
            match line_ends center with
            | None => Crash
            | Some se =>
                Done (mkMI (Some (mkMap [(0%N, mkRoad (1000000%N, false) (1000000%N, false) [[(0%N, lane)]])] []))
                           (Some (fst gs)) [(se, lane)] (envelope poly)
                           (m_insert (h FORWARD [0%N]) (csv_corridor center poly) (mi_corr mi)) true, true)
            end
          else Done (mi, false)
      end
  end.

(* ------------------------------------------------------------------------------------ queries *)

Section Queries.
  (* rtree.query(nearest(p, n) && satisfies(f)) *)
  Context (nearest : list entry -> (xlane qp -> bool) -> qp -> nat -> list entry).
  (* bark::geometry::Collide(polygon, point), polygon.hpp:220-222 *)
  Context (covers : list qp -> qp -> bool).

  (* map_interface.cpp:213-236 and hpp:149-151 IsLaneType. None: false is returned and the caller's vector is
     left alone. *)
  Definition find_nearest (mi : miface) (p : qp) (n : nat) (driving_only : bool) : option (list (xlane qp)) :=
    match nearest (mi_tree mi) (fun l => if driving_only then is_driving (l_type l) else true) p n with
    | [] => None
    | es => Some (map snd es)
    end.

  (* map_interface.cpp:255-274; None: null roadgraph. *)
  Definition is_in_lane (mi : miface) (p : qp) (id : N) : option bool :=
    match mi_graph mi with
    | None => None
    | Some g =>
        match vertex_by_lane g id with
        | None => Some false
        | Some i =>
            match nth_error (g_v g) i with
            | None => Some false
            | Some v => match v_poly v with None => Some false | Some ring => Some (covers ring p) end
            end
        end
    end.

  (* map_interface.cpp:245-252: the first of the given lanes that holds the point *)
  Fixpoint first_holding (mi : miface) (p : qp) (ls : list (xlane qp)) : option (option (xlane qp)) :=
    match ls with
    | [] => Some None
    | l :: r =>
        match is_in_lane mi p (l_id l) with
        | None => None
        | Some true => Some (Some l)
        | Some false => first_holding mi p r
        end
    end.

  (* map_interface.cpp:238-253. Outer None: undefined; inner None: nullptr. *)
  Definition find_lane (mi : miface) (p : qp) : option (option (xlane qp)) :=
    match find_nearest mi p 20 false with
    | None => Some None
    | Some ls => first_holding mi p ls
    end.

  (* map_interface.hpp:121-127; None: the null lane is dereferenced. *)
  Definition current_lane_id (mi : miface) (p : qp) : option N :=
    match find_lane mi p with Some (Some l) => Some (l_id l) | _ => None end.
  Definition current_road_id (mi : miface) (p : qp) : option N :=
    match current_lane_id mi p, mi_graph mi with
    | Some id, Some g => road_for_lane g id
    | _, _ => None
    end.

  (* map_interface.cpp:606-616: the lane nearest to the polygon's center pose *)
  Definition lane_at_polygon (mi : miface) (center : qp) : option (xlane qp) :=
    match find_nearest mi center 1 true with
    | Some (l :: _) => Some l
    | _ => None
    end.

  (* map_interface.cpp:559-587 *)
  Definition corridor_from_points (L : line_ops qp) (h : hash_fn) (fuel : nat) ver (D : dijkstra qp)
    (start goal_center : qp) (mi : miface) : outcome (miface * option (rcorr qp)) :=
    match find_nearest mi start 1 true, lane_at_polygon mi goal_center with
    | Some (a :: _), Some b =>
        match mi_map mi, mi_graph mi with
        | Some m, Some g =>
            match corridor_to_goal L h fuel ver D m g (Some a) (Some b) (mi_corr mi) with
            | Done (st, oc) => Done (mkMI (mi_map mi) (mi_graph mi) (mi_tree mi) (mi_bbox mi) st (mi_csv mi), oc)
            | Crash => Crash
            | OutOfFuel => OutOfFuel
            end
        | _, _ => Crash
        end
    | _, _ => Done (mi, None)
    end.

  (* map_interface.cpp:457-465 with hpp:114-120: request the corridor of a list of roads *)
  Definition request_corridor (L : line_ops qp) (h : hash_fn) (fuel : nat) (ids : list N) (d : dir) (mi : miface)
    : outcome (miface * option (rcorr qp)) :=
    match m_find (h d ids) (mi_corr mi) with
    | Some rc => Done (mi, Some rc)
    | None =>
        match mi_map mi, mi_graph mi with
        | Some m, Some g =>
            match generate_corridor L h fuel m g ids d (mi_corr mi) with
            | Done st => Done (mkMI (mi_map mi) (mi_graph mi) (mi_tree mi) (mi_bbox mi) st (mi_csv mi),
                               get_corridor h ids d st)
            | Crash => Crash
            | OutOfFuel => OutOfFuel
            end
        | _, _ => match ids with [] => Done (mi, None) | _ => Crash end
        end
    end.

  (* agent.cpp:100-131 on an interface: a table road gives the table's corridor, otherwise the route is kept
     or searched for. goal: the goal shape's center, None without a goal. *)
  Definition agent_corridor (L : line_ops qp) (h : hash_fn) (fuel : nat) ver (D : dijkstra qp)
    (pos : qp) (goal : option qp) (ar : agent_route (P:=qp)) (mi : miface)
    : outcome (miface * agent_route (P:=qp) * bool) :=
    let found rc := match rc with Some _ => true | None => false end in
    if mi_csv mi then
      let rc := get_corridor h [0%N] FORWARD (mi_corr mi) in
      Done (mi, mkAR [0%N] FORWARD rc, found rc)
    else
      match ar_ids ar, goal with
      | [], Some c =>
          match corridor_from_points L h fuel ver D pos c mi with
          | Done (mi', Some rc) => Done (mi', mkAR (rc_ids rc) (rc_dir rc) (Some rc), true)
          | Done (_, None) => Crash
          | Crash => Crash
          | OutOfFuel => OutOfFuel
          end
      | [], None => Done (mi, ar, false)
      | ids, _ =>
          match request_corridor L h fuel ids (ar_dir ar) mi with
          | Done (mi', rc) => Done (mi', mkAR ids (ar_dir ar) rc, found rc)
          | Crash => Crash
          | OutOfFuel => OutOfFuel
          end
      end.
End Queries.
