(* Road and lane corridors. bark/world/map/map_interface.cpp:315-604, map_interface.hpp:114-120,
   road_corridor.{hpp,cpp}, lane_corridor.hpp, lane.hpp, road.hpp; bark/world/objects/agent.cpp:100-131.
   A LanePtr of a road corridor is the pair (road id, lane id): the corridor owns exactly one Lane object
   per road and lane id. Lines are lists of points of an arbitrary type P; the line operations
   (concatenation, simplification, centre line, length) are arguments. Not modelled here: the road polygon
   (ComputeRoadPolygon, junction areas: Model_RoadPoly), road marks, boost::geometry::correct of the lane polygon. *)
From Coq Require Import List NArith ZArith QArith Bool Arith.
From Verif Require Import Model_Map Model_Roadgraph Model_RoadSearch Model_Intersection.
Import ListNotations.

(* a pointer to a lane object of the road corridor *)
Definition lane_ref : Type := N * N.

(* std::map<double, LanePtr>::operator[](s) = v, lane_corridor.hpp:84 *)
Fixpoint q_insert {V : Type} (k : Q) (v : V) (m : list (Q * V)) : list (Q * V) :=
  match m with
  | [] => [(k, v)]
  | (k', v') :: r =>
      if Qle_bool k' k then if Qle_bool k k' then (k', v) :: r else (k', v') :: q_insert k v r
      else (k, v) :: m
  end.

Section Corridor.
  Context {P : Type}.
  Notation line := (list P).
  (* ConcatenateLinestring, Simplify(., max_simplification_dist_), Simplify(., 0.001),
     ComputeCenterLine, Line::Length. None: undefined behaviour on an empty line (see Model_Line). *)
  Record line_ops := mkLineOps {
    lo_concat : line -> line -> option line; lo_simplify : line -> line; lo_simplify_fine : line -> line;
    lo_center : line -> line -> option line; lo_length : line -> Q }.

  (* lane.hpp:42-92: the xodr lane and what the corridor adds to it. *)
  Record clane := mkCL {
    cl_lane : xlane P; cl_polygon : line; cl_next : option lane_ref; cl_left : option lane_ref;
    cl_right : option lane_ref; cl_lbound : line; cl_rbound : line; cl_center : line }.
  (* Roads: road id -> lane id -> lane, road.hpp:29-58 *)
  Definition croads := kmap (kmap clane).

  (* road.hpp:36-39: GetLane; here with the road looked up first. *)
  Definition get_lane (rs : croads) (p : lane_ref) : option clane :=
    match m_find (fst p) rs with Some ls => m_find (snd p) ls | None => None end.
  (* the pointer GetLane returns: null when the road has no lane of that id *)
  Definition lane_ref_to (rs : croads) (r id : N) : option lane_ref :=
    match get_lane rs (r, id) with Some _ => Some (r, id) | None => None end.

  (* map_interface.cpp:429-439. None: undefined behaviour in ComputeXodrLanePolygon. *)
  Definition gen_lane (g : graph P) (l : xlane P) : option clane :=
    let mk poly := mkCL l poly None None None [] [] [] in
    if (l_pos l =? 0)%Z then Some (mk [])
    else match lane_polygon g (l_id l) with
         | None => None
         | Some None => Some (mk [])
         | Some (Some p) => Some (mk p)
         end.

  (* map_interface.cpp:441-455. None: GetRoad throws for an unknown road. *)
  Definition gen_road (m : xmap P) (g : graph P) (r : N) : option (kmap clane) :=
    match m_find r (m_roads m) with
    | None => None
    | Some rd =>
        ofold (fun acc s =>
          ofold (fun acc kl => option_map (fun c => m_insert (fst kl) c acc) (gen_lane g (snd kl))) s acc)
          (r_sections rd) []
    end.

  (* map_interface.cpp:467-469 *)
  Definition gen_roads (m : xmap P) (g : graph P) (ids : list N) : option croads :=
    ofold (fun acc r => option_map (fun ls => m_insert r ls acc) (gen_road m g r)) ids [].

  (* map_interface.cpp:472-476: every id with the id that follows it. *)
  Fixpoint with_next (ids : list N) : list (N * option N) :=
    match ids with
    | [] => []
    | r :: rest => (r, hd_error rest) :: with_next rest
    end.

  (* the links, boundaries and centre line of one lane, map_interface.cpp:477-540. The direction given to
     the side queries is the lane's own. None: undefined behaviour of a roadgraph query, or the
     boundary's lane object is null. *)
  Definition link_lane (L : line_ops) (g : graph P) (rs : croads) (r : N) (nr : option N) (id : N) (c : clane)
    : option clane :=
    let d := l_dir (cl_lane c) in
    match next_lane g [match nr with Some r' => r' | None => r end] id,
          left_lane g id d, right_lane g id d, left_boundary g id d, right_boundary g id d with
    | Some (nx, nf), Some (lx, lf), Some (rx, rf), Some (bl, blf), Some (br, brf) =>
        let next := match nr with
                    | Some r' => if nf then lane_ref_to rs r' nx else cl_next c
                    | None => cl_next c
                    end in
        let left := if lf then lane_ref_to rs r lx else cl_left c in
        let right := if rf then lane_ref_to rs r rx else cl_right c in
        match (if blf then option_map (fun b => l_line (cl_lane b)) (get_lane rs (r, bl)) else Some (cl_lbound c)),
              (if brf then option_map (fun b => l_line (cl_lane b)) (get_lane rs (r, br)) else Some (cl_rbound c)) with
        | Some lb, Some rb =>
            option_map (mkCL (cl_lane c) (cl_polygon c) next left right lb rb)
              (if blf && brf then lo_center L lb rb else Some (cl_center c))
        | _, _ => None
        end
    | _, _, _, _, _ => None
    end.

  Definition link_lanes L g rs r nr (ls : kmap clane) : option (kmap clane) :=
    ofold (fun acc kc => option_map (fun c => m_insert (fst kc) c acc) (link_lane L g rs r nr (fst kc) (snd kc))) ls [].

  (* map_interface.cpp:471-542: one pass over road_ids, a road listed twice is linked twice. *)
  Definition link_roads (L : line_ops) (g : graph P) (ids : list N) (rs : croads) : option croads :=
    ofold (fun rs rn =>
      match m_find (fst rn) rs with
      | None => None
      | Some ls => option_map (fun ls' => m_insert (fst rn) ls' rs) (link_lanes L g rs (fst rn) (snd rn) ls)
      end) (with_next ids) rs.

  (* lane_corridor.hpp:99-104. lc_chain is a ghost: the lanes in the order SetLane was called. *)
  Record lcorr := mkLC {
    lc_chain : list lane_ref; lc_lanes : list (Q * lane_ref);
    lc_center : line; lc_fine : line; lc_left : line; lc_right : line; lc_polygon : line }.
  (* road_corridor.hpp:161-166: lane_corridors_ and unique_lane_corridors_; a LaneCorridorPtr is its index
     in unique_lane_corridors_ (SetLaneCorridor pushes it when it is first used, :91-98). *)
  Record rcorr := mkRC {
    rc_roads : croads; rc_map : kmap nat; rc_unique : list lcorr; rc_ids : list N; rc_dir : dir }.

  (* the corridor of a first lane, map_interface.cpp:328-336, and its extension by one lane, :346-366 *)
  Definition start_corr (L : line_ops) (p : lane_ref) (c : clane) : lcorr :=
    mkLC [p] [(lo_length L (cl_center c), p)] (cl_center c) (cl_center c) (cl_lbound c) (cl_rbound c) [].
  Definition extend (L : line_ops) (lc : lcorr) (p : lane_ref) (c : clane) : option lcorr :=
    match lo_concat L (lc_center lc) (cl_center c), lo_concat L (lc_left lc) (cl_lbound c),
          lo_concat L (lc_right lc) (cl_rbound c) with
    | Some ce, Some le, Some ri =>
        Some (mkLC (lc_chain lc ++ [p]) (q_insert (lo_length L ce) p (lc_lanes lc)) ce ce le ri [])
    | _, _, _ => None
    end.

  (* the loop over the next lanes, map_interface.cpp:343-369; i is the new corridor. *)
  Fixpoint follow (L : line_ops) (fuel : nat) (rs : croads) (i : nat) (lc : lcorr) (mp : kmap nat) (c : clane)
    : outcome (lcorr * kmap nat) :=
    match fuel with
    | Datatypes.O => OutOfFuel
    | S n =>
        match cl_next c with
        | None => Done (lc, mp)
        | Some q =>
            match get_lane rs q with
            | None => Crash
            | Some c' => match extend L lc q c' with
                         | None => Crash
                         | Some lc' => follow L n rs i lc' (m_insert (snd q) i mp) c'
                         end
            end
        end
    end.

  (* simplification and merged polygon, map_interface.cpp:377-417. None: *begin() of an empty line. *)
  Definition finish (L : line_ops) (lc : lcorr) : option lcorr :=
    let left := lo_simplify L (lc_left lc) in
    let right := lo_simplify L (lc_right lc) in
    match left with
    | [] => None
    | p :: _ => Some (mkLC (lc_chain lc) (lc_lanes lc) (lo_simplify L (lc_center lc))
                        (lo_simplify_fine L (lc_fine lc)) left right (left ++ rev right ++ [p]))
    end.

  (* map_interface.cpp:319-418, one lane *)
  Definition calc_lane (L : line_ops) (fuel : nat) (rs : croads) (r : N) (st : outcome (kmap nat * list lcorr))
    (kc : N * clane) : outcome (kmap nat * list lcorr) :=
    match st with
    | Done (mp, us) =>
        let c := snd kc in
        if (match m_find (fst kc) mp with Some _ => true | None => false end) || (l_pos (cl_lane c) =? 0)%Z
        then st
        else if negb (is_driving (l_type (cl_lane c))) then st
        else match follow L fuel rs (length us) (start_corr L (r, fst kc) c) (m_insert (fst kc) (length us) mp) c with
             | Done (lc, mp') =>
                 match finish L lc with
                 | Some lc' => Done (mp', us ++ [lc'])
                 | None => Crash
                 end
             | Crash => Crash
             | OutOfFuel => OutOfFuel
             end
    | x => x
    end.

  (* map_interface.cpp:315-419 *)
  Definition calc_road L fuel rs (st : outcome (kmap nat * list lcorr)) (rl : N * kmap clane) :=
    fold_left (calc_lane L fuel rs (fst rl)) (snd rl) st.

  (* map_interface.cpp:420-427: the first road, then every road in increasing id order. *)
  Definition calc_corridors L fuel (rs : croads) (first : N) : outcome (kmap nat * list lcorr) :=
    match m_find first rs with
    | None => Crash
    | Some ls => fold_left (calc_road L fuel rs) rs (calc_road L fuel rs (Done ([], [])) (first, ls))
    end.

  (* map_interface.cpp:467-556: the corridor for road_ids; Done None when road_ids is empty. *)
  Definition build_corridor (L : line_ops) (fuel : nat) (m : xmap P) (g : graph P) (ids : list N) (d : dir)
    : outcome (option rcorr) :=
    match gen_roads m g ids with
    | None => Crash
    | Some rs0 =>
        match link_roads L g ids rs0 with
        | None => Crash
        | Some rs =>
            match ids with
            | [] => Done None
            | first :: _ =>
                match calc_corridors L fuel rs first with
                | Done (mp, us) => Done (Some (mkRC rs mp us ids d))
                | Crash => Crash
                | OutOfFuel => OutOfFuel
                end
            end
        end
    end.

  (* road_corridors_ keyed by RoadCorridor::GetHash (an argument); map_interface.cpp:457-465, 556 *)
  Definition store := kmap rcorr.
  Definition hash_fn := dir -> list N -> N.
  Definition generate_corridor L (h : hash_fn) fuel m g (ids : list N) (d : dir) (st : store) : outcome store :=
    match m_find (h d ids) st with
    | Some _ => Done st
    | None => match build_corridor L fuel m g ids d with
              | Done (Some rc) => Done (m_insert (h d ids) rc st)
              | Done None => Done st
              | Crash => Crash
              | OutOfFuel => OutOfFuel
              end
    end.

  (* map_interface.hpp:114-120 *)
  Definition get_corridor (h : hash_fn) (ids : list N) (d : dir) (st : store) : option rcorr :=
    m_find (h d ids) st.

  (* map_interface.cpp:559-587 from the start and goal lanes onward; the lanes nearest to the start point
     and the goal region are arguments (None: not found). None inside: null is returned. *)
  Definition corridor_to_goal L h fuel ver (D : dijkstra P) m g (start goal : option (xlane P)) (st : store)
    : outcome (store * option rcorr) :=
    match start, goal with
    | Some a, Some b =>
        match find_drivable_lane_path ver D g (l_id a) (l_id b) with
        | None => Crash
        | Some path =>
            match fold_right (fun id acc => match road_for_lane g id, acc with
                                            | Some r, Some rs => Some (r :: rs)
                                            | _, _ => None
                                            end) (Some []) path with
            | None => Crash
            | Some ids =>
                match generate_corridor L h fuel m g ids (l_dir a) st with
                | Done st' => Done (st', get_corridor h ids (l_dir a) st')
                | Crash => Crash
                | OutOfFuel => OutOfFuel
                end
            end
        end
    | _, _ => Done (st, None)
    end.

  (* map_interface.cpp:589-604. FindRoadPath runs first, its result only matters for definedness. *)
  Definition corridor_between_roads L h fuel ver (D : dijkstra P) m g (r1 r2 : N) (st : store)
    : outcome (store * option rcorr) :=
    match find_road_path ver D g r1 r2 with
    | None => Crash
    | Some ids =>
        let dirs := driving_directions_for_road g r1 in
        if snd dirs then
          match fst dirs with
          | [] => Crash
          | d :: _ => match generate_corridor L h fuel m g ids d st with
                      | Done st' => Done (st', get_corridor h ids d st')
                      | Crash => Crash
                      | OutOfFuel => OutOfFuel
                      end
          end
        else Done (st, None)
    end.

  (* agent.cpp:100-131 for an OpenDRIVE map: the fields road_corridor_, road_corridor_road_ids_ and
     road_corridor_driving_direction_. has_goal: goal_definition_ is set. The corridor found for the
     goal is dereferenced without a check (Crash). *)
  Record agent_route := mkAR { ar_ids : list N; ar_dir : dir; ar_corridor : option rcorr }.
  Definition agent_generate L h fuel ver (D : dijkstra P) m g (has_goal : bool)
    (start goal : option (xlane P)) (ar : agent_route) (st : store) : outcome (store * agent_route * bool) :=
    match ar_ids ar with
    | [] =>
        if has_goal then
          match corridor_to_goal L h fuel ver D m g start goal st with
          | Done (st', Some rc) => Done (st', mkAR (rc_ids rc) (rc_dir rc) (Some rc), true)
          | Done (_, None) => Crash
          | Crash => Crash
          | OutOfFuel => OutOfFuel
          end
        else Done (st, ar, false)
    | _ =>
        match generate_corridor L h fuel m g (ar_ids ar) (ar_dir ar) st with
        | Done st' =>
            let rc := get_corridor h (ar_ids ar) (ar_dir ar) st' in
            Done (st', mkAR (ar_ids ar) (ar_dir ar) rc, match rc with Some _ => true | None => false end)
        | Crash => Crash
        | OutOfFuel => OutOfFuel
        end
    end.

  (* ---------------------------------------------------------------- queries *)
  Section Queries.
    Context {Pt : Type}.
    (* Collide(pt, merged polygon), Within(pt, lane polygon), |FrenetPosition(pt, centre line).lat| *)
    Record point_ops := mkPO {
      po_collide : Pt -> line -> bool; po_within : Pt -> line -> bool; po_lat : Pt -> line -> Q }.
    Context (O : point_ops).

    (* road_corridor.hpp:60-65 *)
    Definition current_corridor (rc : rcorr) (pt : Pt) : option lcorr :=
      find (fun c => po_collide O pt (lc_polygon c)) (rc_unique rc).
    (* road_corridor.hpp:67-73: -1 becomes 2^32 - 1 in the unsigned index. *)
    Fixpoint current_index_from (pt : Pt) (i : nat) (us : list lcorr) : option lcorr * N :=
      match us with
      | [] => (None, 4294967295%N)
      | c :: r => if po_collide O pt (lc_polygon c) then (Some c, N.of_nat i) else current_index_from pt (S i) r
      end.
    Definition current_corridor_and_index (rc : rcorr) (pt : Pt) := current_index_from pt 0 (rc_unique rc).

    (* road_corridor.cpp:41-54: min_lat starts at infinity (None). *)
    Definition nearer (pt : Pt) (best : option Q * option lcorr) (c : lcorr) : option Q * option lcorr :=
      let x := po_lat O pt (lc_center c) in
      match fst best with
      | None => (Some x, Some c)
      | Some b => if Qle_bool b x then best else (Some x, Some c)
      end.
    Definition nearest_corridor (rc : rcorr) (pt : Pt) : option lcorr :=
      match current_corridor rc pt with
      | Some c => Some c
      | None => snd (fold_left (nearer pt) (rc_unique rc) (None, None))
      end.
    (* road_corridor.cpp:56-71 *)
    Fixpoint nearest_index_from (pt : Pt) (i : nat) (us : list lcorr) (best : option Q) (res : option lcorr * N)
      : option lcorr * N :=
      match us with
      | [] => res
      | c :: r =>
          let x := po_lat O pt (lc_center c) in
          match best with
          | None => nearest_index_from pt (S i) r (Some x) (Some c, N.of_nat i)
          | Some b => if Qle_bool b x then nearest_index_from pt (S i) r best res
                      else nearest_index_from pt (S i) r (Some x) (Some c, N.of_nat i)
          end
      end.
    Definition nearest_corridor_and_index (rc : rcorr) (pt : Pt) : option lcorr * N :=
      let res := current_corridor_and_index rc pt in
      match fst res with
      | Some _ => res
      | None => nearest_index_from pt 0 (rc_unique rc) None res
      end.

    (* lane_corridor.hpp:46-52 *)
    Definition current_lane (rc : rcorr) (c : lcorr) (pt : Pt) : option lane_ref :=
      option_map snd (find (fun sp => match get_lane (rc_roads rc) (snd sp) with
                                      | Some l => po_within O pt (cl_polygon l)
                                      | None => false
                                      end) (lc_lanes c)).
    (* road_corridor.hpp:47-50 *)
    Definition lane_corridor (rc : rcorr) (id : N) : option lcorr :=
      match m_find id (rc_map rc) with Some i => nth_error (rc_unique rc) i | None => None end.
    (* road_corridor.cpp:18-39: 10000000 stands for "no lane". *)
    Definition left_right_corridor (rc : rcorr) (pt : Pt) : option lcorr * option lcorr :=
      match current_corridor rc pt with
      | None => (None, None)
      | Some c =>
          let side f := match current_lane rc c pt with
                        | None => 10000000%N
                        | Some p => match get_lane (rc_roads rc) p with
                                    | Some l => match f l with Some q => snd q | None => 10000000%N end
                                    | None => 10000000%N
                                    end
                        end in
          (lane_corridor rc (side cl_left), lane_corridor rc (side cl_right))
      end.
  End Queries.
End Corridor.
Arguments clane : clear implicits.
Arguments lcorr : clear implicits.
Arguments rcorr : clear implicits.
Arguments line_ops : clear implicits.
Arguments point_ops : clear implicits.
