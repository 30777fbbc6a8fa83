(* Shortest-path queries of the roadgraph: Roadgraph::FindPath<Predicate>, FindDrivableLanePath,
   FindRoadPath, FindAllPathsInSubgraph (bark/world/map/roadgraph_impl.hpp, roadgraph.cpp:76-166).
   boost::dijkstra_shortest_paths is external: it is an argument that returns a predecessor vector; its
   contract is stated in Spec_RoadSearch. Distances are natural numbers (all weights are 1 or 10). *)
From Coq Require Import List NArith ZArith Bool Arith.
From Verif Require Import Model_Map Model_Roadgraph.
Import ListNotations.

(* boost::num_vertices of a filtered_graph: counts the vertices that pass the filter in current Boost
   releases, delegates to the underlying graph in old ones. The version in use is not pinned in the
   sandbox, so both are modelled. *)
Inductive nv_version := COUNT_FILTERED | COUNT_ALL.

Section Search.
  Context {P : Type}.
  Implicit Types (g : graph P).

  (* a filtered_graph: vertex and edge predicate. An edge is visible when its predicate and both end
     points pass. *)
  Record filt := mkFilt { f_vertex : vertex P -> bool; f_edge : graph P -> edge -> bool }.

  Definition vdriving g (i : nat) : bool :=
    match nth_error (g_v g) i with Some v => is_driving (l_type (v_lane v)) | None => false end.

  (* bark/world/map/roadgraph.hpp:92-109 *)
  Definition TypeDriving : filt :=
    mkFilt (fun v => is_driving (l_type (v_lane v)))
           (fun g e => vdriving g (e_src e) && vdriving g (e_dst e)).
  (* bark/world/map/roadgraph.hpp:71-90 *)
  Definition TypeDrivingLaneSuccessor : filt :=
    mkFilt (fun v => is_driving (l_type (v_lane v)))
           (fun g e => vdriving g (e_src e) && vdriving g (e_dst e) && etype_eqb (e_type e) LANE_SUCC).
  (* bark/world/map/roadgraph.hpp:111-122 *)
  Definition RoadSuccessor : filt :=
    mkFilt (fun _ => true) (fun _ e => etype_eqb (e_type e) ROAD_SUCC).
  (* bark/world/map/roadgraph.cpp:100-116 *)
  Definition SubsetFilter (ts : list etype) (ids : list N) : filt :=
    mkFilt (fun v => existsb (N.eqb (v_id v)) ids) (fun _ e => existsb (etype_eqb (e_type e)) ts).

  Definition fvert g (f : filt) (i : nat) : bool :=
    match nth_error (g_v g) i with Some v => f_vertex f v | None => false end.
  Definition fverts g (f : filt) : list nat := filter (fvert g f) (seq 0 (length (g_v g))).
  Definition fedge g (f : filt) (e : edge) : bool :=
    f_edge f g e && fvert g f (e_src e) && fvert g f (e_dst e).
  Definition fedges g (f : filt) : list (nat * nat * nat) :=
    map (fun e => (e_src e, e_dst e, weight (e_type e))) (filter (fedge g f) (g_e g)).

  (* the size given to the vectors p and d, roadgraph_impl.hpp:55-59 *)
  Definition vec_size (ver : nv_version) g (f : filt) : nat :=
    match ver with COUNT_FILTERED => length (fverts g f) | COUNT_ALL => length (g_v g) end.
  (* dijkstra_shortest_paths first writes p[v] and d[v] for every visible vertex v, indexed by the
     vertex index of the whole graph: every such index must lie inside the vectors. *)
  Definition in_bounds ver g f : bool := forallb (fun i => i <? vec_size ver g f) (fverts g f).

  (* bark/world/map/roadgraph_impl.hpp:19-32 *)
  Definition id_in_filtered g f (id : N) : bool := existsb (fun i => (vid g i =? id)%N) (fverts g f).

  (* the backward walk, roadgraph_impl.hpp:73-88: None = `return std::vector<XodrLaneId>()`. *)
  Fixpoint walk (n : nat) (p : nat -> nat) (start cur : nat) : option (list nat) :=
    if cur =? start then Some []
    else match n with
         | Datatypes.O => Some []
         | S n' => if cur =? p cur then None else option_map (cons cur) (walk n' p start (p cur))
         end.

  Definition dijkstra := graph P -> filt -> nat -> nat -> nat.

  (* bark/world/map/roadgraph_impl.hpp:34-93. None: write outside the vectors. *)
  Definition find_path (ver : nv_version) (D : dijkstra) g (f : filt) (startid goalid : N)
    : option (list N) :=
    match vertex_by_lane g startid, vertex_by_lane g goalid with
    | Some s, Some t =>
        if id_in_filtered g f startid && id_in_filtered g f goalid then
          if in_bounds ver g f then
            match walk (vec_size ver g f) (D g f s) s t with
            | None => Some []
            | Some l => Some (rev (map (vid g) l ++ [vid g s]))
            end
          else None
        else Some []
    | _, _ => Some []
    end.

  (* bark/world/map/roadgraph.cpp:92-95 *)
  Definition find_drivable_lane_path ver D g (startid goalid : N) : option (list N) :=
    find_path ver D g TypeDriving startid goalid.

  (* bark/world/map/roadgraph.cpp:76-90 *)
  Definition find_road_path ver D g (startroad goalroad : N) : option (list N) :=
    let s := plan_view_for_road g startroad in
    let t := plan_view_for_road g goalroad in
    if snd s && snd t then
      match find_path ver D g RoadSuccessor (fst s) (fst t) with
      | None => None
      | Some ids =>
          fold_right (fun id acc => match road_for_lane g id, acc with
                                    | Some r, Some rs => Some (r :: rs)
                                    | _, _ => None
                                    end) (Some []) ids
      end
    else Some [].

  (* bark/world/map/roadgraph.cpp:97-166. The backward walk has no step bound here; the bound used below
     (number of vertices) is only reached when it would not terminate (None). *)
  Fixpoint walk_all (n : nat) (p : nat -> nat) (start cur : nat) : option (option (list nat)) :=
    if cur =? start then Some (Some [])
    else match n with
         | Datatypes.O => None
         | S n' => if p cur =? cur then Some None
                   else option_map (option_map (cons cur)) (walk_all n' p start (p cur))
         end.
  Definition fin_degree g f (i : nat) : nat := length (filter (fun e => snd (fst e) =? i) (fedges g f)).
  Definition fout_degree g f (i : nat) : nat := length (filter (fun e => fst (fst e) =? i) (fedges g f)).

  Fixpoint paths_to (D : dijkstra) g (f : filt) (s : nat) (goals : list nat) : option (list (list N)) :=
    match goals with
    | [] => Some []
    | t :: r =>
        match paths_to D g f s r with
        | None => None
        | Some ps =>
            if 0 <? fout_degree g f t then Some ps
            else match walk_all (length (g_v g)) (D g f s) s t with
                 | None => None
                 | Some None => Some ps
                 | Some (Some l) => Some (rev (map (vid g) l ++ [vid g s]) :: ps)
                 end
        end
    end.
  Fixpoint paths_from (D : dijkstra) g (f : filt) (starts goals : list nat) : option (list (list N)) :=
    match starts with
    | [] => Some []
    | s :: r =>
        match paths_from D g f r goals with
        | None => None
        | Some ps =>
            if 0 <? fin_degree g f s then Some ps
            else option_map (fun qs => qs ++ ps) (paths_to D g f s goals)
        end
    end.
  Definition find_all_paths (ver : nv_version) (D : dijkstra) g (ts : list etype) (ids : list N)
    : option (list (list N)) :=
    let f := SubsetFilter ts ids in
    if in_bounds ver g f || forallb (fun s => 0 <? fin_degree g f s) (fverts g f) then
      paths_from D g f (fverts g f) (fverts g f)
    else None.
End Search.
Arguments filt : clear implicits.
Arguments dijkstra : clear implicits.
