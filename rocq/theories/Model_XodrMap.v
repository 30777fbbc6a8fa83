(** OpenDriveMap, XodrRoad and XodrLaneSection as containers (/repo/bark/world/opendrive/opendrive.hpp, road.hpp,
    lane_section.hpp, lane_section.cpp) and the bounding box of a map. Sections and roads are shared objects: references into a
    heap, so that changes after a road was added are seen where the object is shared and not where its contents were copied.
    Lanes are values (a lane changed after it was added is not modelled). *)
From Coq Require Import Reals List Bool NArith ZArith.
From Verif Require Import Base_Real Base_Geom Model_Map Model_Line Model_Shape Model_GeomPickle.
Import ListNotations.

(** lane.hpp: id, position, the points of the line *)
Record xlane : Type := mkLane { xl_id : N; xl_pos : Z; xl_line : list pt }.
(** Heap: the lanes of each section (lane_section.hpp:41-43), id and sections of each road (road.hpp:66-72); the map: roads by id
    and lanes by id (opendrive.hpp:66-69; junctions only stored, not modelled). *)
Record xstate : Type := mkX { x_sections : list (kmap xlane); x_roads : list (N * list nat); x_map_roads : kmap nat; x_map_lanes : kmap xlane }.

(** map::insert of a range: present keys are kept *)
Definition m_insert_new {V} (m : kmap V) (kv : N * V) : kmap V :=
  match m_find (fst kv) m with Some _ => m | None => m_insert (fst kv) (snd kv) m end.
Definition m_insert_range {V} (m r : kmap V) : kmap V := fold_left m_insert_new r m.

(** lane_section.hpp:26, GetLanes *)
Definition section_lanes (st : xstate) (s : nat) : kmap xlane := nth s (x_sections st) [].
(** road.hpp:47-54, GetLanes *)
Definition road_lanes (st : xstate) (r : nat) : kmap xlane :=
  fold_left (fun m s => m_insert_range m (section_lanes st s)) (snd (nth r (x_roads st) (0%N, []))) [].
Definition road_id (st : xstate) (r : nat) : N := fst (nth r (x_roads st) (0%N, [])).

Fixpoint upd {A} (l : list A) (i : nat) (f : A -> A) : list A :=
  match l, i with [], _ => [] | x :: r, O => f x :: r | x :: r, S j => x :: upd r j f end.

(** What a program does with a map: create a section or a road, add a lane to a section (lane_section.cpp:19-21, AddLane), a
    section to a road (road.hpp:63), a road to the map (opendrive.hpp:32-37, AddRoad). References to nothing do not occur: the
    step is then without effect. *)
Inductive xop : Type := NewSection | NewRoad (id : N) | AddLaneTo (s : nat) (l : xlane) | AddSectionTo (r s : nat) | AddRoad (r : nat).
Definition xstep (st : xstate) (o : xop) : xstate :=
  match o with
  | NewSection => mkX (x_sections st ++ [[]]) (x_roads st) (x_map_roads st) (x_map_lanes st)
  | NewRoad id => mkX (x_sections st) (x_roads st ++ [(id, [])]) (x_map_roads st) (x_map_lanes st)
  | AddLaneTo s l => mkX (upd (x_sections st) s (m_insert (xl_id l) l)) (x_roads st) (x_map_roads st) (x_map_lanes st)
  | AddSectionTo r s => mkX (x_sections st) (upd (x_roads st) r (fun x => (fst x, snd x ++ [s]))) (x_map_roads st) (x_map_lanes st)
  | AddRoad r =>
      if Nat.ltb r (length (x_roads st))
      then mkX (x_sections st) (x_roads st) (m_insert (road_id st r) r (x_map_roads st)) (m_insert_range (x_map_lanes st) (road_lanes st r))
      else st
  end.
Definition xempty : xstate := mkX [] [] [] [].
Definition xrun (ops : list xop) : xstate := fold_left xstep ops xempty.

(** opendrive.hpp:43, GetRoad; 47, GetLane ([None]: at() throws) *)
Definition get_road (st : xstate) (id : N) : option nat := m_find id (x_map_roads st).
Definition get_lane (st : xstate) (id : N) : option xlane := m_find id (x_map_lanes st).
(** opendrive.hpp:53-64, BoundingBox: the envelope of all lines; of no point: see [box_of] *)
Definition map_points (st : xstate) : list pt :=
  flat_map (fun ir => flat_map (fun s => flat_map (fun il => xl_line (snd il)) (section_lanes st s)) (snd (nth (snd ir) (x_roads st) (0%N, []))))
    (x_map_roads st).
Definition map_box (huge : R) (st : xstate) : pt * pt := box_of huge (map_points st).
(** line.hpp:653-661, MergeBoundingBoxes *)
Definition merge_boxes (huge : R) (a b : pt * pt) : pt * pt := box_of huge [fst a; snd a; fst b; snd b].
