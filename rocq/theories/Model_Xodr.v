(** Reading an OpenDRIVE file: /repo/bark/runtime/commons/xodr_parser.py, with the bindings of
    /repo/bark/python_wrapper/world/opendrive.cpp and the setters of
    /repo/bark/world/opendrive/{opendrive,road,lane_section,lane,junction}.hpp it calls.

    The file is a tree of elements.  [to_float], [to_int] are Python's float(), int() of an
    attribute (None: it raises).  Every exception that leaves the constructor is the result
    None: there is no map.  The result is the map of Model_Roadgraph; what that record
    leaves out (names, road marks, speeds, the s of a lane section, the plan view object) is
    left out here too, but the exceptions they can raise are modelled.  Numbers and lines are
    abstract (instantiated with the reals and Model_PlanView in Props_Xodr). *)

From Coq Require Import String List Arith NArith ZArith Bool Lia.
Import ListNotations.
From Verif Require Import Model_Map Model_Roadgraph.
Local Open Scope string_scope.
Local Open Scope list_scope.

(** An element: tag, attributes, children (lxml). *)
Inductive xml : Type := Elem (tag : string) (attrs : list (string * string)) (kids : list xml).
Definition tag_of (x : xml) : string := match x with Elem t _ _ => t end.
Definition kids_of (x : xml) : list xml := match x with Elem _ _ k => k end.
Definition attrs_of (x : xml) : list (string * string) := match x with Elem _ a _ => a end.

(** element.findall(tag), element.find(tag): children only; element.get(name) *)
Definition findall (x : xml) (t : string) : list xml := filter (fun k => String.eqb (tag_of k) t) (kids_of x).
Definition find1 (x : xml) (t : string) : option xml := hd_error (findall x t).
Fixpoint assoc (l : list (string * string)) (n : string) : option string :=
  match l with [] => None | (k, v) :: r => if String.eqb k n then Some v else assoc r n end.
Definition attr (x : xml) (n : string) : option string := assoc (attrs_of x) n.

Definition obind {A B} (a : option A) (f : A -> option B) : option B := match a with Some x => f x | None => None end.
Notation "'let*' x := a 'in' b" := (obind a (fun x => b)) (at level 200, x pattern, a at level 100, b at level 200).
Definition guard (b : bool) : option unit := if b then Some tt else None.
Fixpoint omap {A B} (f : A -> option B) (l : list A) : option (list B) :=
  match l with [] => Some [] | x :: r => let* y := f x in let* ys := omap f r in Some (y :: ys) end.

Definition two32 : Z := 4294967296.
Definition uint32 (z : Z) : option N := if (0 <=? z)%Z && (z <? two32)%Z then Some (Z.to_N z) else None.
Definition int32 (z : Z) : option Z := if (- 2147483648 <=? z)%Z && (z <=? 2147483647)%Z then Some z else None.

Section Reader.
Context {F Line PV P : Type}.
Variables (fzero : F) (fadd : F -> F -> F).
Variable to_float : string -> option F.
Variable to_int : string -> option Z.

(** Geometry operations: PlanView (AddLine, AddArc, AddSpiral, ApplyOffsetTransform,
    GetReferenceLine), XodrLane::append with s_inc 0.2, Line::Length, the points of a line. *)
Inductive xgeom := XLine (x y h len inc : F) | XArc (x y h len k : F) | XSpiral (x y h len k0 k1 : F).
Record xwidth := mkXW { xw_start : F; xw_end : F; xw_a : F; xw_b : F; xw_c : F; xw_d : F }.
Variable pv_empty : PV.
Variable pv_geom : PV -> xgeom -> option PV.
Variable pv_shift : PV -> F -> F -> F -> PV.
Variable ref_line : PV -> Line.
Variable empty_line : Line.
Variable append : Line -> Line -> Z -> xwidth -> option Line.
Variable line_len : Line -> F.
Variable points : Line -> list P.

(** The constructor's keyword s_inc_straight_line: None, a float, something else. *)
Inductive sinc := SNone | SFloat (f : F) | SOther.
Variable s_inc : sinc.

Definition fattr (x : xml) (n : string) : option F := let* s := attr x n in to_float s.
Definition iattr (x : xml) (n : string) : option Z := let* s := attr x n in to_int s.

(* ---- lanes: parse_lanes_from_lane_sections 101-138 and what it calls ---- *)

(** 68-99, 377-387: the width records as numbers; the conversion happens in
    create_cpp_lane, where a failure raises ValueError *)
Definition width_record (w : xml) : option (F * (F * F * F * F)) :=
  let* s := fattr w "sOffset" in let* a := fattr w "a" in let* b := fattr w "b" in
  let* c := fattr w "c" in let* d := fattr w "d" in Some (s, (a, b, c, d)).
Definition lane_widths (lane : xml) (lid : Z) : option (list (F * (F * F * F * F))) :=
  match findall lane "width" with
  | [] => Some (if (lid =? 0)%Z then [(fzero, (fzero, fzero, fzero, fzero))] else [])
  | ws => omap width_record ws
  end.

(** 107-108: types BARK does not know become sidewalk *)
Definition lane_type (lane : xml) : ltype :=
  match attr lane "type" with
  | Some t => if String.eqb t "driving" then DRIVING else if String.eqb t "border" then OTHERTYPE 6 else OTHERTYPE 5
  | None => OTHERTYPE 5
  end.

(** 110-121 *)
Definition travel_dir (lane : xml) : option dir :=
  let* u := find1 lane "userData" in let* v := find1 u "vectorLane" in let* t := attr v "travelDir" in
  if String.eqb t "forward" then Some FORWARD else if String.eqb t "backward" then Some BACKWARD else None.
Definition lane_dir (lane : xml) (lid : Z) : dir :=
  match travel_dir lane with Some d => d | None => if (lid <? 0)%Z then FORWARD else BACKWARD end.

(** 48-54, 356-371: link positions; whatever cannot be read stays 0 (the bindings
    zero-initialise XodrLaneLink) *)
Definition link_pos (lane : xml) (which : string) : Z :=
  match (let* l := find1 lane "link" in let* e := find1 l which in let* i := iattr e "id" in int32 i) with
  | Some i => i | None => 0%Z end.

(** 56-66, 126-129, 408-413: a road mark of type solid or broken needs a known colour and a
    width, or there is an exception; other types are dropped *)
Definition road_mark_ok (lane : xml) : bool :=
  match find1 lane "roadMark" with
  | None => true
  | Some r =>
      match attr r "type" with
      | Some t =>
          if String.eqb t "solid" || String.eqb t "broken" then
            match attr r "color" with
            | Some c => (String.eqb c "standard" || String.eqb c "white" || String.eqb c "yellow") && match fattr r "width" with Some _ => true | None => false end
            | None => false
            end
          else true
      | None => true
      end
  end.

(** 101-105: lane_dict; a repeated id keeps its place with the last element *)
Fixpoint zset (d : list (Z * xml)) (k : Z) (v : xml) : list (Z * xml) :=
  match d with [] => [(k, v)] | (j, w) :: r => if (j =? k)%Z then (k, v) :: r else (j, w) :: zset r k v end.
Fixpoint lane_dict (d : list (Z * xml)) (lanes : list xml) : option (list (Z * xml)) :=
  match lanes with [] => Some d | l :: r => let* i := iattr l "id" in lane_dict (zset d i l) r end.

(** 159-173: the lanes of a section, left, center, right *)
Definition section_lanes (sec : xml) : option (list (Z * xml)) :=
  let* gs := omap (fun g => lane_dict [] (findall g "lane")) (findall sec "left" ++ findall sec "center" ++ findall sec "right") in
  Some (concat gs).

(** 427-428 sortedIndices: Python's sort is stable *)
Fixpoint ins (x : Z * xml) (l : list (Z * xml)) : list (Z * xml) :=
  match l with [] => [x] | y :: r => if (Z.abs (fst x) <=? Z.abs (fst y))%Z then x :: y :: r else y :: ins x r end.
Fixpoint by_distance (l : list (Z * xml)) : list (Z * xml) :=
  match l with [] => [] | x :: r => ins x (by_distance r) end.

(* ---- create_cpp_lane 373-425 ---- *)

(** 377-396: the lane's line, record after record; [off] is the lane offset *)
Definition plus (r o : F * (F * F * F * F)) : F * (F * F * F * F) :=
  let '(s, (a, b, c, d)) := r in let '(s', (a', b', c', d')) := o in
  (fadd s s', (fadd a a', fadd b b', fadd c c', fadd d d')).
Fixpoint build_line (ws : list (F * (F * F * F * F))) (off : F * (F * F * F * F)) (s_end : F) (prev : Line) (pos : Z) (l : Line) : option Line :=
  match ws with
  | [] => Some l
  | w :: r =>
      let '(s, (a, b, c, d)) := plus w off in
      let e := match r with [] => s_end | w' :: _ => fst w' end in
      let* l' := append l prev pos (mkXW s e a b c d) in
      build_line r off s_end prev pos l'
  end.

(** A lane with its line; [n]: the lane counter of XodrLane (lane.cpp 16, 29-30; no
    overflow of the counter) *)
Definition make_lane (n : N) (lid : Z) (lane : xml) (s_end : F) (prev : Line) (off : F * (F * F * F * F)) (junction : Z)
    : option (xlane P * Line) :=
  let* pos := int32 lid in
  let* ws := lane_widths lane lid in
  let* l := build_line ws off s_end prev pos empty_line in
  let* _ := guard (road_mark_ok lane) in
  let* j := (if (junction =? -1)%Z then Some None else let* j := uint32 junction in Some (Some j)) in
  Some (mkLane (N.succ n) pos (lane_type lane) (lane_dir lane lid) (link_pos lane "predecessor") (link_pos lane "successor") j (points l), l).

(** lane_section.cpp 26-35 GetLaneByPosition: the last one in the order of ids, which is
    the order of creation *)
Definition by_position (ws : list (xlane P * Line)) (p : Z) : option Line :=
  fold_left (fun acc x => if (p =? l_pos (fst x))%Z then Some (snd x) else acc) ws None.

Definition no_off : F * (F * F * F * F) := (fzero, (fzero, fzero, fzero, fzero)).

(** 430-476 the loop over the lanes of a section, inner lanes first *)
Fixpoint make_lanes (n : N) (ws : list (xlane P * Line)) (lanes : list (Z * xml)) (road_len : F) (ref : Line)
    (off : F * (F * F * F * F)) (junction : Z) : option (list (xlane P * Line) * N) :=
  match lanes with
  | [] => Some (ws, n)
  | (lid, lane) :: r =>
      let* l :=
        (if (lid =? 0)%Z then make_lane n lid lane road_len ref no_off junction
         else if (lid =? -1)%Z || (lid =? 1)%Z then make_lane n lid lane road_len ref off junction
         else let* prev := by_position ws (if (0 <? lid)%Z then lid - 1 else lid + 1)%Z in
              make_lane n lid lane (line_len prev) prev no_off junction) in
      make_lanes (N.succ n) (ws ++ [l]) r road_len ref off junction
  end.

(** lane_section.cpp 22-24 AddLane *)
Definition to_section (ws : list (xlane P * Line)) : section P := fold_left (fun s x => sec_add (fst x) s) ws [].

(** 159-173, 439: a lane section; its s must be a number *)
Definition make_section (n : N) (sec : xml) (road_len : option F) (ref : Line) (off : F * (F * F * F * F)) (junction : Z)
    : option (section P * N) :=
  let* _ := fattr sec "s" in
  let* ls := section_lanes sec in
  match ls with
  | [] => Some ([], n)
  | _ =>
      (* float(road["length"]) is evaluated for the lanes 0, 1, -1 only; a section without
         them fails at by_position *)
      let* rl := road_len in
      let* x := make_lanes n [] (by_distance ls) rl ref off junction in
      Some (to_section (fst x), snd x)
  end.
Fixpoint make_sections (n : N) (secs : list xml) (road_len : option F) (ref : Line) (off : F * (F * F * F * F)) (junction : Z)
    : option (list (section P) * N) :=
  match secs with
  | [] => Some ([], n)
  | s :: r =>
      let* (x, n1) := make_section n s road_len ref off junction in
      let* (xs, n2) := make_sections n1 r road_len ref off junction in
      Some (x :: xs, n2)
  end.

(** 516-529 parse_lane_offset (the first laneOffset only) *)
Definition lane_offset (lanes : xml) : option (F * (F * F * F * F)) :=
  match find1 lanes "laneOffset" with
  | None => Some no_off
  | Some o => let* s := fattr o "s" in let* a := fattr o "a" in let* b := fattr o "b" in
              let* c := fattr o "c" in let* d := fattr o "d" in Some (s, (a, b, c, d))
  end.

(** 175-201, 287-310: a geometry; the last of line, spiral, arc decides; none of them: KeyError *)
Definition geometry (g : xml) : option xgeom :=
  let* x := fattr g "x" in let* y := fattr g "y" in let* h := fattr g "hdg" in let* len := fattr g "length" in
  match find1 g "arc", find1 g "spiral", find1 g "line" with
  | Some a, _, _ => let* k := fattr a "curvature" in Some (XArc x y h len k)
  | None, Some s, _ => let* k0 := fattr s "curvStart" in let* k1 := fattr s "curvEnd" in Some (XSpiral x y h len k0 k1)
  | None, None, Some _ => match s_inc with SNone => Some (XLine x y h len len) | SFloat f => Some (XLine x y h len f) | SOther => None end
  | None, None, None => None
  end.
Fixpoint plan_view_from (v : PV) (gs : list xml) : option PV :=
  match gs with
  | [] => Some v
  | g :: r => let* x := geometry g in let* v' := pv_geom v x in plan_view_from v' r
  end.

(** 140-157, 312-319 header offset *)
Definition header_offset (root : xml) : option (option (F * F * F)) :=
  let* h := find1 root "header" in
  match find1 h "offset" with
  | None => Some None
  | Some o => let* x := fattr o "x" in let* y := fattr o "y" in let* _ := fattr o "z" in let* t := fattr o "hdg" in Some (Some (x, y, t))
  end.
Definition plan_view (hdr : option (F * F * F)) (road : xml) : option PV :=
  let* p := find1 road "planView" in
  let* v := plan_view_from pv_empty (findall p "geometry") in
  Some (match hdr with Some (x, y, t) => pv_shift v x y t | None => v end).

(** 203-221, 322-339: a link is taken over if both its id and its type are there and
    readable; otherwise it is that of XodrRoadLinkInfo() (commons.hpp 28) *)
Definition road_link (road : xml) (which : string) : N * bool :=
  match (let* l := find1 road "link" in let* e := find1 l which in let* i := iattr e "elementId" in
         let* id := uint32 i in let* t := attr e "elementType" in Some (id, String.eqb t "road")) with
  | Some x => x
  | None => (1000000%N, false)
  end.

(** 223-237, 341-354: a road *)
Definition make_road (n : N) (hdr : option (F * F * F)) (rd : xml) : option (N * road P * N) :=
  let* lanes := find1 rd "lanes" in
  let* off := lane_offset lanes in
  let* id := (let* i := iattr rd "id" in uint32 i) in
  let* _ := attr rd "name" in
  let* pv := plan_view hdr rd in
  let* j := iattr rd "junction" in
  let* (secs, n') := make_sections n (findall lanes "laneSection") (fattr rd "length") (ref_line pv) off j in
  Some (id, mkRoad (road_link rd "successor") (road_link rd "predecessor") secs, n').
Fixpoint make_roads (n : N) (hdr : option (F * F * F)) (roads : list xml) (m : kmap (road P)) : option (kmap (road P) * N) :=
  match roads with
  | [] => Some (m, n)
  | r :: rest =>
      let* (x, n') := make_road n hdr r in
      make_roads n' hdr rest (m_insert (fst x) (snd x) m)
  end.

(** 239-265, 483-497: junctions; contact points are not used *)
Definition lane_link (l : xml) : option (Z * Z) :=
  let* f := iattr l "from" in let* t := iattr l "to" in let* f := int32 f in let* t := int32 t in Some (f, t).
Definition make_connection (c : xml) : option (N * connection) :=
  let* i := (let* z := iattr c "incomingRoad" in uint32 z) in
  let* k := (let* z := iattr c "connectingRoad" in uint32 z) in
  let* id := (let* z := iattr c "id" in uint32 z) in
  let* ls := omap lane_link (findall c "laneLink") in
  Some (id, mkConn i k ls).
Definition make_junction (j : xml) : option (N * kmap connection) :=
  let* z := iattr j "id" in
  let* z := int32 z in
  let* cs := omap make_connection (findall j "connection") in
  Some (Z.to_N (z mod two32)%Z, fold_left (fun m c => m_insert (fst c) (snd c) m) cs []).

(** 18-25, 267-281, 499-514: the constructor.  [n]: the lane counter before. *)
Definition read_map (n : N) (root : xml) : option (xmap P * N) :=
  let* hdr := header_offset root in
  let* (rs, n') := make_roads n hdr (findall root "road") [] in
  let* js := omap make_junction (findall root "junction") in
  Some (mkMap rs (fold_left (fun m j => m_insert (fst j) (snd j) m) js []), n').
End Reader.
Arguments xgeom : clear implicits. Arguments xwidth : clear implicits. Arguments sinc : clear implicits.
