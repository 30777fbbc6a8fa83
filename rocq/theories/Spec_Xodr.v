(** What an OpenDRIVE file says, in terms of its elements and attributes; no reference to
    how the map is built. *)

From Coq Require Import String List Arith NArith ZArith Bool Lia.
Import ListNotations.
From Verif Require Import Model_Map Model_Roadgraph Spec_Roadgraph Model_Xodr.
Local Open Scope string_scope.
Local Open Scope list_scope.

Section Spec.
Context {P : Type}.
Variable to_int : string -> option Z.
Notation int_attr := (iattr to_int).

(** The lane elements of a section: groups left, center, right. *)
Definition file_lanes (sec : xml) : list xml :=
  flat_map (fun g => findall g "lane") (findall sec "left" ++ findall sec "center" ++ findall sec "right").
Definition distinct_ids (sec : xml) : Prop := NoDup (map (fun e => int_attr e "id") (file_lanes sec)).

(** userData/vectorLane travelDir *)
Definition says_dir (e : xml) (d : string) : Prop :=
  exists u v, find1 e "userData" = Some u /\ find1 u "vectorLane" = Some v /\ attr v "travelDir" = Some d.
(** link/predecessor or link/successor id, as a lane number *)
Definition says_link (e : xml) (which : string) (p : Z) : Prop :=
  exists k x, find1 e "link" = Some k /\ find1 k which = Some x /\ int_attr x "id" = Some p /\ (- 2147483648 <= p <= 2147483647)%Z.

(** Lane [l] of the map is what the lane element [e] of road element [rd] describes. *)
Record lane_as_in_file (rd e : xml) (l : xlane P) : Prop := {
  la_pos : int_attr e "id" = Some (l_pos l);
  la_driving : l_type l = DRIVING <-> attr e "type" = Some "driving";
  la_border : l_type l = OTHERTYPE 6 <-> attr e "type" = Some "border";
  la_other : attr e "type" <> Some "driving" -> attr e "type" <> Some "border" -> l_type l = OTHERTYPE 5;
  la_forward : says_dir e "forward" -> l_dir l = FORWARD;
  la_backward : says_dir e "backward" -> l_dir l = BACKWARD;
  la_default_dir : ~ says_dir e "forward" -> ~ says_dir e "backward" -> l_dir l = if (l_pos l <? 0)%Z then FORWARD else BACKWARD;
  la_pred : forall p, says_link e "predecessor" p -> l_from l = p;
  la_no_pred : (forall p, ~ says_link e "predecessor" p) -> l_from l = 0%Z;
  la_succ : forall p, says_link e "successor" p -> l_to l = p;
  la_no_succ : (forall p, ~ says_link e "successor" p) -> l_to l = 0%Z;
  la_junction : exists j, int_attr rd "junction" = Some j /\ l_junction l = if (j =? -1)%Z then None else Some (Z.to_N j)
}.

(** Section [s] of the map holds the lanes of the section element [sec]. *)
Record section_as_in_file (rd sec : xml) (s : section P) : Prop := {
  sa_from : forall l, in_section l s -> exists e, In e (file_lanes sec) /\ lane_as_in_file rd e l;
  sa_all : forall e, In e (file_lanes sec) -> exists l e', in_section l s /\ In e' (file_lanes sec) /\ int_attr e' "id" = int_attr e "id" /\ lane_as_in_file rd e' l;
  sa_each : distinct_ids sec -> forall e, In e (file_lanes sec) -> exists l, in_section l s /\ lane_as_in_file rd e l;
  sa_count : distinct_ids sec -> length s = length (file_lanes sec)
}.

(** [rd] is the last road element with the id [k]. *)
Definition road_number (rd : xml) (k : N) : Prop := int_attr rd "id" = Some (Z.of_N k).
Definition last_road (roads : list xml) (k : N) (rd : xml) : Prop :=
  exists pre post, roads = pre ++ rd :: post /\ road_number rd k /\ forall r, In r post -> ~ road_number r k.

(** link/predecessor or link/successor of a road: number and type *)
Definition says_road_link (rd : xml) (which : string) (k : N) (t : string) : Prop :=
  exists l e, find1 rd "link" = Some l /\ find1 l which = Some e /\ int_attr e "elementId" = Some (Z.of_N k) /\
    (Z.of_N k < two32)%Z /\ attr e "elementType" = Some t.
Definition link_as_in_file (rd : xml) (which : string) (x : N * bool) : Prop :=
  (forall k t, says_road_link rd which k t -> x = (k, String.eqb t "road")) /\
  ((forall k t, ~ says_road_link rd which k t) -> x = (1000000%N, false)).

(** Road [r] of the map is what the element [rd] describes. *)
Record road_as_in_file (rd : xml) (r : road P) : Prop := {
  ra_succ : link_as_in_file rd "successor" (r_succ r);
  ra_pred : link_as_in_file rd "predecessor" (r_pred r);
  ra_sections : exists lanes, find1 rd "lanes" = Some lanes /\ Forall2 (section_as_in_file rd) (findall lanes "laneSection") (r_sections r)
}.

(** Connections of a junction: incoming road, connecting road, lane links. *)
Record connection_as_in_file (e : xml) (c : connection) : Prop := {
  ca_in : int_attr e "incomingRoad" = Some (Z.of_N (c_incoming c));
  ca_out : int_attr e "connectingRoad" = Some (Z.of_N (c_connecting c));
  ca_links : Forall2 (fun l p => int_attr l "from" = Some (fst p) /\ int_attr l "to" = Some (snd p)) (findall e "laneLink") (c_links c)
}.
(** [x] is the last of the elements [l] whose id reads as [k]. *)
Definition last_with (num : xml -> option Z) (l : list xml) (k : Z) (x : xml) : Prop :=
  exists pre post, l = pre ++ x :: post /\ num x = Some k /\ forall y, In y post -> num y <> Some k.

(** The record [r] holds the numbers of the width element [w]. *)
Definition width_as_in_file {F} (to_float : string -> option F) (w : xml) (r : F * (F * F * F * F)) : Prop :=
  fattr to_float w "sOffset" = Some (fst r) /\ fattr to_float w "a" = Some (fst (fst (fst (snd r)))) /\
  fattr to_float w "b" = Some (snd (fst (fst (snd r)))) /\ fattr to_float w "c" = Some (snd (fst (snd r))) /\ fattr to_float w "d" = Some (snd (snd r)).
(** The width records of a lane element; lane 0 without any counts as one of width zero. *)
Definition widths_as_in_file {F} (zero : F) (to_float : string -> option F) (e : xml) (pos : Z) (ws : list (F * (F * F * F * F))) : Prop :=
  if (pos =? 0)%Z && match findall e "width" with [] => true | _ => false end then ws = [(zero, (zero, zero, zero, zero))]
  else Forall2 (width_as_in_file to_float) (findall e "width") ws.
(** The first laneOffset of a lanes element; none counts as zero. *)
Definition offset_as_in_file {F} (zero : F) (to_float : string -> option F) (lanes : xml) (o : F * (F * F * F * F)) : Prop :=
  match find1 lanes "laneOffset" with
  | None => o = (zero, (zero, zero, zero, zero))
  | Some e => fattr to_float e "s" = Some (fst o) /\ fattr to_float e "a" = Some (fst (fst (fst (snd o)))) /\
      fattr to_float e "b" = Some (snd (fst (fst (snd o)))) /\ fattr to_float e "c" = Some (snd (fst (snd o))) /\ fattr to_float e "d" = Some (snd (snd o))
  end.
(** The geometry elements of a plan view: position, heading and length, and the shape. *)
Inductive geometry_as_in_file {F} (to_float : string -> option F) (s_inc : sinc F) (g : xml) : xgeom F -> Prop :=
| geo_line x y h len inc : find1 g "line" <> None -> find1 g "spiral" = None -> find1 g "arc" = None ->
    fattr to_float g "x" = Some x -> fattr to_float g "y" = Some y -> fattr to_float g "hdg" = Some h -> fattr to_float g "length" = Some len ->
    (s_inc = SNone /\ inc = len \/ s_inc = SFloat inc) -> geometry_as_in_file to_float s_inc g (XLine x y h len inc)
| geo_spiral x y h len k0 k1 e : find1 g "spiral" = Some e -> find1 g "arc" = None ->
    fattr to_float g "x" = Some x -> fattr to_float g "y" = Some y -> fattr to_float g "hdg" = Some h -> fattr to_float g "length" = Some len ->
    fattr to_float e "curvStart" = Some k0 -> fattr to_float e "curvEnd" = Some k1 -> geometry_as_in_file to_float s_inc g (XSpiral x y h len k0 k1)
| geo_arc x y h len k e : find1 g "arc" = Some e ->
    fattr to_float g "x" = Some x -> fattr to_float g "y" = Some y -> fattr to_float g "hdg" = Some h -> fattr to_float g "length" = Some len ->
    fattr to_float e "curvature" = Some k -> geometry_as_in_file to_float s_inc g (XArc x y h len k).
(** Drawing one geometry after the other. *)
Inductive draws {F PV} (pv_geom : PV -> xgeom F -> option PV) : PV -> list (xgeom F) -> PV -> Prop :=
| draws_nil v : draws pv_geom v [] v
| draws_cons v v1 v2 g gs : pv_geom v g = Some v1 -> draws pv_geom v1 gs v2 -> draws pv_geom v (g :: gs) v2.
(** The plan view of a road: its geometries, then the offset of the header. *)
Definition plan_view_as_in_file {F PV} (to_float : string -> option F) (s_inc : sinc F) (pv_empty : PV) (pv_geom : PV -> xgeom F -> option PV)
    (pv_shift : PV -> F -> F -> F -> PV) (root rd : xml) (pv : PV) : Prop :=
  exists h p gs pv0, find1 root "header" = Some h /\ find1 rd "planView" = Some p /\
    Forall2 (geometry_as_in_file to_float s_inc) (findall p "geometry") gs /\ draws pv_geom pv_empty gs pv0 /\
    match find1 h "offset" with
    | None => pv = pv0
    | Some o => exists x y t, fattr to_float o "x" = Some x /\ fattr to_float o "y" = Some y /\ fattr to_float o "hdg" = Some t /\ pv = pv_shift pv0 x y t
    end.

(** How a border is built from the line [prev]: one piece per width record, each with the
    record's values plus the offset's, ending where the next record starts. *)
Section Border.
Context {F Line : Type}.
Variable (fadd : F -> F -> F) (append : Line -> Line -> Z -> xwidth F -> option Line).
Inductive pieces (off : F * (F * F * F * F)) (s_end : F) (prev : Line) (pos : Z) : list (F * (F * F * F * F)) -> Line -> Line -> Prop :=
| no_piece l : pieces off s_end prev pos [] l l
| one_piece s a b c d r l l1 l2 :
    append l prev pos (mkXW (fadd s (fst off)) (match r with [] => s_end | w :: _ => fst w end)
      (fadd a (fst (fst (fst (snd off))))) (fadd b (snd (fst (fst (snd off))))) (fadd c (snd (fst (snd off)))) (fadd d (snd (snd off)))) = Some l1 ->
    pieces off s_end prev pos r l1 l2 ->
    pieces off s_end prev pos ((s, (a, b, c, d)) :: r) l l2.
End Border.
End Spec.

(** The attributes the map depends on, by the tag of the element. *)
Definition used (tag name : string) : bool :=
  let is l := existsb (String.eqb name) l in
  if String.eqb tag "road" then is ["id"; "name"; "length"; "junction"]
  else if String.eqb tag "offset" then is ["x"; "y"; "z"; "hdg"]
  else if String.eqb tag "geometry" then is ["x"; "y"; "hdg"; "length"]
  else if String.eqb tag "arc" then is ["curvature"]
  else if String.eqb tag "spiral" then is ["curvStart"; "curvEnd"]
  else if String.eqb tag "laneOffset" then is ["s"; "a"; "b"; "c"; "d"]
  else if String.eqb tag "lane" then is ["id"; "type"]
  else if String.eqb tag "width" then is ["sOffset"; "a"; "b"; "c"; "d"]
  else if String.eqb tag "vectorLane" then is ["travelDir"]
  else if String.eqb tag "roadMark" then is ["type"; "color"; "width"]
  else if String.eqb tag "predecessor" || String.eqb tag "successor" then is ["id"; "elementId"; "elementType"]
  else if String.eqb tag "junction" then is ["id"]
  else if String.eqb tag "connection" then is ["id"; "incomingRoad"; "connectingRoad"]
  else if String.eqb tag "laneLink" then is ["from"; "to"]
  else false.

(** Two trees with the same elements that agree on those attributes; of the start s of a lane
    section only whether it is a number. *)
Inductive agree (number : string -> Prop) : xml -> xml -> Prop :=
| agree_elem t a b k k' :
    (forall n, used t n = true -> assoc a n = assoc b n) ->
    (t = "laneSection" -> ((exists v, assoc a "s" = Some v /\ number v) <-> (exists v, assoc b "s" = Some v /\ number v))) ->
    Forall2 (agree number) k k' ->
    agree number (Elem t a k) (Elem t b k').

(** The tree with the attribute [name] of every element with the tag [tag] set to [v]. *)
Fixpoint set_attr (tag name v : string) (x : xml) : xml :=
  match x with Elem t a k => Elem t (if String.eqb t tag then (name, v) :: a else a) (map (set_attr tag name v) k) end.
