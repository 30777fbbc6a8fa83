(* Primitives collected by a world's renderer: bark/world/renderer/renderer.hpp, primitive.hpp, the renderer handles of
   World (world.hpp, world.cpp), of ObserverModelParametric::Observe, and runtime/viewer/buffered_viewer.py,
   buffered_mp_viewer.py. Renderers are shared pointers: a heap of renderers, worlds hold an address. Geometry is opaque:
   a primitive names the lane, agent or state it draws. *)
From Coq Require Import String List NArith QArith Bool DecimalString DecimalN.
Import ListNotations.
Local Open Scope string_scope.

Inductive obj := OLane (l : nat) | OAgent (i : N) | OState (i : N) (pos : Q * Q) | OUser (n : nat).
Inductive attr := SolidColour | SolidWidth | DashedColour | DashedWidth | EgoStroke | EgoFill | OtherStroke | OtherFill
                | Height | AgentIdText (i : N) | UserAttr (n : nat).
Record prim := mkPrim { p_obj : obj; p_conf : string -> option attr }.
(* RenderPrimitive::SetAttr, primitive.hpp:35: conf[k] = v *)
Definition set_attr (k : string) (v : attr) (p : prim) : prim :=
  mkPrim (p_obj p) (fun x => if String.eqb x k then Some v else p_conf p x).
Definition new_prim (o : obj) : prim := mkPrim o (fun _ => None).

(* renderer.hpp:27-63; an absent name and an empty vector cannot be told apart *)
Record rend := mkR { buffer : string -> list prim; children : string -> option nat }.
Definition empty_rend : rend := mkR (fun _ => []) (fun _ => None).
Definition heap := list rend.
Definition getr (h : heap) (a : nat) : rend := nth a h empty_rend.
Fixpoint putr (h : heap) (a : nat) (r : rend) : heap :=
  match h, a with
  | [], _ => []
  | _ :: t, O => r :: t
  | x :: t, S a' => x :: putr t a' r
  end.
Definition add_prim (h : heap) (a : nat) (name : string) (p : prim) : heap :=
  let r := getr h a in
  putr h a (mkR (fun x => if String.eqb x name then (buffer r x ++ [p])%list else buffer r x) (children r)).
Definition clear (h : heap) (a : nat) : heap := putr h a empty_rend.
(* AddRendererChild: a fresh renderer replaces an earlier child of that name *)
Definition add_child (h : heap) (a : nat) (name : string) : heap * nat :=
  let r := getr h a in
  let h1 := putr h a (mkR (buffer r) (fun x => if String.eqb x name then Some (length h) else children r x)) in
  ((h1 ++ [empty_rend])%list, length h).

(* road mark types that are drawn dashed: broken, none *)
Record lane := mkLane { l_id : nat; l_dashed : bool }.
Record bworld := mkBW { bw_rend : nat; bw_agents : list (N * (Q * Q)); bw_lanes : list lane }.
(* World::World(params), world.cpp:27-33 *)
Definition new_world (h : heap) (agents : list (N * (Q * Q))) (lanes : list lane) : heap * bworld :=
  ((h ++ [empty_rend])%list, mkBW (length h) agents lanes).
(* World::Clone, ObservedWorld(world, id), ObserverModelNone::Observe: the renderer is shared, world.cpp:56 *)
Definition clone_world (w : bworld) : bworld := w.
Definition id_name (i : N) : string := NilEmpty.string_of_uint (N.to_uint i).
(* ObserverModelParametric::Observe, observer_model_parametric.cpp:47-52; moved: the agents with their deviations *)
Definition observe (h : heap) (w : bworld) (i : N) (moved : list (N * (Q * Q))) : heap * bworld :=
  let '(h', c) := add_child h (bw_rend w) (id_name i) in
  (h', mkBW c moved (bw_lanes w)).

(* buffered_viewer.py:73-81 *)
Definition lane_prim (l : lane) : prim :=
  let p := set_attr "stroke_width" SolidWidth (set_attr "stroke_color" SolidColour (new_prim (OLane (l_id l)))) in
  if l_dashed l then set_attr "stroke_width" DashedWidth (set_attr "stroke_color" DashedColour p) else p.
(* buffered_viewer.py:66-71 *)
Definition draw_map (h : heap) (w : bworld) : heap :=
  fold_left (fun h l => add_prim h (bw_rend w) "MAP_LINE" (lane_prim l)) (bw_lanes w) h.
(* buffered_viewer.py:39-53 *)
Definition agent_prim (ego : bool) (i : N) : prim :=
  let p := set_attr "height" Height (set_attr "agent_id" (AgentIdText i) (new_prim (OAgent i))) in
  if ego then set_attr "fill_color" EgoFill (set_attr "stroke_color" EgoStroke p)
  else set_attr "fill_color" OtherFill (set_attr "stroke_color" OtherStroke p).
Definition draw_agents (h : heap) (w : bworld) (ego : N) : heap :=
  fold_left (fun h (a : N * (Q * Q)) =>
    if N.eqb (fst a) ego then add_prim h (bw_rend w) "EGO_AGENT" (agent_prim true (fst a))
    else add_prim h (bw_rend w) "OTHER_AGENT" (agent_prim false (fst a))) (bw_agents w) h.
Inductive bexn := BTypeError | BIndexError | BKeyError | BNameError.
Fixpoint agent_state (i : N) (l : list (N * (Q * Q))) : option (Q * Q) :=
  match l with [] => None | (j, s) :: r => if N.eqb i j then Some s else agent_state i r end.
(* buffered_viewer.py:55-61: the map is drawn before the evaluated agent is looked up *)
Definition buffered_draw (h : heap) (w : bworld) (evals : option (list N)) : heap * option bexn :=
  let h1 := draw_map h w in
  match evals with
  | None => (h1, Some BTypeError)
  | Some [] => (h1, Some BIndexError)
  | Some (ego :: _) =>
      match agent_state ego (bw_agents w) with
      | None => (h1, Some BKeyError)
      | Some st => (add_prim (draw_agents h1 w ego) (bw_rend w) "EGO_AGENT_STATE" (new_prim (OState ego st)), None)
      end
  end.

(* buffered_mp_viewer.py:28-75: what one picture shows: the objects drawn, in order, and the centre; the names in the
   order of the std::map *)
Fixpoint draw_prims (need : list string) (l : list prim) : list obj * option bexn :=
  match l with
  | [] => ([], None)
  | p :: r =>
      if forallb (fun k => match p_conf p k with Some _ => true | None => false end) need then
        let '(o, e) := draw_prims need r in (p_obj p :: o, e)
      else ([], Some BKeyError)
  end.
(* DrawPoints, :71-74, reads a variable that does not exist *)
Definition draw_points (l : list prim) : list obj * option bexn :=
  match l with [] => ([], None) | _ => ([], Some BNameError) end.
Definition andthen (x y : list obj * option bexn) : list obj * option bexn :=
  match x with (o, Some e) => (o, Some e) | (o, None) => let '(o', e) := y in ((o ++ o')%list, e) end.
Definition picture_of (r : rend) : list obj * option bexn :=
  let polys n := draw_prims ["fill_color"; "stroke_color"] (buffer r n) in
  let lines n := draw_prims ["stroke_color"] (buffer r n) in
  andthen (polys "EGO_AGENT") (andthen (lines "LINES") (andthen (lines "MAP_LINE") (andthen (polys "OTHER_AGENT")
    (andthen (draw_points (buffer r "POINTS")) (polys "POLYGONS"))))).
(* ProcessEgoState, :48-51: the last state *)
Definition centre_of (r : rend) : option (Q * Q) :=
  match rev (buffer r "EGO_AGENT_STATE") with
  | p :: _ => match p_obj p with OState _ s => Some s | _ => None end
  | [] => None
  end.
Record mpicture := mkMP { m_objs : list obj; m_centre : option (Q * Q) }.
(* :21-25: the renderer is cleared only if nothing failed *)
Definition mp_draw (h : heap) (w : bworld) (evals : option (list N)) : heap * mpicture * option bexn :=
  match buffered_draw h w evals with
  | (h1, Some e) => (h1, mkMP [] None, Some e)
  | (h1, None) =>
      let r := getr h1 (bw_rend w) in
      let '(o, e) := picture_of r in
      match e with
      | Some e => (h1, mkMP o (centre_of r), Some e)
      | None => (clear h1 (bw_rend w), mkMP o (centre_of r), None)
      end
  end.

(* a program over worlds: a list of worlds by number, each operation adds a world or draws *)
Inductive op :=
| NewWorld (agents : list (N * (Q * Q))) (lanes : list lane)
| Clone (w : nat)
| ObserveParametric (w : nat) (i : N) (moved : list (N * (Q * Q)))
| AddUser (w : nat) (name : string) (p : prim)
| DrawBuffered (w : nat) (evals : option (list N))
| DrawMP (w : nat) (evals : option (list N))
| Clear (w : nat).
Record sys := mkSys { s_heap : heap; s_worlds : list bworld; s_pics : list (mpicture * option bexn) }.
Definition exec (s : sys) (o : op) : sys :=
  match o with
  | NewWorld a l => let '(h, w) := new_world (s_heap s) a l in mkSys h (s_worlds s ++ [w]) (s_pics s)
  | Clone k => match nth_error (s_worlds s) k with
               | Some w => mkSys (s_heap s) (s_worlds s ++ [clone_world w]) (s_pics s)
               | None => s
               end
  | ObserveParametric k i m => match nth_error (s_worlds s) k with
               | Some w => let '(h, w') := observe (s_heap s) w i m in mkSys h (s_worlds s ++ [w']) (s_pics s)
               | None => s
               end
  | AddUser k n p => match nth_error (s_worlds s) k with
               | Some w => mkSys (add_prim (s_heap s) (bw_rend w) n p) (s_worlds s) (s_pics s)
               | None => s
               end
  | DrawBuffered k e => match nth_error (s_worlds s) k with
               | Some w => mkSys (fst (buffered_draw (s_heap s) w e)) (s_worlds s) (s_pics s)
               | None => s
               end
  | DrawMP k e => match nth_error (s_worlds s) k with
               | Some w => let '(h, p, x) := mp_draw (s_heap s) w e in mkSys h (s_worlds s) (s_pics s ++ [(p, x)])
               | None => s
               end
  | Clear k => match nth_error (s_worlds s) k with
               | Some w => mkSys (clear (s_heap s) (bw_rend w)) (s_worlds s) (s_pics s)
               | None => s
               end
  end.
Definition exec_all (s : sys) (l : list op) : sys := fold_left exec l s.
Definition init_sys : sys := mkSys [] [] [].
