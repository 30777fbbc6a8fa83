(** The pygame viewer, /repo/bark/runtime/viewer/pygame_viewer.py: where it draws things on the
    screen (exact numbers; pygame truncates the place a map is put at, numpy rounds the part
    taken of it), and in which layers and colours.  The view is the one of Model_Viewer. *)

From Coq Require Import String Ascii List ZArith QArith NArith Bool Qround.
From Verif Require Import Model_Map Model_Viewer.
Import ListNotations.
Local Open Scope Q_scope.

Definition qpt := (Q * Q)%type.

(** What the first drawMap leaves behind: the box of the lanes, camera_view_size, screen_map_ratio. *)
Record mapped := mkMapped { m_min : qpt; m_max : qpt; m_view : qpt; m_ratio : Q }.
Record pygame := mkPygame { g_w : Q; g_h : Q; g_bounds : bool; g_xr : qpt; g_yr : qpt }.

Definition Qmin2 (a b : Q) : Q := if Qle_bool a b then a else b.
Definition Qmax2 (a b : Q) : Q := if Qle_bool a b then b else a.
Definition box_add (b : qpt * qpt) (p : qpt) : qpt * qpt :=
  ((Qmin2 (fst (fst b)) (fst p), Qmin2 (snd (fst b)) (snd p)), (Qmax2 (fst (snd b)) (fst p), Qmax2 (snd (snd b)) (snd p))).
(** 58-70: the box of all points of all lanes; None without any *)
Definition lanes_box (lanes : list (list qpt)) : option (qpt * qpt) :=
  match concat lanes with [] => None | p :: r => Some (fold_left box_add r (p, p)) end.

(** 50-93: the first drawMap.  [roads]: the lanes of each road.  None: pg.Surface(None) raises for a
    map without roads, and for one without lanes (infinite size). *)
Definition first_map (g : pygame) (roads : list (list (list qpt))) (v : view) : option mapped :=
  match roads, lanes_box (concat roads) with
  | _ :: _, Some (lo, hi) =>
      let size := (snd (fst v) - fst (fst v), snd (snd v) - fst (snd v)) in
      let ratio := if g_bounds g then Qmin2 (g_w g / fst size) (g_h g / snd size)
                   else Qmax2 (g_w g / (snd (g_xr g) - fst (g_xr g))) (g_h g / (snd (g_yr g) - fst (g_yr g))) in
      Some (mkMapped lo hi size ratio)
  | _, _ => None
  end.

(** 233-236 mapToSurfaceCoordinates *)
Definition on_surface (m : mapped) (p : qpt) : qpt :=
  ((fst p - fst (m_min m)) * 1 * m_ratio m, (snd p - snd (m_max m)) * -(1) * m_ratio m).
(** 238-250 pointsToCameraCoordinate: where shapes are drawn *)
Definition on_screen (g : pygame) (m : mapped) (v : view) (p : qpt) : qpt :=
  if g_bounds g
  then (0 + (fst p - fst (fst v)) * 1 * m_ratio m, g_h g + (snd p - fst (snd v)) * -(1) * m_ratio m)
  else (0 + (fst p - fst (fst v)) * 1 / fst (m_view m) * g_w g, g_h g + (snd p - fst (snd v)) * -(1) / snd (m_view m) * g_h g).

(** np.around: half to even *)
Definition around (x : Q) : Q :=
  let f := Qfloor x in
  let d := x - inject_Z f in
  if negb (Qle_bool (1 # 2) d) then inject_Z f
  else if negb (Qle_bool d (1 # 2)) then inject_Z (f + 1)
  else if Z.even f then inject_Z f else inject_Z (f + 1).

(** 103-129: where the map surface is put, and which part of it *)
Definition map_dest (g : pygame) (m : mapped) : qpt :=
  if g_bounds g then
    let dx := fst (m_max m) - fst (m_min m) in
    let dy := snd (m_max m) - snd (m_min m) in
    if Qltb dy dx then (0, inject_Z (Qfloor (dx - dy)) / 2 * m_ratio m)
    else if Qltb dx dy then (inject_Z (Qfloor (dy - dx)) / 2 * m_ratio m, 0)
    else (0, 0)
  else (0, 0).
Definition map_part (g : pygame) (m : mapped) (v : view) : qpt * qpt :=
  if g_bounds g then ((around 0, around 0), (around (g_w g), around (g_h g)))
  else let c := on_surface m (fst (fst v), snd (snd v)) in
       ((around (fst c), around (snd c)), (around (fst (m_view m) * m_ratio m), around (snd (m_view m) * m_ratio m))).
(** blit: the place of a point of the map on the screen, if it is in the part taken (the
    fraction of the place is cut off by pygame). *)
Definition within (a x l : Q) : bool := Qle_bool a x && Qle_bool x (a + l).
Definition map_on_screen (g : pygame) (m : mapped) (v : view) (p : qpt) : option qpt :=
  let s := on_surface m p in
  let '(o, sz) := map_part g m v in
  if (within (fst o) (fst s) (fst sz) && within (snd o) (snd s) (snd sz))%bool
  then Some (inject_Z (Qfloor (fst (map_dest g m))) + (fst s - fst o), inject_Z (Qfloor (snd (map_dest g m))) + (snd s - snd o))
  else None.

(* ------------------------------------------------------------------ *)
(** * Layers *)

(** What is drawn, opaque, with the alpha (rounded, in hundredths) of its surface; drawMap and
    drawTrajectory draw on the screen surface itself. *)
Inductive what := WMap | WTrajectory (k : nat) | WShape (k : nat) | WLine (k : nat) (dashed : bool).
Record layers := mkLayers { l_base : list what; l_alpha : list (Z * list what) }.
(** 252-262 createTransparentSurace: the surface for this alpha, a new one at the end if there is none *)
Fixpoint on_alpha (a : Z) (x : list what) (l : list (Z * list what)) : list (Z * list what) :=
  match l with
  | [] => [(a, x)]
  | (b, y) :: r => if Z.eqb a b then (b, y ++ x) :: r else (b, y) :: on_alpha a x r
  end.
(** 96-99, 131-157: one drawing call with its alpha; drawLine2d draws only dashed lines *)
Definition draw1 (s : layers) (c : what * Z) : layers :=
  match fst c with
  | WMap => mkLayers (l_base s ++ [WMap]) (l_alpha s)
  | WTrajectory k => mkLayers (l_base s ++ [WTrajectory k]) (l_alpha s)
  | WShape k => mkLayers (l_base s) (on_alpha (snd c) [WShape k] (l_alpha s))
  | WLine k d => mkLayers (l_base s) (on_alpha (snd c) (if d then [WLine k d] else []) (l_alpha s))
  end.
(** 182-188 drawWorld: the calls of the base class, then the alpha surfaces in the order of the
    dictionary are put on the screen surface (and stay on it). *)
Definition draw_frame (s : layers) (calls : list (what * Z)) : layers :=
  let s1 := fold_left draw1 calls s in
  mkLayers (l_base s1 ++ concat (map snd (l_alpha s1))) (l_alpha s1).
(** 201-210 clear; None: AttributeError, there is no screen (no video device).  The alpha
    surfaces have been emptied then. *)
Definition clear (screen : bool) (s : layers) : layers * bool :=
  let a := map (fun p => (fst p, [])) (l_alpha s) in
  if screen then (mkLayers [] a, true) else (mkLayers (l_base s) a, false).

(* ------------------------------------------------------------------ *)
(** * Colours and dashes *)

(** 166-180 getColor for a name *)
Definition named (s : string) : Z * Z * Z :=
  if String.eqb s "white" then (255, 255, 255)%Z else
  if String.eqb s "red" then (255, 0, 0)%Z else
  if String.eqb s "blue" then (0, 0, 255)%Z else
  if String.eqb s "magenta" then (100, 255, 100)%Z else
  if String.eqb s "brown" then (150, 50, 50)%Z else
  if String.eqb s "black" then (0, 0, 0)%Z else (0, 0, 0)%Z.
(** int(): towards zero; pg.Color raises outside 0..255 *)
Definition trunc0 (q : Q) : Z := if Qle_bool 0 q then Qfloor q else (- Qfloor (- q))%Z.
Definition channel (q : Q) : option Z :=
  let z := trunc0 (q * 255) in if ((0 <=? z) && (z <=? 255))%Z then Some z else None.
Definition rgb (c : Q * Q * Q) : option (Z * Z * Z) :=
  match channel (fst (fst c)), channel (snd (fst c)), channel (snd c) with
  | Some a, Some b, Some d => Some (a, b, d)
  | _, _, _ => None
  end.

(** 264-274 drawDashedLines, one segment of length [l]: the dashes as distances from its start,
    for j in np.arange(0, l / 5, 2) *)
Definition dash_count (l : Q) : nat := Z.to_nat (Qceiling (l / 5 / 2)).
Definition dashes (l : Q) : list (Q * Q) :=
  map (fun k => let j := inject_Z (2 * Z.of_nat k) in (j * 5, j * 5 + 5)) (seq 0 (dash_count l)).
