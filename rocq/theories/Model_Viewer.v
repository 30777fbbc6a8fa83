(* What a picture of the world shows: bark/runtime/viewer/viewer.py (BaseViewer) with the palette of
   matplotlib_viewer.py. Agents are given by id, position, whether they have a goal; the shapes, lanes and texts drawn
   are not kept, colours are symbols. RSS/LTL drawing only as far as it needs an evaluated agent. *)
From Coq Require Import List ZArith QArith NArith Bool.
From Verif Require Import Model_Map.
Import ListNotations.
Local Open Scope Q_scope.

(* ** camera *)
(* follow_agent_id: None, a Boolean, an id *)
Inductive follow := NoFollow | FollowFlag (b : bool) | FollowId (i : N).
Record camera := mkCam {
  use_world_bounds : bool; follow_id : follow; center : Q * Q; x_range : Q * Q; y_range : Q * Q;
  enforce_x : bool; enforce_y : bool; x_length : Q; y_length : Q }.
Record vagent := mkVA { va_pos : Q * Q; va_goal : bool }.
Record vworld := mkVW { vw_agents : list (N * vagent); vw_valid : list N; vw_box : (Q * Q) * (Q * Q) }.
Definition view := ((Q * Q) * (Q * Q))%type.   (* dynamic_world_x_range, dynamic_world_y_range *)

Definition has_id (i : N) (l : list N) : bool := existsb (N.eqb i) l.
Definition agent_ids (w : vworld) : list N := map fst (vw_agents w).
(* viewer.py:142-154; a Boolean is looked up in the dict of agents like the int it equals *)
Definition followed (c : camera) (w : vworld) (evals : option (list N)) : option N :=
  let cand :=
    match follow_id c with
    | NoFollow => None
    | FollowFlag b => match evals with
                      | Some [i] => Some i
                      | _ => Some (if b then 1%N else 0%N)
                      end
    | FollowId i => Some i
    end in
  match cand with
  | Some i => if has_id i (agent_ids w) then Some i else None
  | None => None
  end.
(* viewer.py:189-201; ratio: width by height of the axes *)
Definition range_around (c : camera) (ratio : Q) (m : Q * Q) (old : view) : view :=
  let v1 := if enforce_x c
            then ((- x_length c / 2 + fst m, x_length c / 2 + fst m),
                  (- x_length c / 2 / ratio + snd m, x_length c / 2 / ratio + snd m))
            else old in
  if enforce_y c
  then ((- y_length c / 2 * ratio + fst m, y_length c / 2 * ratio + fst m),
        (- y_length c / 2 + snd m, y_length c / 2 + snd m))
  else v1.
Definition Qltb (a b : Q) : bool := negb (Qle_bool b a).
Definition Qabs' (a : Q) : Q := if Qltb a 0 then - a else a.
(* viewer.py:169-184 *)
Definition range_of_box (b : (Q * Q) * (Q * Q)) : view :=
  let x0 := fst (fst b) in let x1 := fst (snd b) in let y0 := snd (fst b) in let y1 := snd (snd b) in
  let dx := Qabs' (x1 - x0) in let dy := Qabs' (y1 - y0) in
  if Qltb dy dx then ((x0, x1), (y0 - (dx - dy) / 2, y1 + (dx - dy) / 2))
  else ((x0 - (dy - dx) / 2, x1 + (dy - dx) / 2), (y0, y1)).
Fixpoint lookup {A} (i : N) (l : list (N * A)) : option A :=
  match l with [] => None | (j, a) :: r => if N.eqb i j then Some a else lookup i r end.
(* viewer.py:156-187 *)
Definition update_view (c : camera) (ratio : Q) (w : vworld) (evals : option (list N)) (old : view) : view :=
  match followed c w evals with
  | Some i => match lookup i (vw_agents w) with
              | Some a => range_around c ratio (va_pos a) old
              | None => old
              end
  | None => if use_world_bounds c then range_of_box (vw_box w) else range_around c ratio (center c) old
  end.

(* viewer.py:108-134: keyword arguments before parameters; the lengths default to int(|y0| + |y1|), called later with
   the parameters alone (benchmark_runner.py:317) *)
Record camopts := mkCO {
  o_bounds : option bool; o_follow : option follow; o_center : option (Q * Q); o_xr : option (Q * Q); o_yr : option (Q * Q);
  o_ex : option bool; o_ey : option bool; o_xl : option Q; o_yl : option Q }.
Definition no_opts : camopts := mkCO None None None None None None None None None.
Definition pick {A} (kw p : option A) (d : A) : A := match kw with Some a => a | None => match p with Some a => a | None => d end end.
(* int(): towards zero; the argument is not negative *)
Definition to_int (q : Q) : Q := inject_Z (Qnum q / Zpos (Qden q)).
Definition init_camera (kw p : camopts) : camera :=
  let yr := pick (o_yr kw) (o_yr p) (-40 # 1, 40 # 1) in
  let d := to_int (Qabs' (fst yr) + Qabs' (snd yr)) in
  mkCam (pick (o_bounds kw) (o_bounds p) true) (pick (o_follow kw) (o_follow p) NoFollow)
        (pick (o_center kw) (o_center p) (0, 0)) (pick (o_xr kw) (o_xr p) (-40 # 1, 40 # 1)) yr
        (pick (o_ex kw) (o_ex p) true) (pick (o_ey kw) (o_ey p) false) (pick (o_xl kw) (o_xl p) d) (pick (o_yl kw) (o_yl p) d).
(* benchmark_runner.py:316-317: the viewer is initialised again, without keywords, before each run *)
Definition benchmark_camera (c : camera) (p : camopts) : camera := init_camera no_opts p.

(* ** colours *)
(* Palette k: entry k of the list of 18 colours left of tab20, matplotlib_viewer.py:166-174; an index beyond the last
   entry gives the last entry *)
Inductive colour := EvalLine | EvalFace | OtherLine | OtherFace | White | Palette (k : nat).
Record voptions := mkVO {
  use_colormap : bool; fixed_line : bool; draw_invalid : bool; draw_history : bool; draw_history_face : bool;
  draw_goals : bool; draw_reference : bool; needs_ego : bool (* one of the drawings of lines 409-427 is on *) }.
Definition palette_size : nat := 18.
Definition colormap_size : nat := 20.
Definition from_map (k : nat) : colour := Palette (Nat.min k (palette_size - 1)).
Definition colour_map := list (N * colour).
(* viewer.py:322-345 *)
Definition agent_colour (o : voptions) (cm : colour_map) (i : N) (evals : option (list N)) : (colour * colour * bool) * colour_map :=
  if match evals with Some l => has_id i l | None => false end then ((EvalLine, EvalFace, true), cm)
  else if use_colormap o then
    let cm' := match lookup i cm with
               | Some _ => cm
               | None => cm ++ [(i, from_map (Nat.modulo (length cm) colormap_size))]
               end in
    match lookup i cm' with
    | Some k => (((if fixed_line o then OtherLine else k), k, false), cm')
    | None => ((OtherLine, OtherFace, false), cm')
    end
  else ((OtherLine, OtherFace, false), cm).

(* ** pictures *)
Inductive mark :=
| GoalOf (i : N)
| HistoryOf (i : N) (line face : colour)
| AgentBody (i : N) (line face : colour) (evaluated hatched with_id : bool).
Inductive vexn := VIndexError | VTypeError | VKeyError.
Record vstate := mkVS { vs_view : view; vs_colours : colour_map }.

Fixpoint draw_agents (o : voptions) (valid : list N) (evals : option (list N)) (l : list (N * vagent)) (cm : colour_map)
  : list mark * colour_map :=
  match l with
  | [] => ([], cm)
  | (i, a) :: r =>
      let '((line, face, ev), cm1) := agent_colour o cm i evals in
      let h := if draw_history o && has_id i valid
               then [HistoryOf i line (if draw_history_face o then face else White)] else [] in
      let b := if has_id i valid || draw_invalid o
               then [AgentBody i line face ev (negb (has_id i valid)) true] else [] in
      let '(m, cm2) := draw_agents o valid evals r cm1 in
      (h ++ b ++ m, cm2)
  end.
(* the first evaluated agent: eval_agent_ids[0] *)
Definition first_eval (evals : option (list N)) : N + vexn :=
  match evals with None => inr VTypeError | Some [] => inr VIndexError | Some (i :: _) => inl i end.
(* viewer.py:347-427; marks drawn before an exception stay *)
Definition draw_world_impl (c : camera) (ratio : Q) (o : voptions) (debug_text : bool) (w : vworld) (evals : option (list N))
    (s : vstate) : vstate * list mark * option vexn :=
  let v := update_view c ratio w evals (vs_view s) in
  let ref_err :=
    if draw_reference o then
      match evals with
      | None => None
      | Some [] => Some VIndexError
      | Some (i :: _) => if has_id i (agent_ids w) then None else Some VKeyError
      end
    else None in
  match ref_err with
  | Some e => (mkVS v (vs_colours s), [], Some e)
  | None =>
      let goals := match evals with
                   | Some l => if draw_goals o
                               then map (fun ia => GoalOf (fst ia)) (filter (fun ia => va_goal (snd ia) && has_id (fst ia) l) (vw_agents w))
                               else []
                   | None => []
                   end in
      let '(m, cm) := draw_agents o (vw_valid w) evals (vw_agents w) (vs_colours s) in
      let s' := mkVS v cm in
      let text_err :=
        if debug_text then
          match evals with
          | Some (i :: _) => if has_id i (agent_ids w) then None else Some VKeyError
          | _ => None
          end
        else None in
      let ego_err :=
        if needs_ego o then match first_eval evals with inl _ => None | inr e => Some e end else None in
      (s', goals ++ m, match text_err with Some e => Some e | None => ego_err end)
  end.
(* viewer.py:313-320: outlines of all agents *)
Fixpoint draw_outlines (o : voptions) (evals : option (list N)) (l : list (N * vagent)) (cm : colour_map) : list mark * colour_map :=
  match l with
  | [] => ([], cm)
  | (i, a) :: r =>
      let '((line, face, ev), cm1) := agent_colour o cm i evals in
      let '(m, cm2) := draw_outlines o evals r cm1 in
      (AgentBody i line White ev false false :: m, cm2)
  end.
(* viewer.py:295-307; sensed: what the first evaluated agent senses, if anything *)
Definition draw_world (c : camera) (ratio : Q) (o : voptions) (debug_text : bool) (w : vworld) (sensed : N -> option vworld)
    (evals : option (list N)) (s : vstate) : vstate * list mark * option vexn :=
  let evals' := match evals with
                | Some (i :: r) => if has_id i (agent_ids w) then evals else None
                | _ => evals
                end in
  match (match evals' with Some (i :: _) => sensed i | _ => None end) with
  | Some sw =>
      let '(m1, cm) := draw_outlines o evals' (vw_agents w) (vs_colours s) in
      let '(s', m2, e) := draw_world_impl c ratio o debug_text sw evals' (mkVS (vs_view s) cm) in
      (s', m1 ++ m2, e)
  | None => draw_world_impl c ratio o debug_text w evals' s
  end.
(* the same viewer draws one world after the other *)
Fixpoint draw_all (c : camera) (ratio : Q) (o : voptions) (debug_text : bool)
    (l : list (vworld * (N -> option vworld) * option (list N))) (s : vstate) : vstate * list (list mark * option vexn) :=
  match l with
  | [] => (s, [])
  | (w, sw, ev) :: r =>
      let '(s1, m, e) := draw_world c ratio o debug_text w sw ev s in
      let '(s2, ms) := draw_all c ratio o debug_text r s1 in
      (s2, (m, e) :: ms)
  end.
