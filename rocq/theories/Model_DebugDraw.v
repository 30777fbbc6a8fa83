(** What the debug drawings of a picture show: bark/runtime/viewer/viewer.py (BaseViewer): histories, goals, agents, evaluation
    results, RSS information. Drawing calls are commands in order; a raised exception ends the list ([false]). Python values
    other than those compared are arguments. *)
From Coq Require Import List Bool NArith ZArith QArith Reals.
Import ListNotations.

Section Draw.
  (** States, shapes drawn, colours. *)
  Variables State Shape Color : Type.
  Definition outcome (C : Type) : Type := (list C * bool)%type.
  Definition done {C} (l : list C) : outcome C := (l, true).
  Definition raised {C} (l : list C) : outcome C := (l, false).

  (** viewer.py:261-262: lh entries, this one at idx (from 0, the oldest). *)
  Definition history_alpha (lh idx : nat) : Q :=
    (let a := 1 - (8 # 10) * inject_Z (Z.of_nat (lh - idx)) / (34 # 10) in if Qle_bool 0 a then a else 0)%Q.
  (** viewer.py:252-265, drawHistory: the given alpha is not used; only polygons are drawn. *)
  Fixpoint history_from (lh idx : nat) (h : list State) : list (State * Q) :=
    match h with [] => [] | s :: r => (s, history_alpha lh idx) :: history_from lh (S idx) r end.
  Definition draw_history (is_polygon : bool) (alpha : Q) (h : list State) : list (State * Q) :=
    if is_polygon then history_from (length h) 0 h else [].

  (** viewer.py:267-280, drawGoalDefinition: the shapes by kind of goal; an empty sequence raises IndexError. *)
  Inductive goal : Type :=
  | GPolygon (goal_shape : Shape) | GLimits (xy_limits : Shape) | GFrenet (goal_shape : Shape)
  | GSequential (goals : list goal) | GOther.
  Fixpoint draw_goal (g : goal) : outcome Shape :=
    match g with
    | GPolygon s | GLimits s | GFrenet s => done [s]
    | GSequential (h :: _) => draw_goal h
    | GSequential [] => raised []
    | GOther => done []
    end.

  (** viewer.py:531-536, drawEvalResults: texts with the vertical position. *)
  Fixpoint eval_texts {E} (y : Q) (results : list E) : list (E * Q) :=
    match results with [] => [] | r :: t => (r, y) :: eval_texts (y - (3 # 100))%Q t end.
  Definition draw_eval_results {E} (results : list E) : list (E * Q) := eval_texts (9 # 10)%Q results.

  (** viewer.py:477-500, drawAgent; [draw_agent_id] is the argument, [self_draw_agent_id] the member. *)
  Inductive agent_cmd : Type := AText (id : N) | AArrow | APolygon (hatch : bool).
  Definition draw_agent (is_polygon self_draw_agent_id self_arrow : bool) (id : N) (hatch draw_agent_id : bool) : outcome agent_cmd :=
    if is_polygon then
      done ((if self_draw_agent_id then [AText id] else []) ++ (if self_arrow then [AArrow] else []) ++ [APolygon hatch])
    else raised [].
  (** viewer.py:484-491: position and rotation (degrees) of the text. *)
  Definition text_center (front rear x y theta : R) : (R * R) :=
    ((front - / 2 * (front + rear)) * cos theta + x, (front - / 2 * (front + rear)) * sin theta + y)%R.
  Definition text_rotation (theta : R) : R := (180 * (Rmin theta (theta - PI / 2) / PI))%R.
  (** viewer.py:313-320, drawTrueWorld: agents as (id, has a polygon). *)
  Fixpoint draw_true_world (self_draw_agent_id self_arrow : bool) (agents : list (N * bool)) : outcome agent_cmd :=
    match agents with
    | [] => done []
    | (i, poly) :: r =>
      let d := draw_agent poly self_draw_agent_id self_arrow i false false in
      if snd d then let t := draw_true_world self_draw_agent_id self_arrow r in (fst d ++ fst t, snd t) else d
    end.
  (** viewer.py:240-246, drawAgents: drawAgent lacks three required arguments (TypeError). *)
  Fixpoint draw_agents (draw_invalid : bool) (valid : list N) (agents : list N) : outcome agent_cmd :=
    match agents with
    | [] => done []
    | i :: r => if existsb (N.eqb i) valid then raised [] else if draw_invalid then raised [] else draw_agents draw_invalid valid r
    end.

  (** The evaluators of a world: [Some r]: an EvaluatorRSS with its answers. viewer.py:540-544, 568-572: the first one; without
      one the variable is unbound. *)
  Fixpoint first_rss {A} (evs : list (option A)) : option A :=
    match evs with [] => None | Some r :: _ => Some r | None :: t => first_rss t end.
  (** viewer.py:538-564, drawRssDebugInfomation: header, a line per agent (longitudinal, lateral, vertical position), the overall
      verdict. *)
  Inductive rss_text : Type := THeader | TAgent (id : N) (lon lat : bool) (y : Q) | TOverall (ego : N) (safe : bool).
  Fixpoint rss_lines (i : nat) (rs : list (N * (bool * bool))) : list rss_text :=
    match rs with
    | [] => []
    | (id, (lon, lat)) :: t => TAgent id lon lat ((88 # 100) - (3 # 100) * inject_Z (Z.of_nat i))%Q :: rss_lines (S i) t
    end.
  Definition draw_rss_debug (evs : list (option (list (N * (bool * bool))))) (ego : N) : outcome rss_text :=
    match first_rss evs with
    | None => raised []
    | Some rs =>
      let safe := fold_left (fun s r => s && (fst (snd r) || snd (snd r))) rs true in
      done ((match rs with [] => [] | _ => THeader :: rss_lines 0 rs end) ++ [TOverall ego safe])
    end.
  (** viewer.py:566-592, drawRssSafetyResponses: the enlarged shape of the ego and of each agent with an answer. *)
  Inductive resp_cmd : Type := REgo (id : N) | RAgent (id : N) (green : bool).
  Definition answer (i : N) (rs : list (N * bool)) : option bool := option_map snd (find (fun r => N.eqb i (fst r)) rs).
  Definition draw_rss_responses (evs : list (option (list (N * bool)))) (agents : list N) (ego : N) : outcome resp_cmd :=
    match first_rss evs with
    | None => raised []
    | Some rs =>
      if existsb (N.eqb ego) agents then
        done (REgo ego :: flat_map (fun i => match answer i rs with Some g => [RAgent i g] | None => [] end) agents)
      else raised []
    end.
  (** viewer.py:594-608, DrawRSSBrakingDistances: [compute own i]: the polygon for agent i with the parameters of the ego
      ([own]) or of the others, [None] if it raises, which is ignored; then the variable keeps its value. *)
  Fixpoint braking_from (compute : bool -> N -> option Shape) (eval_id : N) (prev : option Shape) (agents : list N) : outcome (N * Shape) :=
    match agents with
    | [] => done []
    | i :: r =>
      let cur := match compute (N.eqb eval_id i) i with Some p => Some p | None => prev end in
      match cur with
      | None => raised []
      | Some p => let t := braking_from compute eval_id cur r in ((i, p) :: fst t, snd t)
      end
    end.
  Definition draw_braking (compute : bool -> N -> option Shape) (eval_id : N) (agents : list N) : outcome (N * Shape) :=
    braking_from compute eval_id None agents.
  (** viewer.py:610-657, DrawRSSEvaluatorState: for an RSS conformant behaviour with its responses and safety polygons (agent,
      polygon); the colour map of the viewer. Labels with their offset (5 per label) from the text position. *)
  Inductive rss_label : Type := LON | LAT.
  Inductive state_cmd : Type := SPolygon (s : Shape) (c : Color) | SLabel (l : rss_label) (offset : Z).
  Definition violations (lon lateral_left lateral_right : Z) : list rss_label :=
    (if Z.eqb lon 0 then [] else [LON]) ++ (if negb (Z.eqb lateral_left 0) || negb (Z.eqb lateral_right 0) then [LAT] else []).
  Fixpoint labels_from (offset : Z) (vs : list rss_label) : list state_cmd :=
    match vs with [] => [] | v :: r => SLabel v offset :: labels_from (offset + 5)%Z r end.
  Fixpoint draw_polygons (cmap : N -> option Color) (ps : list (N * Shape)) : outcome state_cmd :=
    match ps with
    | [] => done []
    | (i, s) :: r => match cmap i with None => raised [] | Some c => let t := draw_polygons cmap r in (SPolygon s c :: fst t, snd t) end
    end.
  Definition draw_rss_state (behavior : option (Z * Z * Z)) (polygons : list (N * Shape)) (cmap : N -> option Color) (draw_agent_id : bool) : outcome state_cmd :=
    match behavior with
    | None => done []
    | Some (lon, lateral_left, lateral_right) =>
      let d := draw_polygons cmap polygons in
      if snd d then done (fst d ++ (if draw_agent_id then labels_from 0 (violations lon lateral_left lateral_right) else [])) else d
    end.
End Draw.
Arguments GPolygon {Shape}. Arguments GLimits {Shape}. Arguments GFrenet {Shape}. Arguments GSequential {Shape}. Arguments GOther {Shape}.
Arguments draw_goal {Shape}. Arguments draw_history {State}. Arguments history_from {State}.
Arguments draw_braking {Shape}. Arguments braking_from {Shape}. Arguments draw_rss_state {Shape Color}. Arguments draw_polygons {Shape Color}.
Arguments SPolygon {Shape Color}. Arguments SLabel {Shape Color}. Arguments labels_from {Shape Color}.
