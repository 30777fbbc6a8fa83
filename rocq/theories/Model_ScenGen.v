(** Configurable scenario generation
    (/repo/bark/runtime/scenario/scenario_generation/configurable_scenario_generation.py).

    Config readers are opaque programs: they see the scenario index, their
    arguments and an environment [E] (the numpy random state and class-level
    variables), may change [E] and may raise.  States, geometries, models, goals
    and road corridors are opaque.  The key strings of conflicts are modelled by
    the pairs they spell.  Parameter-server bookkeeping
    (add_config_reader_parameter_servers) is not modelled. *)

From Coq Require Import String List Arith Lia Bool QArith.
Import ListNotations.
From Verif Require Import Model_BenchRun.
Local Open Scope string_scope.
Local Open Scope nat_scope.
Local Open Scope list_scope.

(** Python exceptions that can leave the generator. *)
Inductive gexn := ValueError | NameError | NotImplementedError | IndexError | KeyError | TypeError | ReaderError.

Definition gres (A : Type) := (A + gexn)%type.

Section Gen.
Context {St Geo Beh Exe Dyn Goal Cor Par Obs Val E : Type}.

Definition kwargs := dct Val.

(** What a call of a reader does: a new environment and a value or an exception. *)
Definition call (A : Type) := E -> E * gres A.

(** One entry of SinksSources with the readers its "Type" fields select
    (configurable_scenario_generation.py 53-77, 434-452 eval_configuration).  Every
    reader gets the scenario index through its constructor. *)
Record source := mkSource {
  src_desc : string;
  src_corridor : gres Cor;                             (* 454-488 *)
  rd_states : nat -> Cor -> call (list St * list Geo * kwargs);
  rd_beh : nat -> Cor -> list St -> kwargs -> call (list Beh * kwargs);
  rd_exe : nat -> Cor -> list St -> kwargs -> call (list Exe * kwargs);
  rd_dyn : nat -> Cor -> list St -> kwargs -> call (list Dyn * kwargs);
  rd_ctrl : nat -> Cor -> list St -> kwargs -> call (list bool * kwargs);
  rd_goal : nat -> Cor -> list St -> list bool -> kwargs -> call (list Goal * kwargs);
  src_params : Par
}.

(** The constructor of a BARK agent with the attributes the generator sets. *)
Record agent := mkAgent {
  ag_id : nat; ag_state : St; ag_beh : Beh; ag_dyn : Dyn; ag_exe : Exe; ag_geo : Geo;
  ag_params : Par; ag_goal : Goal; ag_corridor : option Cor
}.

Record scenario := mkScenario { sc_agents : list agent; sc_eval : list nat; sc_obs : Obs }.

(** configurable_scenario_generation.py 410-432 create_source_config_agents, called
    without agent_ids (lines 209-212).  After the size check every index is in range. *)
Fixpoint build_agents (i : nat) (par : Par) (sts : list St) (gs : list Geo) (bs : list Beh)
    (es : list Exe) (ds : list Dyn) (gls : list Goal) : list agent :=
  match sts, gs, bs, es, ds, gls with
  | s :: sts, g :: gs, b :: bs, e :: es, d :: ds, gl :: gls =>
      mkAgent i s b d e g par gl None :: build_agents (S i) par sts gs bs es ds gls
  | _, _, _, _, _, _ => []
  end.

Definition create_source_config_agents (sts : list St) (gs : list Geo) (bs : list Beh)
    (es : list Exe) (ds : list Dyn) (gls : list Goal) (cs : list bool) (par : Par) : gres (list agent) :=
  let n := length sts in
  if (length gs =? n) && (length bs =? n) && (length es =? n) && (length ds =? n)
     && (length gls =? n) && (length cs =? n)
  then inl (build_agents 0 par sts gs bs es ds gls) else inr ValueError.

(** 231-233 update_road_corridors *)
Definition update_road_corridors (l : list agent) (c : Cor) : list agent :=
  map (fun a => mkAgent (ag_id a) (ag_state a) (ag_beh a) (ag_dyn a) (ag_exe a) (ag_geo a)
                        (ag_params a) (ag_goal a) (Some c)) l.

(** 235-238 update_agent_ids *)
Definition set_id (i : nat) (a : agent) : agent :=
  mkAgent i (ag_state a) (ag_beh a) (ag_dyn a) (ag_exe a) (ag_geo a) (ag_params a) (ag_goal a) (ag_corridor a).
Fixpoint update_ids (i : nat) (l : list agent) : list agent :=
  match l with [] => [] | a :: r => set_id i a :: update_ids (S i) r end.
Definition update_agent_ids (l : list agent) : list agent := update_ids 0 l.

(** 222: [i for i, val in enumerate(controlled_agent_ids_all) if val] *)
Fixpoint flagged (i : nat) (l : list bool) : list nat :=
  match l with [] => [] | b :: r => (if b then [i] else []) ++ flagged (S i) r end.

(** Monadic plumbing: an exception leaves the method at once. *)
Definition gbind {A B} (m : call A) (k : A -> call B) : call B :=
  fun e => match m e with (e1, inl a) => k a e1 | (e1, inr x) => (e1, inr x) end.
Definition gret {A} (a : A) : call A := fun e => (e, inl a).
Definition glift {A} (r : gres A) : call A := fun e => (e, r).

(** 131-148, first loop: corridor, states and geometries of every source. *)
Fixpoint collect (idx : nat) (srcs : list source) : call (list (source * Cor * list St * list Geo * kwargs)) :=
  match srcs with
  | [] => gret []
  | s :: r =>
      gbind (glift (src_corridor s)) (fun c =>
      gbind (rd_states s idx c) (fun x =>
      gbind (collect idx r) (fun l =>
      gret ((s, c, fst (fst x), snd (fst x), snd x) :: l))))
  end.

(** 152-218, body of the second loop for a source with at least one agent. *)
Definition one_source (idx : nat) (s : source) (c : Cor) (sts : list St) (gs : list Geo) (kw : kwargs)
    : call (list agent * list bool) :=
  gbind (rd_beh s idx c sts kw) (fun b => let kw1 := dupdate kw (snd b) in
  gbind (rd_exe s idx c sts kw1) (fun x => let kw2 := dupdate kw1 (snd x) in
  gbind (rd_dyn s idx c sts kw2) (fun d => let kw3 := dupdate kw2 (snd d) in
  gbind (rd_ctrl s idx c sts kw3) (fun k => let kw4 := dupdate kw3 (snd k) in
  gbind (rd_goal s idx c sts (fst k) kw4) (fun g =>
  gbind (glift (create_source_config_agents sts gs (fst b) (fst x) (fst d) (fst g) (fst k) (src_params s)))
    (fun ags => gret (update_road_corridors ags c, fst k))))))).

(** 150-218, second loop. *)
Fixpoint second_loop (idx : nat) (l : list (source * Cor * list St * list Geo * kwargs))
    : call (list agent * list bool) :=
  match l with
  | [] => gret ([], [])
  | (s, c, sts, gs, kw) :: r =>
      if length sts =? 0 then second_loop idx r
      else gbind (one_source idx s c sts gs kw) (fun x =>
           gbind (second_loop idx r) (fun y => gret (fst x ++ fst y, snd x ++ snd y)))
  end.

(** 119-229 create_single_scenario; [obs] is the observer reader. *)
Definition create_single (idx : nat) (srcs : list source) (obs : nat -> call Obs) : call scenario :=
  gbind (collect idx srcs) (fun l =>
  gbind (second_loop idx l) (fun x =>
  gbind (obs idx) (fun o =>
  gret (mkScenario (update_agent_ids (fst x)) (flagged 0 (snd x)) o)))).

(** 107-117 create_scenarios: scenarios idx, idx+1, ..., idx+n-1. *)
Fixpoint create_from (idx n : nat) (srcs : list source) (obs : nat -> call Obs) : call (list scenario) :=
  match n with
  | 0 => gret []
  | S n => gbind (create_single idx srcs obs) (fun s =>
           gbind (create_from (S idx) n srcs obs) (fun l => gret (s :: l)))
  end.
Definition create_scenarios (n : nat) (srcs : list source) (obs : nat -> call Obs) : call (list scenario) :=
  create_from 0 n srcs obs.

(** 110-111 with scenario_generation.py 16: the cursor get_next_scenario finds after
    a generator for [n] scenarios was constructed. *)
Definition cursor_after (n : nat) : nat := match n with 0 => 0 | S k => k end.

End Gen.

(* ------------------------------------------------------------------ *)
(** * Overlaps between sources, 240-379 *)

Section Overlap.
Context {St Geo : Type}.

(** An agent is named by its source and its index in the source's lists. *)
Definition name := (nat * nat)%type.
Definition name_eqb (a b : name) : bool := (fst a =? fst b) && (snd a =? snd b).

(** collected_sources_sinks_agent_states_geometries *)
Definition collected := list (list St * list Geo).

(** The agents in the order of the two nested loops. *)
Fixpoint names_of (i j : nat) (n : nat) : list name :=
  match n with 0 => [] | S n => (i, j) :: names_of i (S j) n end.
Fixpoint names_from (i : nat) (l : collected) : list name :=
  match l with [] => [] | (sts, _) :: r => names_of i 0 (length sts) ++ names_from (S i) r end.
Definition names (l : collected) : list name := names_from 0 l.

(** collisions: a defaultdict from a pair of source indices to recorded collisions. *)
Definition key := (nat * nat)%type.
Definition coll := list (key * list (name * name)).

Fixpoint cget (d : coll) (k : key) : option (list (name * name)) :=
  match d with [] => None | (j, v) :: r => if name_eqb j k then Some v else cget r k end.
Fixpoint cset (d : coll) (k : key) (v : list (name * name)) : coll :=
  match d with
  | [] => [(k, v)]
  | (j, w) :: r => if name_eqb j k then (k, v) :: r else (j, w) :: cset r k v
  end.

(** Geometry: do the bounding boxes overlap, do the shapes collide (each for the
    shapes placed at the agents' poses), and in which order the tree lists overlaps. *)
Variable collide : name -> name -> bool.
Variable overlap_values : name -> list name.

(** 279-284: which key is used *)
Definition pick_key (d : coll) (a o : name) : key :=
  let key1 := (fst a, fst o) in let key2 := (fst o, fst a) in
  match cget d key1 with
  | Some _ => key1
  | None => match cget d key2 with Some _ => key2 | None => key1 end
  end.

(** 270-304, body for one overlap; None: ValueError *)
Definition step_overlap (d : coll) (a o : name) : option coll :=
  if fst a =? fst o then (if snd a =? snd o then Some d else None)
  else
    let k := pick_key d a o in
    let pc := match cget d k with Some v => v | None => [] end in
    let d0 := cset d k pc in     (* reading a defaultdict creates the entry *)
    if existsb (fun c => name_eqb o (fst c)) pc then Some d0
    else if collide a o then Some (cset d k (pc ++ [(a, o)])) else Some d0.

Fixpoint fold_opt {A B} (f : A -> B -> option A) (a : A) (l : list B) : option A :=
  match l with [] => Some a | b :: r => match f a b with None => None | Some a' => fold_opt f a' r end end.

(** 257-306 *)
Definition find_overlaps (l : collected) : option coll :=
  fold_opt (fun d a => fold_opt (fun d o => step_overlap d a o) d (overlap_values a)) [] (names l).
End Overlap.

(* ------------------------------------------------------------------ *)

(** A number in a ConflictResolution entry: Python int or float. *)
Inductive num := PInt (z : Z) | PFloat (q : Q).
Definition num_val (n : num) : Q := match n with PInt z => inject_Z z | PFloat q => q end.

(** ConflictResolution: from "desc1/desc2" to a pair. *)
Definition resolutions := dct (num * num).

(** 395-397 conflict_resolution_key_from_src_conf_desc *)
Definition res_key (d1 d2 : string) : string := String.append d1 (String.append "/" d2).

(** 357-386 parse_conflict_resolution.  The message of line 367 names description2,
    which does not exist: NameError. *)
Definition parse_resolution (r : resolutions) (d1 d2 : string) : gres (Q * Q * bool) :=
  let fin a b :=
    match a, b with
    | PInt x, PInt y => inl (inject_Z x, inject_Z y, false)
    | PFloat x, PFloat y => inl (x, y, true)
    | _, _ => inr ValueError
    end in
  match dget r (res_key d1 d2) with
  | Some (a, b) => fin a b
  | None => match dget r (res_key d2 d1) with
            | Some (a, b) => fin b a
            | None => inr NameError
            end
  end.

(** must_delete: source index -> agent indices *)
Definition dels := list (nat * list nat).
Fixpoint dels_get (d : dels) (k : nat) : list nat :=
  match d with [] => [] | (j, v) :: r => if j =? k then v else dels_get r k end.
Fixpoint dels_put (d : dels) (k : nat) (v : list nat) : dels :=
  match d with
  | [] => [(k, v)]
  | (j, w) :: r => if j =? k then (k, v) :: r else (j, w) :: dels_put r k v
  end.
(** "if not i in must_delete[k]: must_delete[k].append(i)" *)
Definition mark (d : dels) (a : name) : dels :=
  let old := dels_get d (fst a) in
  if existsb (Nat.eqb (snd a)) old then dels_put d (fst a) old else dels_put d (fst a) (old ++ [snd a]).

(** 333-344 for one collision and one sample *)
Definition mark_pair (r1 r2 sample : Q) (d : dels) (c : name * name) : dels :=
  if Qle_bool 0 sample && Qle_bool sample r1 then mark d (fst c)
  else if negb (Qle_bool sample r1) && Qle_bool sample (r1 + r2) then mark d (snd c)
  else mark (mark d (fst c)) (snd c).

(** 325-344: the collisions of one key; [smp] is the stream of np.random.rand. *)
Fixpoint mark_all (r1 r2 : Q) (smp : nat -> Q) (k : nat) (d : dels) (l : list (name * name)) : nat * dels :=
  match l with
  | [] => (k, d)
  | c :: r => mark_all r1 r2 smp (S k) (mark_pair r1 r2 (smp k) d c) r
  end.

(** 309-344 *)
Fixpoint mark_keys (descs : list string) (rs : resolutions) (smp : nat -> Q) (k : nat) (d : dels) (cs : coll)
    : gres dels :=
  match cs with
  | [] => inl d
  | ((i, j), l) :: r =>
      match nth_error descs i, nth_error descs j with
      | Some di, Some dj =>
          match parse_resolution rs di dj with
          | inr x => inr x
          | inl (r1, r2, prob) =>
              if prob then let m := mark_all r1 r2 smp k d l in mark_keys descs rs smp (fst m) (snd m) r
              else inr NotImplementedError
          end
      | _, _ => inr IndexError
      end
  end.

(** del l[i] *)
Fixpoint del_at {A} (l : list A) (i : nat) : gres (list A) :=
  match l, i with
  | [], _ => inr IndexError
  | _ :: r, 0 => inl r
  | x :: r, S i => match del_at r i with inl r' => inl (x :: r') | inr e => inr e end
  end.

(** sorted(l, reverse=True) *)
Fixpoint insert_desc (x : nat) (l : list nat) : list nat :=
  match l with [] => [x] | y :: r => if y <=? x then x :: l else y :: insert_desc x r end.
Definition sort_desc (l : list nat) : list nat := fold_right insert_desc [] l.

Section Delete.
Context {St Geo : Type}.

(** 346-352, for one source *)
Fixpoint del_both (sts : list St) (gs : list Geo) (is_ : list nat) : gres (list St * list Geo) :=
  match is_ with
  | [] => inl (sts, gs)
  | i :: r => match del_at sts i with
              | inr e => inr e
              | inl sts' => match del_at gs i with
                            | inr e => inr e
                            | inl gs' => del_both sts' gs' r
                            end
              end
  end.

Fixpoint replace_nth {A} (l : list A) (i : nat) (x : A) : list A :=
  match l, i with [], _ => [] | _ :: r, 0 => x :: r | y :: r, S i => y :: replace_nth r i x end.

Fixpoint apply_dels (l : list (list St * list Geo)) (d : dels) : gres (list (list St * list Geo)) :=
  match d with
  | [] => inl l
  | (i, is_) :: r =>
      match nth_error l i with
      | None => inr IndexError
      | Some (sts, gs) =>
          match del_both sts gs (sort_desc is_) with
          | inr e => inr e
          | inl x => apply_dels (replace_nth l i x) r
          end
      end
  end.

(** 308-355 delete_overlaps_in_sources_sinks_agents *)
Definition delete_overlaps (descs : list string) (rs : resolutions) (smp : nat -> Q)
    (l : list (list St * list Geo)) (cs : coll) : gres (list (list St * list Geo)) :=
  match mark_keys descs rs smp 0 [] cs with
  | inr e => inr e
  | inl d => apply_dels l d
  end.

(** 240-250 resolve_overlaps_in_sources_sinks_agents *)
Definition resolve_overlaps (collide : name -> name -> bool) (overlap_values : name -> list name)
    (descs : list string) (rs : resolutions) (smp : nat -> Q) (l : list (list St * list Geo))
    : gres (list (list St * list Geo)) :=
  match find_overlaps collide overlap_values l with
  | None => inr ValueError
  | Some cs => delete_overlaps descs rs smp l cs
  end.
End Delete.
