(** Model of bark/models/behavior/motion_primitives: continuous_actions.cpp, macro_actions.cpp,
    random_macro_actions.hpp, primitives/*.{hpp,cpp} and param_config. [None]: an exception, LOG(FATAL), a null
    dereference, an index out of range or an Eigen assertion.
    Simplifications: primitives are values in a list (in the code they are shared pointers: a clone of a behavior
    shares them with the original); a road corridor exists; equality of behaviors is in Model_MacroEq. *)
From Coq Require Import Reals List Bool ZArith Arith.
From Verif Require Import Base_Real Base_Ext Base_Geom Model_Line Model_Frenet Model_Dynamic Model_IDM.
Import ListNotations.
Local Open Scope R_scope.

(* ------------------------------------------------------------------------- continuous actions *)
(** continuous_actions.cpp:30-42, the loop: [n] rows are still to be computed, the next one has index [i]. The
    last step takes the rest of the time. A row has MIN_STATE_SIZE = 5 entries (dynamic_model.hpp:30).
    GetAction (continuous_actions.hpp:35-37) is called in every step; boost::get throws if the active motion is
    not a DiscreteAction, operator[] beyond the end is undefined. *)
Definition mp_input (us : list vec) (active : action) : option vec :=
  match active with DiscreteAction i => nth_error us i | _ => None end.
Fixpoint mp_rows (m : dyn_model) (us : list vec) (active : action) (dt T : R) (i : nat) (prev : vec) (n : nat)
  : option (list vec) :=
  match n with
  | O => Some []
  | S n' =>
    let step := match n' with O => T - (INR i - 1) * dt | S _ => dt end in
    bind (mp_input us active) (fun u =>
    bind (euler_int m prev u step) (fun nxt =>
      if Nat.eqb (length nxt) 5 then
        bind (mp_rows m us active dt T (S i) nxt n') (fun r => Some (nxt :: r))
      else None))
  end.
(** continuous_actions.cpp:19-47, BehaviorMPContinuousActions::Plan: the trajectory (also stored as last
    trajectory) and the last action, which is the active motion itself. *)
Definition mp_plan (m : dyn_model) (us : list vec) (active : action) (ego : vec) (dt T : R)
  : option (list vec * action) :=
  let n := (ceil (T / dt) + 1)%Z in
  if (n <=? 0)%Z then None
  else if Nat.eqb (length ego) 5 then
    bind (mp_rows m us active dt T 1 ego (Z.to_nat n - 1)) (fun r => Some (ego :: r, active))
  else None.
(** continuous_actions.cpp:49-53, AddMotionPrimitive: the new list and the index. *)
Definition mp_add (us : list vec) (u : vec) : list vec * nat := (us ++ [u], length us).

(* ------------------------------------------------------------------------- primitives *)
(** lane_corridor.hpp: here the identity and the center line. *)
Record corr : Type := mkCo { co_id : nat; co_center : line }.
(** What a primitive reads from the observed world: the ego state, the world time, the ego's single track model (or
    [None] for another model), ObservedWorld::GetLaneCorridor (observed_world.cpp:76-89), the road corridor's
    GetCurrentLaneCorridor and GetLeftRightLaneCorridor at the point of the given corridor's center line nearest
    to the ego, and the agent in front (as in Model_IDM). *)
Record pworld : Type := mkPW {
  pw_ego : vec; pw_time : R; pw_model : option st_params;
  pw_lane : option corr; pw_current : option corr; pw_sides : corr -> option corr * option corr;
  pw_front : option (R * R * action) }.
Definition pw_pos (w : pworld) : option pt :=
  bind (at_ (pw_ego w) 1) (fun x => bind (at_ (pw_ego w) 2) (fun y => Some (x, y))).
(** primitive.hpp:34-38, AdjacentLaneCorridors. *)
Record adjacent : Type := mkAdj { a_current : option corr; a_left : option corr; a_right : option corr }.

(** The four primitives: PrimitiveConstAccStayLane (acceleration, restrict_brake_for_lane_end_),
    PrimitiveConstAccChangeToLeft / Right (the same and min_length_), PrimitiveGapKeeping. *)
Inductive pkind : Type :=
| StayLane (a : R) (restrict : bool)
| ChangeLeft (a : R) (restrict : bool) (min_length : R)
| ChangeRight (a : R) (restrict : bool) (min_length : R)
| GapKeeping.
(** A primitive object: kind, IDM parameters and lane tracking parameters of its base class, the acceleration
    limits it sets on the dynamic model (lat max, lat min, lon max, lon min), Primitive::last_action_ and the state of its
    BehaviorModel base. *)
Record prim : Type := mkPrim {
  p_kind : pkind; p_par : idm_params; p_gain : R; p_limit : bool; p_lim : R * R * R * R;
  p_last : action; p_beh : idm_state }.
Definition with_beh (p : prim) (last : action) (b : idm_state) : prim :=
  mkPrim (p_kind p) (p_par p) (p_gain p) (p_limit p) (p_lim p) last b.

(** lane_corridor.hpp:54-56, LengthUntilEnd. *)
Definition length_until_end (c : corr) (p : pt) : option R :=
  bind (get_nearest_s (co_center c) p) (fun s => Some (line_length (co_center c) - s)).

(** single_track.hpp, SetAccelerationLimits as called in idm_lane_tracking.cpp:49. *)
Definition with_limits (m : st_params) (l : R * R * R * R) : st_params :=
  let '(latmax, latmin, lonmax, lonmin) := l in mkSTP (wheel_base m) (delta_max m) latmax latmin lonmax lonmin.

(** primitive_const_acc_change_to_left.cpp:36-48 (and right): is there a neighbour with enough length left? *)
Definition side_long_enough (w : pworld) (side : option corr) (min_length : R) : option bool :=
  match side with
  | None => Some false
  | Some c =>
    bind (pw_pos w) (fun pos => bind (get_nearest_point (co_center c) pos) (fun p =>
    bind (length_until_end c p) (fun rem => Some (Rleb min_length rem))))
  end.
(** IsPreConditionSatisfied: primitive_const_acc_stay_lane.cpp:28-41, ..._change_to_left.cpp:32-49,
    ..._change_to_right.cpp:32-49, primitive_gap_keeping.hpp:30-34. *)
Definition prim_pre (p : prim) (w : pworld) (adj : adjacent) : option bool :=
  match p_kind p with
  | StayLane a _ =>
    bind (pw_model w) (fun m => bind (at_ (pw_ego w) 4) (fun v =>
      Some (Rleb (get_lon_acc_min m v) a && Rleb a (get_lon_acc_max m v))))
  | ChangeLeft _ _ ml => side_long_enough w (a_left adj) ml
  | ChangeRight _ _ ml => side_long_enough w (a_right adj) ml
  | GapKeeping => Some true
  end.
(** SelectTargetCorridor: ..._stay_lane.cpp:120-127, ..._left.cpp:16-31, ..._right.cpp:16-31,
    primitive_gap_keeping.hpp:49-54. *)
Definition or_current (w : pworld) (side : option corr) (adj : adjacent) : option corr :=
  match side with
  | Some c => Some c
  | None => match a_current adj with Some c => Some c | None => pw_current w end
  end.
Definition prim_select (p : prim) (w : pworld) (adj : adjacent) : option corr :=
  match p_kind p with
  | StayLane _ _ => a_current adj
  | ChangeLeft _ _ _ => or_current w (a_left adj) adj
  | ChangeRight _ _ _ => or_current w (a_right adj) adj
  | GapKeeping => pw_current w
  end.

(** ..._stay_lane.cpp:78-118, CalcRelativeValues: only the lane end counts. *)
Definition lane_end_values (par : idm_params) (until_end : R) (ego_action : action) : option rel_values :=
  let '(dist, vel, act) :=
    if brake_lane_end par then
      let '(req, len) := distance_to_lane_ending par until_end in
      if req then (len, 0, true) else (0, 1000000, false)
    else (0, 1000000, false) in
  bind (lon_acc_of ego_action) (fun _ => Some (mkRV dist vel 0 act)).
(** ..._stay_lane.cpp:129-142, GetTotalAcc. *)
Definition prim_source (par : idm_params) (a : R) (restrict : bool) (vel0 : R) (rv : rel_values) : acc_source :=
  fun rel dt =>
    if restrict then bind (total_acc par vel0 rv rel dt) (fun r => Some (emin (fst r) (Fin a), snd r))
    else Some (Fin a, Fin rel).
(** ..._stay_lane.cpp:43-76, Plan. *)
Definition const_acc_plan (p : prim) (a : R) (restrict : bool) (w : pworld) (T : R) (target : option corr)
  : option (prim * list vec) :=
  match target with
  | None =>
    Some (with_beh p (p_last p) (mkIS EXPIRED (i_traj (p_beh p)) (i_action (p_beh p))), i_traj (p_beh p))
  | Some c =>
    bind (at_ (pw_ego w) 4) (fun v0 =>
    bind (if restrict then
            bind (pw_pos w) (fun pos => bind (length_until_end c pos) (fun until_end =>
              lane_end_values (p_par p) until_end (i_action (p_beh p))))
          else Some (mkRV 0 0 0 false)) (fun rv =>
    bind (pw_model w) (fun m =>
    bind (tracking_trajectory (p_par p) (with_limits m (p_lim p)) (p_gain p) (p_limit p)
            (prim_source (p_par p) a restrict v0 rv) (co_center c) (pw_ego w) (pw_time w)
            (leading_distance rv) (idm_dt (p_par p) T)) (fun r =>
      Some (with_beh p (snd r) (mkIS VALID (fst r) (snd r)), fst r)))))
  end.
(** primitive_gap_keeping.hpp:35-41, Plan: the target corridor is not used. *)
Definition gap_plan (p : prim) (w : pworld) (T : R) : option (prim * list vec) :=
  bind (pw_model w) (fun m =>
  bind (match pw_lane w with
        | None => Some None
        | Some c => bind (pw_pos w) (fun pos => bind (length_until_end c pos) (fun u => Some (Some (co_center c, u))))
        end) (fun lane =>
  bind (idm_plan (p_par p) (tracking_trajectory (p_par p) (with_limits m (p_lim p)) (p_gain p) (p_limit p))
          (p_beh p) (pw_ego w) (pw_time w) T lane (pw_front w)) (fun r =>
    Some (with_beh p (i_action (fst r)) (fst r), snd r)))).
Definition prim_plan (p : prim) (w : pworld) (T : R) (target : option corr) : option (prim * list vec) :=
  match p_kind p with
  | StayLane a r | ChangeLeft a r _ | ChangeRight a r _ => const_acc_plan p a r w T target
  | GapKeeping => gap_plan p w T
  end.

(* ------------------------------------------------------------------------- macro actions *)
(** macro_actions.hpp:61-64 with the members of its base classes. *)
Record macro : Type := mkMA {
  ma_prims : list prim; ma_valid : list nat; ma_check : bool; ma_target : option corr;
  ma_active : action; ma_last : action; ma_traj : list vec; ma_status : bstatus }.

(** macro_actions.cpp:82-96, GetCorridors: the target corridor and the adjacent ones. *)
Definition ma_corridors (s : macro) (w : pworld) : option (corr * adjacent) :=
  bind (match ma_target s with Some c => Some c | None => pw_lane w end) (fun c =>
    let '(l, r) := pw_sides w c in Some (c, mkAdj (Some c) l r)).
(** macro_actions.cpp:97-115, GetNumMotionPrimitivesByCorridors with the check on: indices of the primitives whose
    precondition holds. *)
Fixpoint valid_from (i : nat) (ps : list prim) (w : pworld) (adj : adjacent) : option (list nat) :=
  match ps with
  | [] => Some []
  | p :: r =>
    bind (prim_pre p w adj) (fun ok => bind (valid_from (S i) r w adj) (fun l => Some (if ok then i :: l else l)))
  end.
Definition replace {A} (l : list A) (i : nat) (x : A) : list A := firstn i l ++ x :: skipn (S i) l.
(** macro_actions.cpp:34-72, Plan. *)
Definition ma_plan (s : macro) (w : pworld) (T : R) : option (macro * list vec) :=
  bind (ma_corridors s w) (fun ca => let '(c, adj) := ca in
  bind (if ma_check s then
          match ma_valid s with [] => valid_from 0 (ma_prims s) w adj | v => Some v end
        else Some (ma_valid s)) (fun valid =>
  match ma_active s with
  | DiscreteAction i =>
    bind (if ma_check s then nth_error valid i else Some i) (fun j =>
    bind (nth_error (ma_prims s) j) (fun p =>
    let target := prim_select p w adj in
    bind (prim_plan p w T target) (fun pt =>
    let prims := replace (ma_prims s) j (fst pt) in
    bind (nth_error prims i) (fun q =>
      Some (mkMA prims valid (ma_check s) target (ma_active s) (p_last q) (snd pt) VALID, snd pt)))))
  | _ => None
  end)).
(** macro_actions.cpp:28-32, AddMotionPrimitive; macro_actions.hpp:44, ClearMotionPrimitives;
    motion_primitives.hpp:47-49, ActionToBehavior. *)
Definition ma_add (s : macro) (p : prim) : macro * nat :=
  (mkMA (ma_prims s ++ [p]) (ma_valid s) (ma_check s) (ma_target s) (ma_active s) (ma_last s) (ma_traj s) (ma_status s), length (ma_prims s)).
Definition ma_clear (s : macro) : macro :=
  mkMA [] (ma_valid s) (ma_check s) (ma_target s) (ma_active s) (ma_last s) (ma_traj s) (ma_status s).
Definition ma_act (s : macro) (a : action) : macro :=
  mkMA (ma_prims s) (ma_valid s) (ma_check s) (ma_target s) a (ma_last s) (ma_traj s) (ma_status s).
(** macro_actions.cpp:77-81 and 116-121. *)
Definition ma_num (s : macro) : nat := length (ma_prims s).
Definition ma_valid_primitives (s : macro) : list nat := ma_valid s.
(** macro_actions.cpp:19-26 and motion_primitives.hpp:32-38: a new behavior. *)
Definition ma_new (check : bool) (ps : list prim) : macro :=
  mkMA ps [] check None (DiscreteAction 0) (DiscreteAction 0) [] VALID.
(** random_macro_actions.hpp:39-45, Plan; [draw n] is the value drawn from 0..n. *)
Definition random_plan (draw : Z -> Z) (s : macro) (w : pworld) (T : R) : option (macro * list vec) :=
  let hi := (Z.of_nat (length (ma_prims s)) - 1)%Z in
  if (hi <? 0)%Z then None
  else ma_plan (ma_act s (DiscreteAction (Z.to_nat (draw hi)))) w T.

(** A history of calls. *)
Inductive mop : Type := OAdd (p : prim) | OClear | OAct (a : action) | OPlan (w : pworld) (T : R).
Definition mstep (s : macro) (o : mop) : option macro :=
  match o with
  | OAdd p => Some (fst (ma_add s p))
  | OClear => Some (ma_clear s)
  | OAct a => Some (ma_act s a)
  | OPlan w T => bind (ma_plan s w T) (fun r => Some (fst r))
  end.
Fixpoint mrun (s : macro) (os : list mop) : option macro :=
  match os with [] => Some s | o :: r => bind (mstep s o) (fun s' => mrun s' r) end.

(** behav_macro_actions_from_param_server.hpp:38-79: the primitives in the order in which they are added. [stay] and the other
    arguments build a primitive from the parameters. *)
Definition from_params (stay : R -> prim) (left right gap : prim) (accs : list R) (add_lane_changes add_gap : bool) : list prim :=
  map stay accs ++ (if add_lane_changes then [left; right] else []) ++ (if add_gap then [gap] else []).
