(** Model of bark/world/evaluation/rss/{rss_interface,evaluator_rss,safety_polygon} and of
    bark/models/behavior/{behavior_rss,behavior_safety} (with RSS enabled), over the real numbers.
    The RSS library (ad-rss-lib) and the map matching are external: they enter as arguments. Routes and match
    objects and the world-model creation: Model_RssWorld. [None]: undefined behaviour, an exception or abort. *)
From Coq Require Import Reals List Bool Arith NArith.
From Verif Require Import Base_Real Base_Geom Model_Map Model_Angle Model_Line Model_Frenet Model_Dynamic Model_IDM.
Import ListNotations.
Local Open Scope R_scope.

(* ------------------------------------------------------------------------- verdicts *)
(** One entry of RssStateSnapshot::individualResponses: the object, the library's isDangerous, isLongitudinalSafe,
    isLateralSafe, the safe distances (longitudinal, left, right) and the current longitudinal distance. *)
Record rss_state : Type := mkRss { rs_object : N; rs_dangerous : bool; rs_lon_safe : bool; rs_lat_safe : bool;
                                   rs_lon : R; rs_left : R; rs_right : R; rs_curr : R }.
Definition snapshot : Type := list rss_state.

(** rss_interface.cpp:375-382, ExtractSafetyEvaluation. *)
Definition extract_safety (s : snapshot) : bool :=
  fold_left (fun safe st => safe && negb (rs_dangerous st)) s true.
(** rss_interface.cpp:384-392, ExtractPairwiseSafetyEvaluation (an unordered_map, here keyed by object). *)
Definition extract_pairwise (s : snapshot) : kmap bool :=
  fold_left (fun m st => m_insert (rs_object st) (negb (rs_dangerous st)) m) s [].
(** rss_interface.cpp:394-404, ExtractPairwiseDirectionalSafetyEvaluation. *)
Definition extract_directional (s : snapshot) : kmap (bool * bool) :=
  fold_left (fun m st => m_insert (rs_object st) (rs_lon_safe st, rs_lat_safe st) m) s [].

(** safety_polygon.hpp:36-49 *)
Record safety_polygon : Type := mkSP { sp_left : R; sp_right : R; sp_lon : R; sp_poly : list pt; sp_agent : N; sp_curr : R }.

Section Evaluator.
  (** World: an observed world; WM: the RSS world model; Resp: ProperResponse. *)
  Variables World WM Resp : Type.
  (** GenerateRSSWorld (rss_interface.cpp:406-440), [None]: it returns false. *)
  Variable gen : World -> option WM.
  (** RssCheck::calculateProperResponse on fresh output objects: the result, the state snapshot and the new proper response as
      the library leaves them; [None] for the response: left as it was. *)
  Variable calc : WM -> bool * snapshot * option Resp.

  (** RssInterface: rss_proper_response_ and rss_state_snapshot_. *)
  Record iface : Type := mkIf { if_resp : Resp; if_snap : snapshot }.
  (** rss_interface.cpp:358-373, RssCheck: its result is not used by the callers. *)
  Definition rss_check (i : iface) (wm : WM) : iface * snapshot :=
    let '(_, s, r) := calc wm in (mkIf (match r with Some x => x | None => if_resp i end) (if_snap i), s).
  (** rss_interface.cpp:442-453, GetSafetyReponse. *)
  Definition get_safety (i : iface) (w : World) : iface * option bool :=
    match gen w with
    | None => (i, None)
    | Some wm => let '(i', s) := rss_check i wm in (mkIf (if_resp i') s, Some (extract_safety s))
    end.
  (** rss_interface.cpp:455-466, GetPairwiseSafetyReponse. *)
  Definition get_pairwise (i : iface) (w : World) : iface * kmap bool :=
    match gen w with
    | None => (i, [])
    | Some wm => let '(i', s) := rss_check i wm in (mkIf (if_resp i') s, extract_pairwise s)
    end.
  (** rss_interface.cpp:468-482, GetPairwiseDirectionalSafetyReponse. *)
  Definition get_directional (i : iface) (w : World) : iface * kmap (bool * bool) :=
    match gen w with
    | None => (i, [])
    | Some wm => let '(i', s) := rss_check i wm in (i', extract_directional s)
    end.

  (** EvaluatorRSS (evaluator_rss.hpp:147-153). *)
  Record evaluator : Type := mkEv { ev_if : iface; ev_resp : Resp; ev_snap : snapshot; ev_polys : list safety_polygon }.
  (** evaluator_rss.hpp:85-96, GenerateSafetyPolygons. *)
  Definition poly_of (st : rss_state) : safety_polygon :=
    mkSP (rs_left st) (rs_right st) (rs_lon st) [] (rs_object st) (rs_curr st).
  (** evaluator_rss.hpp:98-103, Evaluate(ObservedWorld): what is kept is read before the check. *)
  Definition evaluate_observed (e : evaluator) (w : World) : evaluator * option bool :=
    let r := if_resp (ev_if e) in
    let s := if_snap (ev_if e) in
    let '(i', v) := get_safety (ev_if e) w in
    (mkEv i' r s (map poly_of s), v).
  (** evaluator_rss.hpp:56-71, Evaluate(World): [observe]: the observed world of the agent, [None]: the agent is not in the world. *)
  Definition evaluate_world (e : evaluator) (observe : option World) : evaluator * option bool :=
    match observe with
    | None => (e, Some false)
    | Some w => let '(i', v) := get_safety (ev_if e) w in (mkEv i' (ev_resp e) (ev_snap e) (ev_polys e), v)
    end.
  (** Successive evaluations: the reported verdicts and the kept responses after each. *)
  Fixpoint evaluate_all (e : evaluator) (ws : list World) : list (option bool * Resp) :=
    match ws with
    | [] => []
    | w :: r => let '(e', v) := evaluate_observed e w in (v, ev_resp e') :: evaluate_all e' r
    end.
End Evaluator.
Arguments mkIf {Resp}. Arguments if_resp {Resp}. Arguments if_snap {Resp}.
Arguments mkEv {Resp}. Arguments ev_if {Resp}. Arguments ev_resp {Resp}. Arguments ev_snap {Resp}. Arguments ev_polys {Resp}.
Arguments iface : clear implicits. Arguments evaluator : clear implicits.

(* ------------------------------------------------------------------------- relevant agents *)
(** rss_interface.cpp:113-127, CalculateAngularVelocity on the history of (time, theta); [None]: division by zero. *)
Definition angular_velocity (pi : R) (fl : R -> R) (h : list (R * R)) : option R :=
  match rev h with
  | (t1, th1) :: (t0, th0) :: _ => if Reqb (t1 - t0) 0 then None else Some (SignedAngleDiff pi fl th1 th0 / (t1 - t0))
  | _ => Some 0
  end.
(** RssDynamics, the fields used (rss_interface.cpp:83-97). *)
Record rss_dyn : Type := mkDyn { d_acc_lon : R; d_acc_lat : R; d_brake_min : R; d_brake_max : R; d_response : R }.
Section Stopping.
  (** calculateAcceleratedLimitedMovement(speed, max speed, acceleration, duration): speed and distance;
      calculateStoppingDistance(speed, deceleration); [None]: it returns false and leaves its outputs. *)
  Variable moved : R -> R -> R -> option (R * R).
  Variable stopped : R -> R -> option R.
  (** rss_interface.cpp:232-261, CalculateMaxStoppingDistance. *)
  Definition max_stopping (v : R) (d : rss_dyn) : R :=
    let acc := Rmax (d_acc_lon d) (d_acc_lat d) in
    let brake := Rmin (d_brake_min d) (d_brake_max d) in
    match moved (Rabs v) acc (d_response d) with
    | None => 50 + 50
    | Some (v', dist) => match stopped (Rabs v') brake with Some b => dist + b | None => dist + 50 end
    end.
  (** rss_interface.cpp:263-288, GetRelevantAgents: agents as (key, id, position, speed) in map order. *)
  Definition relevant_agents (agents : list (N * (pt * R))) (ego_center : pt) (ego : N) (ego_stop : R) (d : rss_dyn) (scaling : R) : list N :=
    map fst (filter (fun a => negb (N.eqb (fst a) ego) &&
      Rltb (dist ego_center (fst (snd a))) ((ego_stop + max_stopping (snd (snd a)) d) * scaling)) agents).
End Stopping.
(** The kinematic formulas of the library (RssFormulas.cpp), for valid inputs and without the speed limit. *)
Definition kin_moved (v a t : R) : option (R * R) := Some (v + a * t, v * t + a * t * t / 2).
Definition kin_stopped (v b : R) : option R := if Rltb b 0 then Some (v * v / (2 * - b)) else None.

(* ------------------------------------------------------------------------- safety polygon *)
Inductive lon_mode : Type := AUTO | FRONT | BEHIND | FRONT_BEHIND.
(** safety_polygon.hpp:95-115: the two signs of a polygon point; B_PI is exact (see Model_Frenet). *)
Definition sgn_lat (ego : pt) (theta : R) (p : pt) : R :=
  if Rltb 0 (sad theta (atan2 (snd ego - snd p) (fst ego - fst p))) then 1 else -1.
Definition sgn_lon (ego : pt) (theta : R) (p : pt) : R :=
  if Rltb 0 (sad (theta - PI / 2) (atan2 (snd ego - snd p) (fst ego - fst p))) then 1 else -1.
(** safety_polygon.hpp:110-121, the lateral shift. *)
Definition lat_shift (sp : safety_polygon) (ego : pt) (theta : R) (p : pt) : pt :=
  let s := sgn_lat ego theta p in
  let d := if Rltb s 0 then sp_left sp else sp_right sp in
  let a := if Rltb 0 s then theta - PI / 2 else theta + PI / 2 in
  if Rltb d 10000 then (fst p + d * cos a, snd p + d * sin a) else p.
(** safety_polygon.hpp:123-157, the longitudinal sign; [other]: position of the other agent (AUTO); [None]: there is none. The
    signs of [p] are those before the lateral shift. *)
Definition lon_sign (mode : lon_mode) (other : option pt) (ego : pt) (theta : R) (p : pt) : option R :=
  let s := sgn_lon ego theta p in
  match mode with
  | AUTO => match other with None => None | Some o => Some (if Rltb (sgn_lon ego theta o * s) 0 then 0 else s) end
  | FRONT => Some (if Rltb s 0 then 0 else s)
  | BEHIND => Some (if Rltb 0 s then 0 else s)
  | FRONT_BEHIND => Some s
  end.
(** safety_polygon.hpp:88-166, the new point. *)
Definition safety_point (sp : safety_polygon) (mode : lon_mode) (other : option pt) (ego : pt) (theta : R) (p : pt) : option pt :=
  match lon_sign mode other ego theta p with
  | None => None
  | Some s0 =>
      let s := if Rltb 10000 (sp_lon sp) then 0 else s0 in
      let q := lat_shift sp ego theta p in
      Some (fst q + s * sp_lon sp * cos theta, snd q + s * sp_lon sp * sin theta)
  end.
(** safety_polygon.hpp:71-169, ComputeSafetyPolygon: [ego]: position, heading and transformed polygon of the ego, [None]: no ego
    agent. The points are appended to the polygon. *)
Fixpoint add_points (sp : safety_polygon) (mode : lon_mode) (other : option pt) (ego : pt) (theta : R) (ps : list pt) (acc : list pt)
  : list pt * bool :=
  match ps with
  | [] => (acc, true)
  | p :: r => match safety_point sp mode other ego theta p with
              | None => (acc, false)
              | Some q => add_points sp mode other ego theta r (acc ++ [q])
              end
  end.
Definition compute_safety_polygon (sp : safety_polygon) (mode : lon_mode) (other : option pt) (ego : option (pt * R * list pt))
  : safety_polygon * bool :=
  match ego with
  | None => (sp, false)
  | Some (pos, theta, ps) =>
      let '(l, ok) := add_points sp mode other pos theta ps (sp_poly sp) in
      (mkSP (sp_left sp) (sp_right sp) (sp_lon sp) l (sp_agent sp) (sp_curr sp), ok)
  end.

(* ------------------------------------------------------------------------- restrictions *)
(** ad::rss::state::AccelerationRestriction: (minimum, maximum) ranges. *)
Record restriction : Type := mkRest { r_lon : R * R; r_left : R * R; r_right : R * R }.
(** bark/models/dynamic/single_track.hpp, AccelerationLimits. *)
Record acc_limits : Type := mkAL { al_lat_max : R; al_lat_min : R; al_lon_max : R; al_lon_min : R }.
(** behavior_rss.cpp:188-218: one street-side lateral bound in the vehicle frame. *)
Definition to_vehicle (acc_lon dt : R) (ego : dstate) (f last : fstate) (a : R) : option R :=
  lat_acc_street_to_vehicle a acc_lon dt (sth ego) (sv ego) (angle_road f) (angle_road last).
(** behavior_rss.cpp:151-262, ConvertRestrictions: [hist]: the ego's states, oldest first; [center]: the lane's centre line;
    [on_roadx]: the lateral limits are switched off and the ego polygon touches road x. Result: limits in the vehicle and in the
    street frame. [None]: empty history, undefined projection, action without an acceleration, division by zero. *)
Definition convert_restrictions (thr : R) (dt : R) (rest : restriction) (hist : list dstate) (center : line) (last_action : action)
    (on_roadx : bool) : option (acc_limits * acc_limits) :=
  match rev hist with
  | [] => None
  | cur :: _ =>
      let last_state := cur in
      match frenet_state cur center, frenet_state last_state center, lon_acc_of last_action with
      | Some f, Some fl, Some acc_lon =>
          match (if on_roadx then Some (1000, -1000, 1000, -1000) else
                   match to_vehicle acc_lon dt cur f fl (snd (r_left rest)), to_vehicle acc_lon dt cur f fl (fst (r_left rest)),
                         to_vehicle acc_lon dt cur f fl (snd (r_right rest)), to_vehicle acc_lon dt cur f fl (fst (r_right rest)) with
                   | Some a, Some b, Some c, Some d => Some (a, b, c, d)
                   | _, _, _, _ => None
                   end) with
          | None => None
          | Some (le_max, le_min, ri_max, ri_min) =>
              let lon_max := snd (r_lon rest) in
              let lon_min := fst (r_lon rest) in
              if Rltb thr (vlat f) then
                Some (mkAL le_max le_min lon_max lon_min, mkAL (snd (r_left rest)) (fst (r_left rest)) lon_max lon_min)
              else if Rltb (vlat f) (- thr) then
                Some (mkAL ri_max ri_min lon_max lon_min, mkAL (snd (r_right rest)) (fst (r_right rest)) lon_max lon_min)
              else
                Some (mkAL (Rmin le_max ri_max) (Rmax le_min ri_min) lon_max lon_min,
                      mkAL (Rmin (snd (r_left rest)) (snd (r_right rest))) (Rmax (fst (r_left rest)) (fst (r_right rest))) lon_max lon_min)
          end
      | _, _, _ => None
      end
  end.

(* ------------------------------------------------------------------------- the behaviour *)
Section Behavior.
  (** C: lane corridors (pointers); W: observed worlds; M: the rest of a lane tracking behaviour; E: evaluators. *)
  Variables C W M E Traj Act : Type.
  Variable ceqb : C -> C -> bool.
  (** BehaviorIDMLaneTracking with its constant corridor and acceleration limits (idm_lane_tracking.hpp): a new state. *)
  Record tracker : Type := mkTr { tr_model : M; tr_corr : option C; tr_limits : option acc_limits; tr_traj : Traj; tr_act : Act }.
  Variable track : tracker -> R -> W -> option tracker.
  (** Evaluator::Evaluate(observed world): [None]: its result is not an optional<bool> (boost::get throws). *)
  Variable evaluate : E -> W -> E * option (option bool).
  (** The limits of ConvertRestrictions for the response now kept by the evaluator, with the behaviour's last action; [None]: the
      evaluator is not an EvaluatorRSS (nothing is converted); [Some None]: undefined. *)
  Variable limits : E -> R -> Act -> W -> option (option (acc_limits * acc_limits)).
  Variable lane_corridor : W -> option C.               (* ObservedWorld::GetLaneCorridor *)
  Variable unique_corridors : W -> option (list C).     (* of the road corridor, None: it is null *)
  Variable length_until_end : C -> W -> option R.       (* LengthUntilEnd at the ego position *)
  Variable world_time : W -> R.

  (** What the shared pointers point to: trackers, evaluators. *)
  Record heap : Type := mkHeap { h_tr : nat -> tracker; h_ev : nat -> E }.
  Definition set_tr (h : heap) (i : nat) (t : tracker) : heap := mkHeap (fun j => if Nat.eqb j i then t else h_tr h j) (h_ev h).
  Definition set_ev (h : heap) (i : nat) (e : E) : heap := mkHeap (h_tr h) (fun j => if Nat.eqb j i then e else h_ev h j).

  (** behavior_safety.hpp:64-67 and the base members: the tracker used and initial_lane_corr_. *)
  Record safety : Type := mkSa { sa_tr : nat; sa_init : option C; sa_traj : Traj; sa_act : Act }.
  (** behavior_safety.cpp:21-44, BehaviorSafety::Plan. *)
  Definition safety_plan (s : safety) (h : heap) (dt : R) (w : W) : option (safety * heap) :=
    let t := h_tr h (sa_tr s) in
    match track (mkTr (tr_model t) (sa_init s) (tr_limits t) (tr_traj t) (tr_act t)) dt w with
    | None => None
    | Some t' => Some (mkSa (sa_tr s) (sa_init s) (tr_traj t') (tr_act t'), set_tr h (sa_tr s) t')
    end.

  Inductive rss_status : Type := SAFETY_BEHAVIOR | NOMINAL_BEHAVIOR.
  (** behavior_rss.hpp:186-212. Safety models are shared too (the cell [rb_safety] of a second heap); the nominal behaviour is a
      lane tracking model. Not modelled: roadx_polygon_, the stored responses. *)
  Record rss_params : Type := mkRP { rp_min_length : R; rp_nominal : bool; rp_safety : bool; rp_no_safety : bool }.
  Record rss_beh : Type := mkRB { rb_nominal : nat; rb_safety : nat; rb_eval : nat; rb_par : rss_params; rb_init : option C;
    rb_status : rss_status; rb_violation : R; rb_limits : acc_limits * acc_limits; rb_traj : Traj; rb_act : Act;
    rb_bstatus : bstatus }.
  (** Everything behind the pointers. *)
  Record store : Type := mkStore { st_heap : heap; st_safety : nat -> safety }.
  Definition set_sa (s : store) (i : nat) (x : safety) : store := mkStore (st_heap s) (fun j => if Nat.eqb j i then x else st_safety s j).
  Definition with_heap (s : store) (h : heap) : store := mkStore h (st_safety s).

  (** behavior_rss.cpp:33-46: the last unique corridor other than the ego's becomes the nominal model's constant corridor. *)
  Definition nominal_target (cur : option C) (cs : list C) (old : option C) : option C :=
    fold_left (fun acc c => if match cur with Some x => ceqb x c | None => false end then acc else Some c) cs old.
  (** behavior_rss.cpp:24-47: first call. [None]: null road corridor. *)
  Definition initialise (b : rss_beh) (s : store) (w : W) : option (rss_beh * store) :=
    match rb_init b with
    | Some _ => Some (b, s)
    | None =>
        match unique_corridors w with
        | None => None
        | Some cs =>
            let cur := lane_corridor w in
            let sa := st_safety s (rb_safety b) in
            let s1 := set_sa s (rb_safety b) (mkSa (sa_tr sa) cur (sa_traj sa) (sa_act sa)) in
            let t := h_tr (st_heap s1) (rb_nominal b) in
            let s2 := with_heap s1 (set_tr (st_heap s1) (rb_nominal b)
                        (mkTr (tr_model t) (nominal_target cur cs (tr_corr t)) (tr_limits t) (tr_traj t) (tr_act t))) in
            Some (mkRB (rb_nominal b) (rb_safety b) (rb_eval b) (rb_par b) cur (rb_status b) (rb_violation b) (rb_limits b)
                       (rb_traj b) (rb_act b) (rb_bstatus b), s2)
        end
    end.
  (** behavior_rss.cpp:60-67: near its end the safety corridor becomes the current one. [None]: the safety corridor is null. *)
  Definition update_corridor (b : rss_beh) (s : store) (w : W) : option store :=
    let sa := st_safety s (rb_safety b) in
    match sa_init sa with
    | None => None
    | Some c => match length_until_end c w with
                | None => None
                | Some len => Some (if Rleb len (rp_min_length (rb_par b))
                                    then set_sa s (rb_safety b) (mkSa (sa_tr sa) (lane_corridor w) (sa_traj sa) (sa_act sa)) else s)
                end
    end.
  (** ApplyRestrictionsToModel, behavior_rss.cpp:264-270. *)
  Definition restrict (h : heap) (i : nat) (l : acc_limits) : heap :=
    let t := h_tr h i in set_tr h i (mkTr (tr_model t) (tr_corr t) (Some l) (tr_traj t) (tr_act t)).

  (** behavior_rss.cpp:18-148, Plan. The limits applied are those kept in the behaviour (all zero before the first conversion,
      behavior_rss.hpp:73-74). *)
  Definition rss_plan (b0 : rss_beh) (s0 : store) (dt : R) (w : W) : option (rss_beh * store) :=
    bind (initialise b0 s0 w) (fun bs =>
    let b := fst bs in
    bind (update_corridor b (snd bs) w) (fun s =>
    match lane_corridor w with
    | None => Some (mkRB (rb_nominal b) (rb_safety b) (rb_eval b) (rb_par b) (rb_init b) (rb_status b) (rb_violation b) (rb_limits b)
                         (rb_traj b) (rb_act b) EXPIRED, s)
    | Some _ =>
        let '(e, r) := evaluate (h_ev (st_heap s) (rb_eval b)) w in
        bind r (fun verdict =>
        let s := with_heap s (set_ev (st_heap s) (rb_eval b) e) in
        bind (match limits e dt (rb_act b) w with None => Some (rb_limits b) | Some r => r end) (fun lim =>
        bind verdict (fun ok =>
        let status := if ok then NOMINAL_BEHAVIOR else SAFETY_BEHAVIOR in
        let viol := if ok then rb_violation b else world_time w in
        let done traj act s := Some (mkRB (rb_nominal b) (rb_safety b) (rb_eval b) (rb_par b) (rb_init b) status viol lim traj act VALID, s) in
        if ok || rp_no_safety (rb_par b) then
          let h := if rp_nominal (rb_par b) then restrict (st_heap s) (rb_nominal b) (fst lim) else st_heap s in
          bind (track (h_tr h (rb_nominal b)) dt w) (fun t' =>
          done (tr_traj t') (tr_act t') (with_heap s (set_tr h (rb_nominal b) t')))
        else
          let sa := st_safety s (rb_safety b) in
          let h := if rp_safety (rb_par b) then restrict (st_heap s) (sa_tr sa) (fst lim) else st_heap s in
          bind (safety_plan sa h dt w) (fun r =>
          done (sa_traj (fst r)) (sa_act (fst r)) (set_sa (with_heap s (snd r)) (rb_safety b) (fst r))))))
    end)).

  (** behavior_rss.hpp:214-218, Clone: the member-wise copy, all models behind pointers are shared. *)
  Definition clone_rss (b : rss_beh) : rss_beh := b.
End Behavior.
