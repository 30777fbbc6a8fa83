(* Vocabulary for MOBIL: the accelerations of the two vehicles concerned, read off the world. *)
From Coq Require Import List NArith ZArith QArith Qabs Bool Reals Qreals.
From Verif Require Import Base_Real Base_Ext Model_Map Model_World Model_FrontRear Spec_FrontRear Model_IDM Model_LaneChange Spec_LaneChange
  Model_Mobil.
Import ListNotations.
Local Open Scope R_scope.

Section Spec.
  Context {T : Types} (O : Ops T).
  Variable Corridor : Type.
  Variable cor_poly : Corridor -> tPoly T.
  Variable position : tState T -> tPoint T.
  Variable rel : Corridor -> tState T -> tShape T -> tState T -> tShape T -> frel.
  Variable velocity : tState T -> Q.
  Variable until_end : Corridor -> tPoint T -> Q.
  Variable p : idm_params.
  Variable m : mobil_params.
  Variables (w : world T) (ego : AgentId) (e : agent T) (s : tState T).
  Notation ahead := (ahead O Corridor cor_poly rel w ego e s).
  Notation behind := (behind O Corridor cor_poly rel w ego e s).
  Notation farthest_behind := (farthest_behind O Corridor cor_poly rel w ego e s).

  (* the closest agent ahead on [c] (smallest id on ties) *)
  Definition nearest_ahead (c : Corridor) (a : agent T) (d : frel) : Prop :=
    ahead c a d /\
    forall a' d', ahead c a' d' -> (r_lon d < r_lon d')%Q \/ ((r_lon d == r_lon d')%Q /\ (ag_id a <= ag_id a')%N).
  (* the distance used for it: never more than what remains of the corridor *)
  Definition front_dist (c : Corridor) (d : frel) : Q := qmin (until_end c (position s)) (r_lon d).

  (* the (unclamped) IDM acceleration of a vehicle with velocity [v] behind one with velocity [v_other] in distance
     [dist], and of a vehicle at [pos] with nothing ahead on [c] (but possibly the end of the lane) *)
  Definition follow (dist v v_other : Q) : ext := raw_idm_acc p (Q2R dist) (Q2R v) (Q2R v_other).
  Definition alone (c : Corridor) (pos : tPoint T) (v : Q) (x : ext) : Prop :=
    let len := Q2R (until_end c pos) - lane_end_offset p in
    (brake_lane_end p = true /\ len <= lane_end_enabled p /\ x = raw_idm_acc p len (Q2R v) 0) \/
    ((brake_lane_end p = false \/ lane_end_enabled p < len) /\ x = Fin (max_acc p) *! free_road_term p (Q2R v)).

  (* acceleration of the ego on corridor [c] *)
  Definition ego_acc (c : Corridor) (x : ext) : Prop :=
    (exists a d sa, nearest_ahead c a d /\ current_state a = Some sa /\
       x = follow (front_dist c d) (velocity s) (velocity sa)) \/
    ((forall a d, ~ ahead c a d) /\ alone c (position s) (velocity s) x).
  (* acceleration of the new follower on [c] (the agent farthest behind, see C10), 0 if there is none *)
  Definition follower_before (c : Corridor) (x : ext) : Prop :=
    ((forall b d, ~ behind c b d) /\ x = Fin 0) \/
    (exists b db sb, farthest_behind c b db /\ current_state b = Some sb /\
       ((exists a d sa, nearest_ahead c a d /\ current_state a = Some sa /\
           x = follow (front_dist c d - r_lon db)%Q (velocity sb) (velocity sa)) \/
        ((forall a d, ~ ahead c a d) /\ alone c (position sb) (velocity sb) x))).
  Definition follower_after (c : Corridor) (x : ext) : Prop :=
    ((forall b d, ~ behind c b d) /\ x = Fin 0) \/
    (exists b db sb, farthest_behind c b db /\ current_state b = Some sb /\
       x = follow (- r_lon db)%Q (velocity sb) (velocity s)).

  (* MOBIL's criteria for leaving [c0] for [c], with advantage [adv] of the ego *)
  Definition criteria (c0 c : Corridor) (adv : ext) : Prop :=
    exists old new before after,
      ego_acc c0 old /\ ego_acc c new /\ follower_before c before /\ follower_after c after /\
      adv = new -! old /\
      (* safety: the follower need not brake harder than allowed *)
      egeb (Fin (- mb_safe m)) after = false /\
      (* incentive *)
      eltb (Fin (mb_politeness m) *! (before -! after) +! Fin (mb_thr m)) adv = true /\
      eltb (Fin (-1000)) adv = true.
End Spec.

Section Best.
  Context {T : Types} (O : Ops T).
  Variable Corridor : Type.
  Variable cor_poly : Corridor -> tPoly T.
  Variable position : tState T -> tPoint T.
  Variable rel : Corridor -> tState T -> tShape T -> tState T -> tShape T -> frel.
  Variable velocity : tState T -> Q.
  Variable until_end : Corridor -> tPoint T -> Q.
  Variable p : idm_params.
  Variable m : mobil_params.
  Variables (w : world T) (ego : AgentId) (e : agent T) (s : tState T).
  (* [c] passes the gap filters of the rule-based lane change and MOBIL's criteria, with advantage [adv] *)
  Definition eligible (lp : lc_params) (c0 c : Corridor) (adv : ext) : Prop :=
    (exists x, admissible O Corridor cor_poly position rel velocity until_end w ego e s lp c x) /\
    criteria O Corridor cor_poly position rel velocity until_end p m w ego e s c0 c adv.
  (* [c] is the first one with the largest advantage among the eligible corridors of [cs] *)
  Definition best_eligible (lp : lc_params) (c0 : Corridor) (cs : list Corridor) (c : Corridor) (adv : ext) : Prop :=
    exists l1 l2, cs = l1 ++ c :: l2 /\ eligible lp c0 c adv /\
      (forall c' adv', In c' l1 -> eligible lp c0 c' adv' -> eltb adv' adv = true) /\
      (forall c' adv', In c' l2 -> eligible lp c0 c' adv' -> eltb adv adv' = false).
End Best.
