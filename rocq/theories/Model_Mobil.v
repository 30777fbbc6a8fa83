(** Model of bark/models/behavior/rule_based/mobil_behavior.{hpp,cpp}. Distances and velocities come from the world
    model as rationals and enter the IDM formulas (Model_IDM.v) as reals; accelerations are extended reals. The
    BARK_EXPECT_TRUE checks only print (bark/commons/util/util.hpp:17-41) and are left out. *)
From Coq Require Import List NArith ZArith QArith Qabs Bool Reals Qreals.
From Verif Require Import Base_Real Base_Ext Model_Map Model_World Model_FrontRear Model_IDM Model_LaneChange.
Import ListNotations.
Local Open Scope R_scope.

(** mobil_behavior.hpp:37-47, the parameters. *)
Record mobil_params : Type := mkMobil { mb_thr : R; mb_politeness : R; mb_safe : R }.

Section Mobil.
  Context {T : Types} (O : Ops T).
  Variable Corridor : Type.
  Variable ceqb : Corridor -> Corridor -> bool.
  Variable cor_poly : Corridor -> tPoly T.
  Variable position : tState T -> tPoint T.
  Variable rel : Corridor -> tState T -> tShape T -> tState T -> tShape T -> frel.
  Variable velocity : tState T -> Q.
  Variable until_end : Corridor -> tPoint T -> Q.
  Variable p : idm_params.
  Variable m : mobil_params.

  (** CalcRawIDMAcc (base_idm.cpp:258-264) on numbers of the world model. *)
  Definition raw_acc (dist v v_other : Q) : ext := raw_idm_acc p (Q2R dist) (Q2R v) (Q2R v_other).

  (** mobil_behavior.cpp:39-59, CalcLongRawAccWithoutLeader. *)
  Definition acc_without_leader (c : Corridor) (pos : tPoint T) (v : Q) : ext :=
    let acc_free := Fin (max_acc p) *! free_road_term p (Q2R v) in
    if brake_lane_end p then
      let '(braking_required, len) := distance_to_lane_ending p (Q2R (until_end c pos)) in
      if braking_required then raw_idm_acc p len (Q2R v) 0 else acc_free
    else acc_free.

  (** lane_change_behavior.hpp:137-149, SelectLaneCorridor (the last match). *)
  Fixpoint select_info (l : list (lane_info T Corridor)) (c : Corridor) (acc : option (lane_info T Corridor))
    : option (lane_info T Corridor) :=
    match l with
    | [] => acc
    | i :: r => select_info r c (if ceqb (li_corr Corridor i) c then Some i else acc)
    end.

  (** mobil_behavior.cpp:86-97 and 107-117: acceleration of the ego on a corridor, given its information. *)
  Definition acc_ego_on (i : lane_info T Corridor) (c : Corridor) (pos : tPoint T) (v_ego : Q) : option ext :=
    match ai_agent (li_front Corridor i) with
    | Some a =>
        match agent_velocity velocity a with
        | Some va => Some (raw_acc (ai_rel_dist (li_front Corridor i)) v_ego va)
        | None => None
        end
    | None => Some (acc_without_leader c pos v_ego)
    end.

  (** mobil_behavior.cpp:119-135: acceleration of the new follower before the change. *)
  Definition acc_behind_before (i : lane_info T Corridor) : option ext :=
    match ai_agent (li_rear Corridor i) with
    | None => Some (Fin 0)
    | Some b =>
        match current_state b with
        | None => None
        | Some sb =>
            match ai_agent (li_front Corridor i) with
            | Some a =>
                match agent_velocity velocity a with
                | Some va => Some (raw_acc (ai_rel_dist (li_front Corridor i) - ai_rel_dist (li_rear Corridor i))%Q (velocity sb) va)
                | None => None
                end
            | None => Some (acc_without_leader (li_corr Corridor i) (position sb) (velocity sb))
            end
        end
    end.

  (** mobil_behavior.cpp:138-148: acceleration of the new follower after the change. *)
  Definition acc_behind_after (i : lane_info T Corridor) (v_ego : Q) : option ext :=
    match ai_agent (li_rear Corridor i) with
    | None => Some (Fin 0)
    | Some b =>
        match agent_velocity velocity b with
        | None => None
        | Some vb => Some (raw_acc (- ai_rel_dist (li_rear Corridor i))%Q vb v_ego)
        end
    end.

  (** mobil_behavior.cpp:103-171: the loop with max_advantage and tmp_lane_corr. *)
  Fixpoint mobil_loop (pos : tPoint T) (v_ego : Q) (acc_ego : ext) (l : list (lane_info T Corridor))
           (max_adv : ext) (tmp : option Corridor) : option (option Corridor) :=
    match l with
    | [] => Some tmp
    | i :: r =>
        match acc_ego_on i (li_corr Corridor i) pos v_ego, acc_behind_before i, acc_behind_after i v_ego with
        | Some ego', Some before, Some after =>
            let adv := ego' -! acc_ego in
            let adv_other := before -! after in
            if egeb (Fin (- mb_safe m)) after then mobil_loop pos v_ego acc_ego r max_adv tmp
            else if eltb (Fin (mb_politeness m) *! adv_other +! Fin (mb_thr m)) adv && eltb max_adv adv
            then mobil_loop pos v_ego acc_ego r adv (Some (li_corr Corridor i))
            else mobil_loop pos v_ego acc_ego r max_adv tmp
        | _, _, _ => None
        end
    end.

  (** mobil_behavior.cpp:67-184, ChooseLaneCorridor: [cur] is observed_world.GetLaneCorridor(), [stored] is
      GetLaneCorridor(). [None]: a null pointer is dereferenced or a history is empty. *)
  Definition choose_mobil (w : world T) (ego : AgentId) (cur stored : option Corridor) (infos : list (lane_info T Corridor))
    : option (decision * option Corridor) :=
    match cur with
    | None => None
    | Some c =>
        match (match select_info infos c None with
               | Some i => Some i
               | None => fill_info O Corridor cor_poly position rel velocity until_end w ego c
               end), ego_position position w ego,
              match get_agent w ego with Some e => agent_velocity velocity e | None => None end with
        | Some i_ego, Some pos, Some v =>
            match acc_ego_on i_ego c pos v with
            | None => None
            | Some acc_ego =>
                match infos with
                | [] => Some (KeepLane, cur)
                | _ =>
                    match mobil_loop pos v acc_ego infos (Fin (-1000)) stored with
                    | None => None
                    | Some tmp =>
                        match tmp with
                        | Some t => if ceqb t c then Some (KeepLane, cur) else Some (ChangeLane, Some t)
                        | None => Some (KeepLane, cur)
                        end
                    end
                end
            end
        | _, _, _ => None
        end
    end.

  (** CheckIfLaneChangeBeneficial with MOBIL's ChooseLaneCorridor. *)
  Definition mobil_check (lp : lc_params) (w : world T) (ego : AgentId) (cs : list Corridor) (cur stored : option Corridor)
    : option (decision * option Corridor) :=
    check_beneficial O Corridor cor_poly position rel velocity until_end (choose_mobil w ego cur stored) lp w ego cs.
End Mobil.
