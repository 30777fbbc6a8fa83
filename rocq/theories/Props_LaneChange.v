(* C33: BehaviorLaneChangeRuleBased, and the tie-breaking of the front/rear query (C09, C10). *)
From Coq Require Import List NArith ZArith QArith Qabs Bool Lia Lqa.
From Verif Require Import Model_Map Proof_Map Model_World Spec_World Proof_World2 Toy_World Model_FrontRear Spec_FrontRear Proof_FrontRear
  Props_FrontRear Proof_FrontRear2 Model_LaneChange Spec_LaneChange Proof_LaneChange Toy_Lanes.
Import ListNotations.
Local Open Scope Q_scope.

(* C09/C10: among equally distant agents the one with the smallest id is reported, in front and behind. *)
Theorem C09_ties_go_to_the_smallest_id :
  forall (T : Types) (O : Ops T) (Corridor : Type) cor_poly position rel (w : world T) ego e s (c : Corridor) latthr angthr lonthr front rear,
  world_ok w -> index_fresh O w -> box_contract O ->
  get_agent w ego = Some e -> current_state e = Some s ->
  get_front_rear O Corridor cor_poly position rel w ego c latthr angthr true lonthr = Some (front, rear) ->
  let on a := get_agent w (ag_id a) = Some a /\
                 exists s', current_state a = Some s' /\ collide O (ag_shape a) s' (cor_poly c) = true in
  least_lon_id (fun a d => on a /\ candidate O Corridor rel w ego s (ag_shape e) c latthr angthr a d /\ lonthr <= r_lon d) front /\
  least_lon_id (fun a d => on a /\ candidate O Corridor rel w ego s (ag_shape e) c latthr angthr a d /\ r_lon d < lonthr) rear.
Proof. intros. eapply in_corridor_ties; eauto. Qed.
Print Assumptions C09_ties_go_to_the_smallest_id.

(* C33: the decision, completely. If no corridor passes the filters, the lane is kept; otherwise the decision is for the
   first corridor with the largest free distance among those that pass (a change exactly if it is not the current one). *)
Theorem C33_decision :
  forall (T : Types) (O : Ops T) (Corridor : Type) (ceqb : Corridor -> Corridor -> bool) cor_poly position rel velocity until_end
         (p : lc_params) (w : world T) ego e s cs cur,
  world_ok w -> index_fresh O w -> box_contract O ->
  get_agent w ego = Some e -> current_state e = Some s ->
  0 < lc_min_front p -> (forall a b, ceqb a b = true <-> a = b) ->
  (forall c a d, In c cs -> ahead O Corridor cor_poly rel w ego e s c a d -> r_lon d < dbl_max) ->
  let adm := admissible O Corridor cor_poly position rel velocity until_end w ego e s p in
  let best := best_corridor O Corridor cor_poly position rel velocity until_end w ego e s p cs in
  let res := lc_check O Corridor ceqb cor_poly position rel velocity until_end p w ego cs cur in
  ((forall c x, In c cs -> ~ adm c x) /\ res = Some (KeepLane, cur)) \/
  (exists c, best c /\ cur = Some c /\ res = Some (KeepLane, cur)) \/
  (exists c, best c /\ cur <> Some c /\ res = Some (ChangeLane, Some c)).
Proof.
  intros T O Corridor ceqb cor_poly position rel velocity until_end p w ego e s cs cur Hok Hf Hb He Hs Hmf Hc Hfin.
  cbv zeta. destruct (check_spec O Corridor ceqb cor_poly position rel velocity until_end w ego e s Hok Hf Hb He Hs p cs cur Hmf Hc Hfin)
    as [H|(c & Hbest & E)]; [left; exact H|right].
  destruct (same_corr Corridor ceqb (Some c) cur) eqn:Es.
  - left. exists c. split; [exact Hbest|]. split; [|exact E]. destruct cur as [c0|]; [|discriminate]. cbn in Es.
    apply Hc in Es. now subst.
  - right. exists c. split; [exact Hbest|]. split; [|exact E]. intros ->. cbn in Es.
    rewrite (proj2 (Hc c c) eq_refl) in Es. discriminate.
Qed.
Print Assumptions C33_decision.

(* C33: consequences for a change: the target is one of the corridors, enough of it remains, nobody on it is ahead within
   the front gap, and no corridor that passes the filters has more free distance. *)
Theorem C33_change_is_admissible :
  forall (T : Types) (O : Ops T) (Corridor : Type) (ceqb : Corridor -> Corridor -> bool) cor_poly position rel velocity until_end
         (p : lc_params) (w : world T) ego e s cs cur target,
  world_ok w -> index_fresh O w -> box_contract O ->
  get_agent w ego = Some e -> current_state e = Some s ->
  0 < lc_min_front p -> (forall a b, ceqb a b = true <-> a = b) ->
  (forall c a d, In c cs -> ahead O Corridor cor_poly rel w ego e s c a d -> r_lon d < dbl_max) ->
  lc_check O Corridor ceqb cor_poly position rel velocity until_end p w ego cs cur = Some (ChangeLane, target) ->
  exists c x, target = Some c /\ In c cs /\ cur <> Some c /\
    lc_min_remaining p <= until_end c (position s) /\
    (forall a d, ahead O Corridor cor_poly rel w ego e s c a d -> lc_min_front p <= r_lon d) /\
    free_distance O Corridor cor_poly position rel until_end w ego e s c x /\
    (forall c' x', In c' cs -> admissible O Corridor cor_poly position rel velocity until_end w ego e s p c' x' -> x' <= x) /\
    (forall a d, behind O Corridor cor_poly rel w ego e s c a d ->
       (forall a' d', behind O Corridor cor_poly rel w ego e s c a' d' -> a' = a) ->
       gap_to velocity s p a d).
Proof.
  intros T O Corridor ceqb cor_poly position rel velocity until_end p w ego e s cs cur target Hok Hf Hb He Hs Hmf Hc Hfin H.
  destruct (C33_decision T O Corridor ceqb cor_poly position rel velocity until_end p w ego e s cs cur Hok Hf Hb He Hs Hmf Hc Hfin)
    as [[_ E]|[(c & _ & _ & E)|(c & Hbest & Hne & E)]]; rewrite H in E; try discriminate.
  injection E as ->. destruct Hbest as (l1 & l2 & x & -> & Hadm & H1 & H2).
  destruct Hadm as (A1 & A2 & A3 & A4).
  exists c, x. split; [reflexivity|]. split; [apply in_or_app; right; now left|]. split; [exact Hne|]. split; [exact A1|].
  split; [|split; [exact A2|split]].
  - intros a d Ha. eapply Qle_trans; [exact A3|]. destruct A2 as (_ & A2 & _). eauto.
  - intros c' x' Hin Ha'. apply in_app_or in Hin as [Hin|[<-|Hin]].
    + apply Qlt_le_weak. eauto.
    + rewrite (free_unique O Corridor cor_poly position rel until_end w ego e s c x' x); [apply Qle_refl|apply Ha'|exact A2].
    + eauto.
  - intros a d Hbe Huniq. destruct A4 as [[Hno _]|(a' & d' & Hfar & Hg)]; [exfalso; exact (Hno _ _ Hbe)|].
    pose proof (Huniq _ _ (proj1 Hfar)) as ->. destruct Hfar as (((_ & Hc1) & _) & _). destruct Hbe as ((_ & Hc2) & _).
    rewrite (candidate_fun O Corridor rel _ _ _ _ _ _ _ _ _ _ Hc2 Hc1). exact Hg.
Qed.
Print Assumptions C33_change_is_admissible.

(* C33 refuted as far as the gap behind is concerned: with the default parameters the behaviour changes to a lane on which a
   vehicle is 0.25 m behind, because it looks at the one 100 m behind only (see C10). *)
Theorem C33_rear_gap_refuted :
  exists (w : world TT) e near d,
    world_ok w /\ index_fresh TO w /\ get_agent w 1%N = Some e /\ current_state e = Some 0%Z /\
    behind TO bool tl_poly tl_rel w 1%N e 0%Z true near d /\ r_lon d == -(1 # 4) /\
    ~ gap_to (T:=TT) tl_vel 0%Z lc_defaults near d /\
    tl_check lc_defaults w 1%N [false; true] (Some false) = Some (ChangeLane, Some true).
Proof.
  exists (toy_line [(1, 0%Z); (2, 4%Z); (3, 999%Z); (4, 600%Z)])%N.
  exists (toy_agent 1 0 1 VALID 50 0), (toy_agent 3 999 1 VALID 50 0), (tl_rel true 0%Z tt 999%Z tt).
  split; [apply toy_line_ok; repeat constructor|]. split; [reflexivity|]. split; [reflexivity|]. split; [reflexivity|].
  split.
  { split; [|reflexivity]. split; [split; [reflexivity|exists 999%Z; split; reflexivity]|].
    split; [discriminate|]. split; [split; reflexivity|]. split; [exists 999%Z; split; reflexivity|]. split; discriminate. }
  split; [reflexivity|]. split; [|vm_compute; reflexivity].
  intros (sa & Hsa & H). injection Hsa as <-. vm_compute in H. exact (H eq_refl).
Qed.
Print Assumptions C33_rear_gap_refuted.

(* C33 refuted as "a change brings more free space": the current lane is subject to the filters as well, so a close
   follower there makes the vehicle leave 1000 m of free lane for 25 m. *)
Theorem C33_change_gains_space_refuted :
  exists (w : world TT) e x y,
    world_ok w /\ index_fresh TO w /\ get_agent w 1%N = Some e /\ current_state e = Some 0%Z /\
    free_distance TO bool tl_poly (fun z => z) tl_rel tl_end w 1%N e 0%Z false x /\
    free_distance TO bool tl_poly (fun z => z) tl_rel tl_end w 1%N e 0%Z true y /\
    x == 1000 /\ y == 25 /\
    tl_check lc_defaults w 1%N [false; true] (Some false) = Some (ChangeLane, Some true).
Proof.
  set (w := toy_line [(1, 0%Z); (2, (-4)%Z); (3, 1100%Z)]%N). set (e := toy_agent 1 0 1 VALID 50 0).
  assert (Hok : world_ok w) by (apply toy_line_ok; repeat constructor).
  assert (Hfin : forall c a d, ahead TO bool tl_poly tl_rel w 1%N e 0%Z c a d -> r_lon d < dbl_max).
  { intros c a d. apply tl_finite; [lia|]. intros k b x H Hx. apply m_find_In in H. cbn in H.
    destruct H as [H|[H|[H|[]]]]; injection H as _ <-; injection Hx as <-; lia. }
  exists w, e, 1000, 25. split; [exact Hok|]. split; [reflexivity|]. split; [reflexivity|]. split; [reflexivity|].
  split; [|split; [|split; [reflexivity|split; [reflexivity|vm_compute; reflexivity]]]].
  - destruct (fill_spec TO bool Bool.eqb tl_poly (fun z => z) tl_rel tl_vel tl_end w 1%N e 0%Z Hok eq_refl toy_box eq_refl eq_refl false (Hfin false))
      as (f & r & E & G & _). vm_compute in E. injection E as <- _. exact G.
  - destruct (fill_spec TO bool Bool.eqb tl_poly (fun z => z) tl_rel tl_vel tl_end w 1%N e 0%Z Hok eq_refl toy_box eq_refl eq_refl true (Hfin true))
      as (f & r & E & G & _). vm_compute in E. injection E as <- _. cbn [ai_rel_dist] in G.
    destruct G as (G1 & G2 & G3 & G4). assert (E : 25 == 100 # 4) by reflexivity.
    split; [rewrite E; exact G1|]. split; [intros; rewrite E; eauto|]. split; [intros; rewrite E; eauto|].
    destruct G4 as [G4|[(a & d & Ha & G4)|G4]]; [left; now rewrite E|right; left; exists a, d; split; [exact Ha|now rewrite E]|right; right; now rewrite E].
Qed.
Print Assumptions C33_change_gains_space_refuted.

(* C33: Plan follows the decision. Without an observed lane corridor the behaviour expires and repeats its last trajectory;
   otherwise the trajectory is generated on the corridor of the decision, which becomes the stored one, whatever was stored. *)
Theorem C33_plan_follows_decision :
  forall (T : Types) (O : Ops T) (Corridor : Type) (ceqb : Corridor -> Corridor -> bool) cor_poly position rel velocity until_end
         (p : lc_params) (w : world T) ego e s cs cur (track : Corridor -> option (tTraj T * tAction T)) st,
  world_ok w -> index_fresh O w -> box_contract O ->
  get_agent w ego = Some e -> current_state e = Some s ->
  0 < lc_min_front p -> (forall a b, ceqb a b = true <-> a = b) ->
  (forall c a d, In c cs -> ahead O Corridor cor_poly rel w ego e s c a d -> r_lon d < dbl_max) ->
  (forall c, track c <> None) ->
  let plan := lc_plan Corridor (lc_check O Corridor ceqb cor_poly position rel velocity until_end p w ego cs cur) track cur st in
  match cur with
  | None => plan = Some (mkLS Corridor EXPIRED (ls_corr Corridor st) (ls_traj Corridor st) (ls_action Corridor st), ls_traj Corridor st)
  | Some c0 => exists d c tr a, lc_check O Corridor ceqb cor_poly position rel velocity until_end p w ego cs cur = Some (d, Some c) /\
      (d = KeepLane -> c = c0) /\ track c = Some (tr, a) /\
      plan = Some (mkLS Corridor VALID (Some c) tr a, tr)
  end.
Proof.
  intros T O Corridor ceqb cor_poly position rel velocity until_end p w ego e s cs cur track st Hok Hf Hb He Hs Hmf Hc Hfin Htr plan.
  destruct cur as [c0|]; [|reflexivity].
  destruct (C33_decision T O Corridor ceqb cor_poly position rel velocity until_end p w ego e s cs (Some c0) Hok Hf Hb He Hs Hmf Hc Hfin)
    as [[_ E]|[(c & _ & _ & E)|(c & Hbest & Hne & E)]]; unfold plan; rewrite E; cbn [lc_plan].
  - destruct (track c0) as [[tr a]|] eqn:Et; [|destruct (Htr _ Et)]. exists KeepLane, c0, tr, a. auto.
  - destruct (track c0) as [[tr a]|] eqn:Et; [|destruct (Htr _ Et)]. exists KeepLane, c0, tr, a. auto.
  - destruct (track c) as [[tr a]|] eqn:Et; [|destruct (Htr _ Et)]. exists ChangeLane, c, tr, a. split; [reflexivity|]. split; [discriminate|auto].
Qed.
Print Assumptions C33_plan_follows_decision.

(* a change to a lane that is free ahead and has one vehicle 25 m behind *)
Example C33_nonvacuous :
  let w := toy_line [(1, 0%Z); (2, 40%Z); (3, 900%Z)]%N in
  world_ok w /\ index_fresh TO w /\ box_contract TO /\ get_agent w 1%N <> None /\
  (forall e c a d, ahead TO bool tl_poly tl_rel w 1%N e 0%Z c a d -> r_lon d < dbl_max) /\
  tl_check lc_defaults w 1%N [false; true] (Some false) = Some (ChangeLane, Some true) /\
  tl_check lc_defaults (toy_line [(1, 0%Z); (2, 40%Z); (3, 999%Z)]%N) 1%N [false; true] (Some false) = Some (KeepLane, Some false).
Proof.
  cbv zeta. split; [apply toy_line_ok; repeat constructor|]. split; [reflexivity|]. split; [exact toy_box|]. split; [discriminate|].
  split; [|split; vm_compute; reflexivity].
  intros e c a d. apply tl_finite; [lia|]. intros k b x H Hx. apply m_find_In in H. cbn in H.
  destruct H as [H|[H|[H|[]]]]; injection H as _ <-; injection Hx as <-; lia.
Qed.
