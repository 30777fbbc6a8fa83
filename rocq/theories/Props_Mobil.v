(* C34: BehaviorMobilRuleBased. *)
From Coq Require Import List NArith ZArith QArith Qabs Bool Lia Reals Qreals Lra.
From Verif Require Import Base_Real Base_Ext Model_Map Proof_Map Model_World Spec_World Proof_World2 Toy_World Model_FrontRear Spec_FrontRear
  Proof_FrontRear Props_FrontRear Proof_FrontRear2 Model_IDM Model_LaneChange Spec_LaneChange Proof_LaneChange Toy_Lanes Props_LaneChange
  Model_Mobil Spec_Mobil Proof_Mobil Proof_Mobil2.
Import ListNotations.
Local Open Scope R_scope.

(* C34: the decision, completely. [c0] is the corridor the ego is on. If some corridor passes the gap filters and the
   safety and incentive criteria, the first one with the largest advantage is chosen. If none does, the behaviour goes for
   the corridor stored by the previous planning step if that is a different one (and any corridor passes the gap filters),
   otherwise it keeps the lane. *)
Theorem C34_decision :
  forall (T : Types) (O : Ops T) (Corridor : Type) (ceqb : Corridor -> Corridor -> bool) cor_poly position rel velocity until_end
         (p : idm_params) (m : mobil_params) (lp : lc_params) (w : world T) ego e s cs c0 stored,
  world_ok w -> index_fresh O w -> box_contract O ->
  get_agent w ego = Some e -> current_state e = Some s ->
  (forall a b, ceqb a b = true <-> a = b) ->
  (forall c a d, In c cs \/ c = c0 -> ahead O Corridor cor_poly rel w ego e s c a d -> (r_lon d < dbl_max)%Q) ->
  let adm c := exists x, admissible O Corridor cor_poly position rel velocity until_end w ego e s lp c x in
  let elig := eligible O Corridor cor_poly position rel velocity until_end p m w ego e s lp c0 in
  let best := best_eligible O Corridor cor_poly position rel velocity until_end p m w ego e s lp c0 cs in
  let res := mobil_check O Corridor ceqb cor_poly position rel velocity until_end p m lp w ego cs (Some c0) stored in
  (exists c adv, best c adv /\ c <> c0 /\ res = Some (ChangeLane, Some c)) \/
  (exists adv, best c0 adv /\ res = Some (KeepLane, Some c0)) \/
  ((forall c adv, In c cs -> ~ elig c adv) /\
   ((exists t, stored = Some t /\ t <> c0 /\ (exists c, In c cs /\ adm c) /\ res = Some (ChangeLane, Some t)) \/
    ((stored = None \/ stored = Some c0 \/ forall c, In c cs -> ~ adm c) /\ res = Some (KeepLane, Some c0)))).
Proof.
  intros T O Corridor ceqb cor_poly position rel velocity until_end p m lp w ego e s cs c0 stored Hok Hf Hb He Hs Hc Hfin.
  cbv zeta.
  destruct (mobil_check_spec O Corridor ceqb cor_poly position rel velocity until_end p m w ego e s Hok Hf Hb He Hs Hc lp cs c0 stored Hfin)
    as [[Hno E]|[(Hno & (c & x & Hin & Hadm) & E)|(c & adv & Hbest & E)]].
  - right; right. split; [intros c adv Hin ((x & Ha) & _); exact (Hno _ _ Hin Ha)|]. right. split; [|exact E].
    right; right. intros c Hin (x & Ha). exact (Hno _ _ Hin Ha).
  - right; right. split; [exact Hno|]. destruct stored as [t|].
    + destruct (ceqb t c0) eqn:Et.
      * right. apply Hc in Et. subst t. auto.
      * left. exists t. split; [reflexivity|]. split; [intros ->; rewrite (proj2 (Hc c0 c0) eq_refl) in Et; discriminate|].
        split; [exists c; eauto|exact E].
    + right. auto.
  - destruct (ceqb c c0) eqn:Et.
    + right; left. apply Hc in Et. subst c. eauto.
    + left. exists c, adv. split; [exact Hbest|]. split; [|exact E].
      intros ->. rewrite (proj2 (Hc c0 c0) eq_refl) in Et. discriminate.
Qed.
Print Assumptions C34_decision.

(* the acceleration the IDM formulas give is never NaN with a positive maximum acceleration and a non-zero desired velocity *)
Lemma raw_not_nan p d v v' : 0 < max_acc p -> desired_vel p <> 0 -> is_nan (raw_idm_acc p d v v') = false.
Proof.
  intros Ha Hd. unfold raw_idm_acc, free_road_term. rewrite (ediv_fin _ _ Hd), epow_fin. cbn [esub eadd eneg].
  assert (Hi : is_nan (interaction_term p d v v') = false).
  { unfold interaction_term. cbv zeta. match goal with |- is_nan (if is_nan ?t then _ else _) = _ => destruct (is_nan t) eqn:E end;
      [reflexivity|exact E]. }
  destruct (interaction_term p d v v') as [x| | |]; try discriminate; cbn; try reflexivity; unfold einf;
    destruct (Rltb_spec 0 (max_acc p)) as [?|?], (Rltb_spec (max_acc p) 0) as [?|?], (Rltb_spec 0 (- max_acc p)) as [?|?],
      (Rltb_spec (- max_acc p) 0) as [?|?]; try reflexivity; lra.
Qed.

(* C34: when no other change is pending (nothing is stored, or the stored corridor is the one the ego is on) a decision
   to change satisfies the criteria: with the ego in front of it the follower farthest behind on the target (0 if none)
   accelerates with more than -safe_deceleration, the ego's advantage exceeds politeness times the follower's loss plus the
   threshold, and no corridor satisfying all criteria offers more. *)
Theorem C34_change_is_safe_and_worthwhile :
  forall (T : Types) (O : Ops T) (Corridor : Type) (ceqb : Corridor -> Corridor -> bool) cor_poly position rel velocity until_end
         (p : idm_params) (m : mobil_params) (lp : lc_params) (w : world T) ego e s cs c0 stored target,
  world_ok w -> index_fresh O w -> box_contract O ->
  get_agent w ego = Some e -> current_state e = Some s ->
  (forall a b, ceqb a b = true <-> a = b) ->
  (forall c a d, In c cs \/ c = c0 -> ahead O Corridor cor_poly rel w ego e s c a d -> (r_lon d < dbl_max)%Q) ->
  0 < max_acc p -> desired_vel p <> 0 -> stored = None \/ stored = Some c0 ->
  mobil_check O Corridor ceqb cor_poly position rel velocity until_end p m lp w ego cs (Some c0) stored = Some (ChangeLane, target) ->
  exists c old new before after,
    target = Some c /\ In c cs /\ c <> c0 /\
    (exists x, admissible O Corridor cor_poly position rel velocity until_end w ego e s lp c x) /\
    ego_acc O Corridor cor_poly position rel velocity until_end p w ego e s c0 old /\
    ego_acc O Corridor cor_poly position rel velocity until_end p w ego e s c new /\
    follower_before O Corridor cor_poly position rel velocity until_end p w ego e s c before /\
    follower_after O Corridor cor_poly rel velocity p w ego e s c after /\
    eltb (Fin (- mb_safe m)) after = true /\
    eltb (Fin (mb_politeness m) *! (before -! after) +! Fin (mb_thr m)) (new -! old) = true /\
    (forall c' adv', In c' cs -> eligible O Corridor cor_poly position rel velocity until_end p m w ego e s lp c0 c' adv' ->
       eltb (new -! old) adv' = false).
Proof.
  intros T O Corridor ceqb cor_poly position rel velocity until_end p m lp w ego e s cs c0 stored target Hok Hf Hb He Hs Hc Hfin
    Hma Hdv Hst Hres.
  destruct (C34_decision T O Corridor ceqb cor_poly position rel velocity until_end p m lp w ego e s cs c0 stored Hok Hf Hb He Hs Hc Hfin)
    as [(c & adv & Hbest & Hne & E)|[(adv & Hbest & E)|(Hno & [(t & -> & Hne & _)|(_ & E)])]].
  2:{ rewrite Hres in E. discriminate. }
  2:{ destruct Hst as [E|E]; [discriminate|injection E as ->; contradiction]. }
  2:{ rewrite Hres in E. discriminate. }
  rewrite Hres in E. injection E as ->. destruct Hbest as (l1 & l2 & -> & (Hadm & Hcr) & H1 & H2).
  pose proof Hcr as Hcr0.
  destruct Hcr as (old & new & before & after & G1 & G2 & G3 & G4 & -> & G5 & G6 & G7).
  exists c, old, new, before, after. split; [reflexivity|]. split; [apply in_or_app; right; now left|]. split; [exact Hne|].
  split; [exact Hadm|]. split; [exact G1|]. split; [exact G2|]. split; [exact G3|]. split; [exact G4|]. split; [|split; [exact G6|]].
  - assert (Hn : is_nan after = false).
    { destruct G4 as [(_ & ->)|(b & db & sb & _ & _ & ->)]; [reflexivity|]. apply raw_not_nan; assumption. }
    unfold egeb in G5. destruct after as [x| | |]; cbn in *; try discriminate; try reflexivity.
    apply negb_false_iff in G5. exact G5.
  - intros c' adv' Hin He'. apply in_app_or in Hin as [Hin|[<-|Hin]]; [| |eauto].
    + pose proof (H1 _ _ Hin He') as L. destruct (eltb (new -! old) adv') eqn:E; [|reflexivity].
      pose proof (eltb_trans _ _ _ L E) as C. rewrite eltb_irrefl in C. discriminate.
    + destruct He' as (_ & o' & n' & b' & a' & K1 & K2 & _ & _ & -> & _).
      destruct (adm_iff O Corridor ceqb cor_poly position rel velocity until_end w ego e s Hok Hf Hb He Hs lp c0) as (i0 & Hi0 & _).
      { intros a d. apply Hfin. now right. }
      destruct (info_accs O Corridor ceqb cor_poly position rel velocity until_end p w ego e s Hok Hf Hb He Hs c0 i0)
        as (_ & x0 & _ & _ & _ & _ & _ & X0 & _); [intros a d; apply Hfin; now right|exact Hi0|].
      assert (Hinc : In c (l1 ++ c :: l2)) by (apply in_or_app; right; now left).
      destruct (adm_iff O Corridor ceqb cor_poly position rel velocity until_end w ego e s Hok Hf Hb He Hs lp c) as (i & Hi & _).
      { intros a d. apply Hfin. now left. }
      destruct (info_accs O Corridor ceqb cor_poly position rel velocity until_end p w ego e s Hok Hf Hb He Hs c i)
        as (_ & x1 & _ & _ & _ & _ & _ & X1 & _); [intros a d; apply Hfin; now left|exact Hi|].
      apply X0 in G1, K1. apply X1 in G2, K2. subst. apply eltb_irrefl.
Qed.
Print Assumptions C34_change_is_safe_and_worthwhile.

(* ---- concrete parameters for the examples: maximum acceleration and comfortable braking 1 m/s^2, spacing 2 m *)
Definition tp : idm_params := mkIDM 2 1 1 20 1 0 50 1 5 (-8) false 60 0 11 0.
Definition tm : mobil_params := mkMobil (1 / 5) (1 / 5) 4.
Definition tl_mobil := mobil_check TO bool Bool.eqb tl_poly (fun x => x) tl_rel tl_vel tl_end tp tm lc_defaults.
Definition tl_scan (w : world TT) : list (lane_info TT bool) :=
  match scan_corridors TO bool tl_poly (fun x => x) tl_rel tl_vel tl_end w 1%N [false; true] with
  | Some l => admissible_infos bool lc_defaults l | None => [] end.

Lemma Q2R_0 : Q2R 0 = 0. Proof. unfold Q2R; cbn; lra. Qed.
Lemma tp_raw d : 0 < Q2R d -> raw_acc tp d 0 0 = Fin (1 - (2 / Q2R d) * (2 / Q2R d)).
Proof.
  intros H. unfold raw_acc, raw_idm_acc, free_road_term, interaction_term, helper_state. rewrite Q2R_0.
  cbn [tp max_acc desired_vel exponent min_spacing time_headway comf_brake].
  rewrite (ediv_fin 0 20) by lra. rewrite epow_fin. cbn [esub eadd eneg emul esqrt].
  destruct (Rltb_spec (1 * 1) 0) as [L|L]; [lra|]. replace (1 * 1) with 1 by lra. rewrite sqrt_1. cbn [emul].
  rewrite ediv_fin by lra. cbn [eadd]. rewrite Rmax_left by lra.
  rewrite ediv_fin by lra. cbn [emul is_nan eadd eneg emul]. f_equal. field. lra.
Qed.
Lemma tp_free c (pos : tPoint TT) : acc_without_leader (T:=TT) bool tl_end tp c pos 0 = Fin 1.
Proof.
  unfold acc_without_leader, free_road_term. cbn [tp brake_lane_end max_acc desired_vel exponent]. rewrite Q2R_0.
  rewrite (ediv_fin 0 20) by lra. rewrite epow_fin. cbn. f_equal. lra.
Qed.
Ltac q2r := unfold Q2R; cbn [Qnum Qden Qopp Z.opp IZR IPR].


(* evaluation of the decision on the toy lanes: the world part computes, the real part is given by the two lemmas above *)
Lemma tl_eval (w : world TT) stored (infos : list (lane_info TT bool)) i_ego :
  admissible_infos bool lc_defaults
    match scan_corridors TO bool tl_poly (fun x => x) tl_rel tl_vel tl_end w 1%N [false; true] with Some l => l | None => [] end = infos ->
  (exists l, scan_corridors TO bool tl_poly (fun x => x) tl_rel tl_vel tl_end w 1%N [false; true] = Some l) ->
  get_agent w 1%N = Some (toy_agent 1 0 1 Model_World.VALID 50 0) ->
  match select_info bool Bool.eqb infos false None with
  | Some i => Some i | None => fill_info TO bool tl_poly (fun x => x) tl_rel tl_vel tl_end w 1%N false end = Some i_ego ->
  infos <> [] ->
  tl_mobil w 1%N [false; true] (Some false) stored =
    match acc_ego_on (T:=TT) bool tl_vel tl_end tp i_ego false 0%Z 0 with
    | None => None
    | Some old => match mobil_loop (T:=TT) bool (fun q : tState TT => q : tPoint TT) tl_vel tl_end tp tm 0%Z 0 old infos (Fin (-1000)) stored with
                  | None => None
                  | Some (Some t) => if Bool.eqb t false then Some (KeepLane, Some false) else Some (ChangeLane, Some t)
                  | Some None => Some (KeepLane, Some false)
                  end
    end.
Proof.
  intros Hinf [l Hl] He Hsel Hne. unfold tl_mobil, mobil_check, check_beneficial. rewrite Hl in *. rewrite Hinf.
  unfold choose_mobil, ego_position, agent_velocity. rewrite Hsel, He. cbn [current_state toy_agent new_agent ag_hist last_opt fst option_map].
  change (tl_vel 0%Z) with 0%Q. unfold current_state. cbn [ag_hist toy_agent new_agent last_opt option_map fst]. change (tl_vel 0%Z) with 0%Q.
  destruct infos as [|i0 r]; [contradiction|]. reflexivity.
Qed.

(* the branch of the loop for one corridor *)
Lemma loop_take i r old best tmp x y z :
  acc_ego_on (T:=TT) bool tl_vel tl_end tp i (li_corr bool i) 0%Z 0 = Some x ->
  acc_behind_before (T:=TT) bool (fun q : tState TT => q : tPoint TT) tl_vel tl_end tp i = Some y -> acc_behind_after (T:=TT) bool tl_vel tp i 0 = Some z ->
  mobil_loop (T:=TT) bool (fun q : tState TT => q : tPoint TT) tl_vel tl_end tp tm 0%Z 0 old (i :: r) best tmp =
  (if egeb (Fin (- 4)) z then mobil_loop (T:=TT) bool (fun q : tState TT => q : tPoint TT) tl_vel tl_end tp tm 0%Z 0 old r best tmp
   else if eltb (Fin (1 / 5) *! (y -! z) +! Fin (1 / 5)) (x -! old) && eltb best (x -! old)
   then mobil_loop (T:=TT) bool (fun q : tState TT => q : tPoint TT) tl_vel tl_end tp tm 0%Z 0 old r (x -! old) (Some (li_corr bool i))
   else mobil_loop (T:=TT) bool (fun q : tState TT => q : tPoint TT) tl_vel tl_end tp tm 0%Z 0 old r best tmp).
Proof. intros E1 E2 E3. cbn [mobil_loop]. rewrite E1, E2, E3. reflexivity. Qed.

Lemma ego_free (i : lane_info TT bool) c : ai_agent (li_front bool i) = None ->
  acc_ego_on (T:=TT) bool tl_vel tl_end tp i c 0%Z 0 = Some (Fin 1).
Proof. intros H. unfold acc_ego_on. rewrite H. f_equal. apply tp_free. Qed.
Lemma ego_lead (i : lane_info TT bool) c a x : ai_agent (li_front bool i) = Some a -> current_state a = Some x ->
  0 < Q2R (ai_rel_dist (li_front bool i)) ->
  acc_ego_on (T:=TT) bool tl_vel tl_end tp i c 0%Z 0 =
    Some (Fin (1 - (2 / Q2R (ai_rel_dist (li_front bool i))) * (2 / Q2R (ai_rel_dist (li_front bool i))))).
Proof. intros H Hx Hd. unfold acc_ego_on, agent_velocity. rewrite H, Hx. f_equal. apply tp_raw, Hd. Qed.
Lemma before_free (i : lane_info TT bool) b x : ai_agent (li_front bool i) = None -> ai_agent (li_rear bool i) = Some b ->
  current_state b = Some x ->
  acc_behind_before (T:=TT) bool (fun q : tState TT => q : tPoint TT) tl_vel tl_end tp i = Some (Fin 1).
Proof. intros H1 H2 H3. unfold acc_behind_before. rewrite H1, H2, H3. f_equal. apply tp_free. Qed.
Lemma before_none (i : lane_info TT bool) : ai_agent (li_rear bool i) = None ->
  acc_behind_before (T:=TT) bool (fun q : tState TT => q : tPoint TT) tl_vel tl_end tp i = Some (Fin 0).
Proof. intros H. unfold acc_behind_before. now rewrite H. Qed.
Lemma after_none (i : lane_info TT bool) : ai_agent (li_rear bool i) = None ->
  acc_behind_after (T:=TT) bool tl_vel tp i 0 = Some (Fin 0).
Proof. intros H. unfold acc_behind_after. now rewrite H. Qed.
Lemma after_some (i : lane_info TT bool) b x : ai_agent (li_rear bool i) = Some b -> current_state b = Some x ->
  0 < Q2R (- ai_rel_dist (li_rear bool i)) ->
  acc_behind_after (T:=TT) bool tl_vel tp i 0 =
    Some (Fin (1 - (2 / Q2R (- ai_rel_dist (li_rear bool i))) * (2 / Q2R (- ai_rel_dist (li_rear bool i))))).
Proof. intros H Hx Hd. unfold acc_behind_after, agent_velocity. rewrite H, Hx. f_equal. apply tp_raw, Hd. Qed.

(* C34 refuted for the vehicle really following: the behaviour changes in front of a vehicle that would have to brake with
   63 m/s^2 (safe: 4), because it looks at the farthest one behind (see C10). The lane it leaves has a vehicle 1 m ahead. *)
Theorem C34_follower_safe_refuted :
  exists (w : world TT) e near d,
    world_ok w /\ index_fresh TO w /\ get_agent w 1%N = Some e /\ current_state e = Some 0%Z /\
    behind TO bool tl_poly tl_rel w 1%N e 0%Z true near d /\
    eltb (follow tp (- r_lon d)%Q 0%Q 0%Q) (Fin (- 60)) = true /\ mb_safe tm = 4 /\
    tl_mobil w 1%N [false; true] (Some false) None = Some (ChangeLane, Some true).
Proof.
  set (w := toy_line [(1, 0%Z); (2, 4%Z); (3, 999%Z); (4, 600%Z)]%N).
  exists w, (toy_agent 1 0 1 Model_World.VALID 50 0), (toy_agent 3 999 1 Model_World.VALID 50 0), (tl_rel true 0%Z tt 999%Z tt).
  split; [apply toy_line_ok; repeat constructor|]. split; [reflexivity|]. split; [reflexivity|]. split; [reflexivity|].
  split.
  { split; [|reflexivity]. split; [split; [reflexivity|exists 999%Z; split; reflexivity]|].
    split; [discriminate|]. split; [split; reflexivity|]. split; [exists 999%Z; split; reflexivity|]. split; discriminate. }
  split.
  { change (follow tp (- r_lon (tl_rel true 0%Z tt 999%Z tt))%Q 0%Q 0%Q) with (raw_acc tp (1 # 4) 0 0).
    rewrite tp_raw by (q2r; lra). cbn [eltb]. q2r. destruct (Rltb_spec (1 - 2 / (1 * / 4) * (2 / (1 * / 4))) (-60)) as [L|L]; [reflexivity|lra]. }
  split; [reflexivity|].
  erewrite tl_eval; [|vm_compute; reflexivity|eexists; vm_compute; reflexivity|reflexivity|vm_compute; reflexivity|discriminate].
  erewrite ego_lead; [|reflexivity|reflexivity|cbn [li_front ai_rel_dist]; q2r; lra].
  erewrite loop_take; [|apply ego_free; reflexivity|eapply before_free; reflexivity|
                        eapply after_some; [reflexivity|reflexivity|cbn [li_rear ai_rel_dist]; q2r; lra]].
  cbn [egeb eltb negb esub eadd eneg emul li_corr li_front li_rear ai_rel_dist mobil_loop]. q2r.
  repeat match goal with |- context [Rltb ?a ?b] => destruct (Rltb_spec a b) as [?|?]; try (exfalso; lra) end. reflexivity.
Qed.
Print Assumptions C34_follower_safe_refuted.

(* C34 refuted while a change is pending: a first planning step decides for the second lane and stores it; in the next one a
   vehicle is 0.25 m behind on that lane, which passes neither the gap filters nor the criteria, and still the decision is
   to change to it. *)
Definition tl_w1 : world TT := toy_line [(1, 0%Z); (2, 4%Z)]%N.
Definition tl_w2 : world TT := toy_line [(1, 0%Z); (3, 999%Z)]%N.
Theorem C34_criteria_every_step_refuted :
  exists st1 tr1,
    (* first step: the decision is taken with nothing stored *)
    lc_plan (T:=TT) bool (tl_mobil tl_w1 1%N [false; true] (Some false) None) (fun _ => Some (0%Z, 0%Z)) (Some false)
      (mkLS (T:=TT) bool Model_World.VALID None 0%Z 0%Z) = Some (st1, tr1) /\
    (* second step, ego still on the first lane *)
    world_ok tl_w2 /\ index_fresh TO tl_w2 /\
    (forall adv, ~ eligible TO bool tl_poly (fun x => x) tl_rel tl_vel tl_end tp tm tl_w2 1%N (toy_agent 1 0 1 Model_World.VALID 50 0) 0%Z
       lc_defaults false true adv) /\
    tl_mobil tl_w2 1%N [false; true] (Some false) (ls_corr bool st1) = Some (ChangeLane, Some true).
Proof.
  assert (H1 : tl_mobil tl_w1 1%N [false; true] (Some false) None = Some (ChangeLane, Some true)).
  { erewrite tl_eval; [|vm_compute; reflexivity|eexists; vm_compute; reflexivity|reflexivity|vm_compute; reflexivity|discriminate].
    erewrite ego_lead; [|reflexivity|reflexivity|cbn [li_front ai_rel_dist]; q2r; lra].
    erewrite loop_take; [|apply ego_free; reflexivity|apply before_none; reflexivity|apply after_none; reflexivity].
    cbn [egeb eltb negb esub eadd eneg emul li_corr li_front li_rear ai_rel_dist mobil_loop]. q2r.
    repeat match goal with |- context [Rltb ?a ?b] => destruct (Rltb_spec a b) as [?|?]; try (exfalso; lra) end. reflexivity. }
  exists (mkLS (T:=TT) bool Model_World.VALID (Some true) 0%Z 0%Z), 0%Z.
  split; [rewrite H1; reflexivity|]. assert (Hok : world_ok tl_w2) by (apply toy_line_ok; repeat constructor).
  split; [exact Hok|]. split; [reflexivity|]. split.
  - intros adv ((x & _ & _ & _ & Hrear) & _).
    destruct Hrear as [[Hno _]|(a & d & Hfar & sa & Hsa & Hg)].
    + apply (Hno (toy_agent 3 999 1 Model_World.VALID 50 0) (tl_rel true 0%Z tt 999%Z tt)).
      split; [|reflexivity]. split; [split; [reflexivity|exists 999%Z; split; reflexivity]|].
      split; [discriminate|]. split; [split; reflexivity|]. split; [exists 999%Z; split; reflexivity|]. split; discriminate.
    + destruct Hfar as ((((Hg1 & Hg2) & (Hid & _ & (x' & Hx' & ->) & _)) & _) & _).
      unfold get_agent in Hg1. apply m_find_In in Hg1. cbn in Hg1. destruct Hg1 as [E|[E|[]]]; injection E as E1 E2.
      * rewrite <- E1 in Hid. contradiction.
      * subst a. injection Hx' as <-. injection Hsa as <-. vm_compute in Hg. exact (Hg eq_refl).
  - erewrite tl_eval; [|vm_compute; reflexivity|eexists; vm_compute; reflexivity|reflexivity|vm_compute; reflexivity|discriminate].
    rewrite ego_free by reflexivity.
    erewrite loop_take; [|apply ego_free; reflexivity|apply before_none; reflexivity|apply after_none; reflexivity].
    cbn [egeb eltb negb esub eadd eneg emul li_corr li_front li_rear ai_rel_dist mobil_loop ls_corr].
    repeat match goal with |- context [Rltb ?a ?b] => destruct (Rltb_spec a b) as [?|?]; try (exfalso; lra) end. reflexivity.
Qed.
Print Assumptions C34_criteria_every_step_refuted.

Example C34_nonvacuous :
  world_ok tl_w1 /\ index_fresh TO tl_w1 /\ box_contract TO /\ 0 < max_acc tp /\ desired_vel tp <> 0 /\
  (forall e c a d, ahead TO bool tl_poly tl_rel tl_w1 1%N e 0%Z c a d -> (r_lon d < dbl_max)%Q) /\
  tl_mobil tl_w1 1%N [false; true] (Some false) None = Some (ChangeLane, Some true).
Proof.
  split; [apply toy_line_ok; repeat constructor|]. split; [reflexivity|]. split; [exact toy_box|].
  split; [cbn; lra|]. split; [cbn; lra|]. split.
  - intros e c a d. apply tl_finite; [lia|]. intros k b x H Hx. apply m_find_In in H. cbn in H.
    destruct H as [H|[H|[]]]; injection H as _ <-; injection Hx as <-; lia.
  - destruct C34_criteria_every_step_refuted as (st1 & tr1 & H & _). cbn [lc_plan] in H.
    destruct (tl_mobil tl_w1 1%N [false; true] (Some false) None) as [[d t]|] eqn:E; [|discriminate].
    (* from the first step of the previous example *)
    clear H. revert E.
    erewrite tl_eval; [|vm_compute; reflexivity|eexists; vm_compute; reflexivity|reflexivity|vm_compute; reflexivity|discriminate].
    erewrite ego_lead; [|reflexivity|reflexivity|cbn [li_front ai_rel_dist]; q2r; lra].
    erewrite loop_take; [|apply ego_free; reflexivity|apply before_none; reflexivity|apply after_none; reflexivity].
    cbn [egeb eltb negb esub eadd eneg emul li_corr li_front li_rear ai_rel_dist mobil_loop]. q2r.
    repeat match goal with |- context [Rltb ?a ?b] => destruct (Rltb_spec a b) as [?|?]; try (exfalso; lra) end. intros Hq; exact (eq_sym Hq).
Qed.
