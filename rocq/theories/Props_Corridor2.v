(* C40, C41: concrete corridors and counterexamples. *)
From Coq Require Import List NArith ZArith QArith Bool Arith Lia.
From Verif Require Import Model_Map Model_Roadgraph Model_RoadSearch Model_Intersection Spec_Roadgraph
  Spec_Roadgraph2 Spec_RoadSearch Model_Corridor Spec_Corridor Toy_Map Toy_Corridor
  Proof_Map Proof_RoadSearch Proof_RoadSearch2 Proof_Corridor Props_Roadgraph Props_RoadSearch Props_Corridor.
Import ListNotations.
Local Open Scope nat_scope.

Definition chains (o : outcome (option (rcorr nat))) : list (list (N * N)) :=
  match o with Done (Some rc) => map lc_chain (rc_unique rc) | _ => [] end.
Definition rc2 : option (rcorr nat) :=
  match build_corridor LN 3 map2 g2 [1; 2]%N FORWARD with Done x => x | _ => None end.

(* two roads with three usable lanes each: three corridors of two lanes *)
Example C41_nonvacuous :
  map_ok map2 /\ generate map2 = Some g2 /\ lines_ok LN /\ drawable map2 [1; 2]%N /\ reference_unlinked map2 /\
  simple_route map2 [1; 2]%N /\ ordered [1; 2]%N /\
  chains (build_corridor LN 3 map2 g2 [1; 2]%N FORWARD) =
    [[(1, 2); (2, 6)]; [(1, 3); (2, 7)]; [(1, 4); (2, 8)]]%N.
Proof.
  split; [exact map2_ok|]. split; [exact g2_generated|]. split; [exact LN_ok|]. split; [exact map2_drawable|].
  split; [exact map2_unlinked|]. split; [exact map2_route|]. split; [|vm_compute; reflexivity].
  intros r r' F _. apply with_next_In in F. cbn in F. destruct F as [F|[F|[]]]; inversion F; subst. auto.
Qed.
Example C41_built_nonvacuous : exists rc, build_corridor LN 3 map2 g2 [1; 2]%N FORWARD = Done (Some rc).
Proof.
  apply C41_corridor_is_built; [exact map2_ok|exact g2_generated|exact LN_ok|exact map2_drawable|exact map2_unlinked| |exact map2_route|discriminate|cbn; lia].
  intros r [<-|[<-|[]]]; cbn; discriminate.
Qed.
(* a route that lists a road twice in a row is fine *)
Example C41_repeated_road : chains (build_corridor LN 4 map2 g2 [1; 1; 2]%N FORWARD) =
    [[(1, 2); (2, 6)]; [(1, 3); (2, 7)]; [(1, 4); (2, 8)]]%N.
Proof. vm_compute. reflexivity. Qed.

(* along a route that is not listed in increasing order, a corridor can start in the middle of another one:
   lane 8 is a corridor of its own and also ends the corridor of lane 5 *)
Theorem C41_maximal_in_any_order_refuted :
  exists rc lc h p c, build_corridor LN 4 widen_map gW [1; 3; 2]%N FORWARD = Done (Some rc) /\
    simple_route widen_map [1; 3; 2]%N /\ In lc (rc_unique rc) /\ starts h (lc_chain lc) /\
    usable widen_map [1; 3; 2]%N p /\ get_lane (rc_roads rc) p = Some c /\ cl_next c = Some h /\
    map lc_chain (rc_unique rc) = [[(1, 2); (3, 4); (2, 7)]; [(2, 8)]; [(3, 5); (2, 8)]]%N.
Proof.
  remember (build_corridor LN 4 widen_map gW [1; 3; 2]%N FORWARD) as b eqn:Eb. vm_compute in Eb. subst b.
  eexists _, _, (2, 8)%N, (3, 5)%N, _. split; [reflexivity|]. split; [exact widen_route|].
  split; [cbn; right; left; reflexivity|]. split; [exists []; reflexivity|]. split.
  - split; [cbn; auto|]. exists W5. split; [|split; [reflexivity|discriminate]]. split; [|reflexivity].
    exists (sec_of [W3; W4; W5]). split; [|unfold in_section; cbn; auto]. eexists. split; [cbn; right; right; left; reflexivity|]. cbn. auto.
  - split; [reflexivity|]. split; reflexivity.
Qed.

(* from lane 2 to lane 3 of the same road the cheapest drivable path leads through the lane they merge into
   (cost 2 instead of 10 for the lane change), so the road list is [1; 2; 1] and building never ends *)
Theorem C41_lane_change_before_a_merge_never_ends :
  exists (m : xmap nat) g D a b,
    map_ok m /\ generate m = Some g /\ dijkstra_ok D /\ lane_of m 1 a /\ lane_of m 1 b /\
    drawable m [1; 2; 1]%N /\ lines_ok LN /\
    forall fuel h, corridor_to_goal LN h fuel COUNT_ALL D m g (Some a) (Some b) [] = OutOfFuel.
Proof.
  exists merge_map, gM, refD, M2, M3. split; [exact merge_ok|]. split; [exact gM_generated|]. split; [apply reference_dijkstra_ok|].
  assert (S1 : section_of merge_map 1 (sec_of [M1; M2; M3])) by (eexists; split; [cbn; left; reflexivity|cbn; auto]).
  assert (S2 : section_of merge_map 2 (sec_of [M4; M5])) by (eexists; split; [cbn; right; left; reflexivity|cbn; auto]).
  assert (H2 : lane_of merge_map 1 M2) by (eexists; split; [exact S1|unfold in_section; cbn; auto]).
  assert (H3 : lane_of merge_map 1 M3) by (eexists; split; [exact S1|unfold in_section; cbn; auto]).
  assert (H5 : lane_of merge_map 2 M5) by (eexists; split; [exact S2|unfold in_section; cbn; auto]).
  split; [exact H2|]. split; [exact H3|]. split; [apply merge_drawable|]. split; [exact LN_ok|].
  intros fuel h. unfold corridor_to_goal.
  assert (find_drivable_lane_path COUNT_ALL refD gM (l_id M2) (l_id M3) = Some [2; 5; 3]%N) as -> by (vm_compute; reflexivity).
  match goal with |- context [fold_right ?f ?a ?l] => assert (fold_right f a l = Some [1; 2; 1]%N) as -> by (vm_compute; reflexivity) end.
  unfold generate_corridor. cbn [m_find].
  assert (J : joined merge_map M2 M5).
  { left. left. exists 1%N, (snd (mk_road 1 (Some 2%N) None [M1; M2; M3])), (sec_of [M1; M2; M3]), (sec_of [M4; M5]).
    split; [cbn; auto|]. split; [unfold read_links; cbn; lia|]. split; [cbn; auto|]. split; [unfold in_section; cbn; auto|].
    split; [|split; [unfold in_section; cbn; auto|split; [discriminate|reflexivity]]].
    split; [reflexivity|]. exists (snd (mk_road 2 None (Some 1%N) [M4; M5])). split; [reflexivity|]. exists []. reflexivity. }
  rewrite (C41_return_route_never_ends merge_map gM LN [1; 2; 1]%N (l_dir M2) 1%N 2%N M2 M5
    merge_ok gM_generated LN_ok (merge_drawable _) merge_unlinked); [reflexivity|..].
  - intros x Hx. cbn in Hx. repeat (destruct Hx as [<-|Hx]; [cbn; discriminate|]). destruct Hx.
  - exists [], [1%N]. reflexivity.
  - exists [1%N], []. reflexivity.
  - intros x F _. apply with_next_In in F. cbn in F. destruct F as [F|[F|[F|[]]]]; inversion F; auto.
  - intros x F _. apply with_next_In in F. cbn in F. destruct F as [F|[F|[F|[]]]]; inversion F; auto.
  - exact H2.
  - reflexivity.
  - discriminate.
  - exact H5.
  - exact J.
Qed.

(* a colliding hash returns a corridor of other roads *)
Theorem C41_colliding_keys_refuted :
  exists (h : dir -> list N -> N) st rc,
    generate_all LN h 3 map2 g2 [([1; 2], FORWARD); ([2], FORWARD)]%N [] = Done st /\
    get_corridor h [2]%N FORWARD st = Some rc /\ rc_ids rc = [1; 2]%N.
Proof.
  destruct C41_built_nonvacuous as (rc & B).
  exists (fun _ _ => 0%N), [(0%N, rc)], rc. split; [|split].
  - cbn [generate_all]. unfold generate_corridor. cbn [m_find]. rewrite B. reflexivity.
  - reflexivity.
  - revert B. vm_compute. intros B. inversion B. reflexivity.
Qed.
Example C41_cache_nonvacuous :
  exists h, injective_on [([1; 2], FORWARD); ([1; 2], BACKWARD); ([2], FORWARD)]%N h /\
    exists st, generate_all LN h 3 map2 g2 [([1; 2], FORWARD); ([1; 2], BACKWARD); ([2], FORWARD)]%N [] = Done st.
Proof.
  exists (fun d ids => (N.of_nat (length ids) * 3 + match d with FORWARD => 0 | BACKWARD => 1 | BOTH => 2 end)%N). split.
  - intros a b Ha Hb. cbn in Ha, Hb.
    repeat destruct Ha as [<-|Ha]; repeat destruct Hb as [<-|Hb]; try contradiction; cbn; intros E; try reflexivity; discriminate E.
  - eexists. vm_compute. reflexivity.
Qed.
(* points are lane numbers, a polygon holds a point if it lists it *)
Definition PN : point_ops nat nat :=
  mkPO (fun x l => existsb (Nat.eqb x) l) (fun x l => existsb (Nat.eqb x) l) (fun x l => inject_Z (Z.of_nat (x + length l))).
Example C41_queries_nonvacuous :
  match rc2 with
  | Some rc =>
      option_map lc_chain (current_corridor PN rc 3) = Some [(1, 2); (2, 6)]%N \/
      option_map lc_chain (current_corridor PN rc 3) = Some [(1, 3); (2, 7)]%N
  | None => False
  end /\
  match rc2 with
  | Some rc => option_map lc_chain (fst (left_right_corridor PN rc 3)) <> None \/ current_corridor PN rc 3 <> None
  | None => False
  end.
Proof. vm_compute. split; [right; reflexivity|right; discriminate]. Qed.
Example C40_nonvacuous :
  find_road_path COUNT_FILTERED refD g2 1 2 = Some [1; 2]%N /\
  corridor_between_roads LN (fun _ _ => 0%N) 3 COUNT_FILTERED refD map2 g2 1 2 [] = Done ([], None).
Proof. split; [vm_compute; reflexivity|]. eapply C40_returns_null. vm_compute. reflexivity. Qed.

Print Assumptions C40_no_corridor_between_roads.
Print Assumptions C41_lane_corridors_are_chains.
Print Assumptions C41_every_usable_lane_has_a_corridor.
Print Assumptions C41_lane_corridor_query.
Print Assumptions C41_starts_have_no_predecessor.
Print Assumptions C41_corridors_are_disjoint.
Print Assumptions C41_corridor_is_built.
Print Assumptions C41_return_route_never_ends.
Print Assumptions C41_sides_of_a_lane.
Print Assumptions C41_lines_of_a_corridor.
Print Assumptions C41_lanes_in_driving_order.
Print Assumptions C41_current_corridor.
Print Assumptions C41_nearest_corridor.
Print Assumptions C41_left_right_corridor.
Print Assumptions C41_cache.
Print Assumptions C41_corridor_to_goal.
Print Assumptions C41_agent_with_route.
Print Assumptions C41_maximal_in_any_order_refuted.
Print Assumptions C41_lane_change_before_a_merge_never_ends.
