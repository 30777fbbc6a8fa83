(** C35: BehaviorIntersectionRuleBased. *)
From Coq Require Import List NArith ZArith QArith Qround Bool Lia Lqa Reals Qreals Lra.
From Verif Require Import Base_Real Base_Ext Model_Map Proof_Map Model_World Spec_World Proof_World Proof_World2 Toy_World
  Model_FrontRear Spec_FrontRear Props_FrontRear Model_Prediction Spec_Prediction Props_Prediction Model_Angle Spec_Angle Proof_Angle Props_Angle
  Model_IDM Proof_IDM Model_Intersection Spec_Intersection.
Import ListNotations.

Lemma Rltb_iff a b : Rltb a b = true <-> (a < b)%R.
Proof. destruct (Rltb_spec a b); split; intros; try reflexivity; try discriminate; lra. Qed.

Lemma predict_fresh {T} (O : Ops T) (ow : observed T) dt : world_ok (ow_world ow) ->
  exists pw, predict O ow dt = Some pw /\ ow_ego pw = ow_ego ow /\ world_ok (ow_world pw) /\ index_fresh O (ow_world pw) /\
    forall id, get_agent (ow_world ow) id = None -> get_agent (ow_world pw) id = None.
Proof.
  intros Hok. pose proof (clone_world_ok O _ Hok) as Okc. destruct (clone_world_spec O _ Hok) as (E & Et & _).
  destruct (step_spec O _ dt Okc) as (w' & Es & Tm & Ok' & Fr & _ & Hn & _).
  exists (mkObserved w' (ow_ego ow)). unfold predict, clone_observed. cbn [ow_world ow_ego]. rewrite Es. cbn [option_map].
  split; [reflexivity|]. split; [reflexivity|]. split; [exact Ok'|]. split; [exact Fr|].
  intros id N. apply Hn. unfold get_agent in *. rewrite E, (m_find_map (agent T) (fun p => clone_agent O (snd p))), N. reflexivity.
Qed.

Section P.
  Context {T : Types} (O : Ops T) (Road Corridor : Type) (ceqb : Corridor -> Corridor -> bool)
    (road_of : AgentId -> option Road) (nearest_lane lane_at : Road -> tPoint T -> option Corridor)
    (position : tState T -> tPoint T) (theta velocity : tState T -> R) (arc : Corridor -> tPoint T -> R)
    (cor_poly : Corridor -> tPoly T) (pi : R) (fl : R -> R).
  Hypothesis Hceq : forall a b, ceqb a b = true <-> a = b.
  Hypothesis Hbox : box_contract O.
  Notation conflict := (conflict O Road Corridor road_of nearest_lane lane_at position theta arc cor_poly pi fl).
  Notation intersecting := (intersecting_agent (T:=T) Road Corridor ceqb road_of nearest_lane lane_at position theta arc pi fl).
  Notation crossing := (is_crossing (T:=T) Road Corridor ceqb road_of nearest_lane lane_at position theta arc pi fl).
  Notation loop := (detect_loop O Road Corridor ceqb road_of nearest_lane lane_at position theta arc cor_poly pi fl).

  Lemma crossing_iff p ego es ra id s : crossing p ego es ra id s = true <->
    exists re ce ca, road_of ego = Some re /\ nearest_lane re (position es) = Some ce /\ lane_at ra (position s) = Some ca /\ ca <> ce /\
      id <> ego /\ (ip_angle p < SignedAngleDiff pi fl (theta es) (theta s))%R /\
      (arc ce (position es) < arc ce (position s) < arc ce (position es) + ip_braking p)%R.
  Proof.
    unfold is_crossing, ego_lane. destruct (road_of ego) as [re|] eqn:Er.
    2:{ split; [discriminate|]. intros (? & ? & ? & ? & _). discriminate. }
    destruct (nearest_lane re (position es)) as [ce|] eqn:En.
    2:{ split; [discriminate|]. intros (r & ce & ca & E1 & E2 & _). injection E1 as <-. congruence. }
    destruct (lane_at ra (position s)) as [ca|] eqn:El.
    2:{ split; [discriminate|]. intros (r & c1 & c2 & _ & _ & E & _). congruence. }
    rewrite !andb_true_iff, !negb_true_iff, !Rltb_iff. split.
    - intros ((((H1 & H2) & H3) & H4) & H5). exists re, ce, ca. repeat (split; [assumption || reflexivity|]).
      split; [intros E; apply Hceq in E; congruence|]. split; [intros E; apply N.eqb_neq in H2; contradiction|]. split; [exact H3|lra].
    - intros (r & c1 & c2 & E1 & E2 & E3 & Hn & Hid & H3 & H4 & H5).
      injection E1 as <-. injection E3 as <-. rewrite En in E2. injection E2 as <-.
      split; [|lra]. split; [|lra]. split; [|exact H3]. split.
      + destruct (ceqb ca ce) eqn:E; [apply Hceq in E; contradiction|reflexivity].
      + apply N.eqb_neq, Hid.
  Qed.

  (** the loop over the intersecting agents *)
  Lemma intersecting_spec p pw e es l : get_agent (ow_world pw) (ow_ego pw) = Some e -> current_state e = Some es ->
    (forall k a, In (k, a) l -> ag_id a = k /\ current_state a <> None /\ road_of k <> None) -> m_sorted l ->
    let hit k := exists a s ra, m_find k l = Some a /\ current_state a = Some s /\ road_of k = Some ra /\
                   crossing p (ow_ego pw) es ra k s = true in
    match intersecting p l pw with
    | None => False
    | Some None => forall k, ~ hit k
    | Some (Some id) => hit id /\ forall k, hit k -> (id <= k)%N
    end.
  Proof.
    intros He Hes. induction l as [|[k a] r IH]; intros Hl Hs hit; cbn [intersecting_agent].
    - intros k (a & s & ra & H & _). discriminate.
    - rewrite He. destruct (Hl k a) as (Hid & Hst & Hrd); [now left|]. rewrite Hid.
      destruct (road_of k) as [ra|] eqn:Era; [|congruence]. destruct (current_state a) as [s|] eqn:Es; [|congruence]. rewrite Hes.
      pose proof (sorted_tail _ _ Hs) as Hs'. 
      assert (Hgt : forall k', m_find k' r <> None -> (k < k')%N).
      { intros k' Hk. apply keys_in in Hk. apply in_map_iff in Hk as ([k2 b] & E & Hin). cbn in E. subst k2.
        exact (sorted_head_lt _ _ _ Hs _ Hin). }
      destruct (crossing p (ow_ego pw) es ra k s) eqn:Ec.
      + split.
        * exists a, s, ra. cbn. rewrite N.eqb_refl. auto.
        * intros k' (a' & s' & ra' & Hf & _). cbn in Hf. destruct (N.eqb_spec k' k) as [->|Hne]; [reflexivity|].
          specialize (Hgt k' ltac:(congruence)). lia.
      + specialize (IH (fun k' a' H => Hl k' a' (or_intror H)) Hs').
        assert (Eq : forall k', hit k' <-> exists a0 s0 ra0, m_find k' r = Some a0 /\ current_state a0 = Some s0 /\ road_of k' = Some ra0 /\
                   crossing p (ow_ego pw) es ra0 k' s0 = true).
        { intros k'. unfold hit. cbn [m_find]. destruct (N.eqb_spec k' k) as [->|Hne]; [|reflexivity]. split.
          - intros (a' & s' & ra' & Hf & Hc & Hr & Hx). injection Hf as <-. congruence.
          - intros (a' & s' & ra' & Hf & _). exfalso. specialize (Hgt k ltac:(congruence)). lia. }
        destruct (intersecting p r pw) as [[id|]|]; [| |exact IH].
        * split; [apply Eq, IH|]. intros k' H. apply Eq in H. now apply IH.
        * intros k' H. apply Eq in H. exact (IH k' H).
  Qed.

  (** one grid time: the reported agent is the conflicting one with the smallest id *)
  Lemma time_spec p c pw : world_ok (ow_world pw) -> index_fresh O (ow_world pw) ->
    (forall k a, get_agent (ow_world pw) k = Some a -> road_of k <> None) ->
    exists m r, get_agents_intersecting O (ow_world pw) (cor_poly c) = Some m /\ intersecting p m pw = Some r /\
      match r with
      | None => forall k, ~ conflict p c pw k
      | Some id => conflict p c pw id /\ (forall k, conflict p c pw k -> (id <= k)%N)
      end.
  Proof.
    intros Hok Hf Hrd. pose proof Hok as (Hs & Hk & _).
    destruct (intersect_spec O (ow_world pw) (cor_poly c) Hs Hf Hbox) as (m & Em & Hms & Hm).
    exists m. rewrite Em.
    destruct (get_agent (ow_world pw) (ow_ego pw)) as [e|] eqn:Ee.
    2:{ exists None. split; [reflexivity|]. split.
        - destruct m as [|[k a] r]; cbn [intersecting_agent]; [reflexivity|]. now rewrite Ee.
        - intros k (e & es & a & s & re & ra & ce & ca & H & _). congruence. }
    assert (Hes : exists es, current_state e = Some es).
    { destruct (Hk _ _ Ee) as (_ & Hne & _). unfold current_state. destruct (ag_hist e) as [|x h] eqn:Eh; [congruence|].
      destruct (last_opt (x :: h)) eqn:El; [eexists; reflexivity|]. exfalso. clear -El. revert x El. induction h as [|y h IH]; intros x El; [discriminate|]. apply (IH y). exact El. }
    destruct Hes as (es & Hes).
    assert (Hl : forall k a, In (k, a) m -> ag_id a = k /\ current_state a <> None /\ road_of k <> None).
    { intros k a Hin. apply m_find_iff in Hin; [|exact Hms]. apply Hm in Hin as (Hg & _ & s & Hst & _).
      split; [exact (proj1 (Hk _ _ Hg))|]. split; [congruence|]. exact (Hrd _ _ Hg). }
    pose proof (intersecting_spec p pw e es m Ee Hes Hl Hms) as Sp. cbv zeta in Sp.
    assert (Eq : forall k, (exists a s ra, m_find k m = Some a /\ current_state a = Some s /\ road_of k = Some ra /\
                   crossing p (ow_ego pw) es ra k s = true) <-> conflict p c pw k).
    { intros k. split.
      - intros (a & s & ra & Hf' & Hst & Hr & Hc). apply Hm in Hf' as (Hg & Hlive & s' & Hst' & Hcol).
        rewrite Hst in Hst'. injection Hst' as <-.
        apply crossing_iff in Hc as (re & ce & ca & E1 & E2 & E3 & Hn & Hid & H3 & H4).
        exists e, es, a, s, re, ra, ce, ca. repeat (split; [assumption|]). exact H4.
      - intros (e' & es' & a & s & re & ra & ce & ca & G1 & G2 & G3 & G4 & G5 & G6 & G7 & G8 & G9 & G10 & G11 & G12 & G13 & G14).
        rewrite Ee in G1. injection G1 as <-. rewrite Hes in G2. injection G2 as <-.
        exists a, s, ra. split; [apply Hm; repeat (split; [assumption|]); exists s; auto|]. split; [exact G4|]. split; [exact G10|].
        apply crossing_iff. exists re, ce, ca. repeat (split; [assumption|]). exact G14. }
    destruct (intersecting p m pw) as [[id|]|]; [| |destruct Sp].
    - exists (Some id). split; [reflexivity|]. split; [reflexivity|]. split; [apply Eq, Sp|]. intros k H. apply Sp, Eq, H.
    - exists None. split; [reflexivity|]. split; [reflexivity|]. intros k H. apply Eq in H. exact (Sp k H).
  Qed.

  Lemma grid_eq inc i : grid inc i == inject_Z (Z.of_nat i) * inc.
  Proof.
    induction i as [|i IH]; [change (0 == 0 * inc); ring|]. cbn [grid]. rewrite IH. rewrite Nat2Z.inj_succ. unfold Z.succ. rewrite inject_Z_plus. ring.
  Qed.
  Lemma grid_mono inc i j : 0 <= inc -> (i <= j)%nat -> grid inc i <= grid inc j.
  Proof. intros H L. induction L as [|j L IH]; [Lqa.lra|]. cbn [grid]. Lqa.lra. Qed.

  (** the loop from the i-th grid time on *)
  Lemma loop_spec p c w sw : world_ok (ow_world sw) -> 0 < ip_inc p ->
    (forall k a, get_agent (ow_world sw) k = Some a -> road_of k <> None) ->
    (forall k, get_agent (ow_world sw) k <> None -> get_agent w k <> None) ->
    forall fuel i, (ip_horizon p <= grid (ip_inc p) (i + pred fuel)) -> (0 < fuel)%nat ->
    exists r, loop p fuel w sw c (grid (ip_inc p) i) = Done r /\
      match r with
      | None => forall j pw k, (i <= j)%nat -> grid (ip_inc p) j < ip_horizon p -> predict O sw (grid (ip_inc p) j) = Some pw -> ~ conflict p c pw k
      | Some (t, a) => exists j pw, (i <= j)%nat /\ t = grid (ip_inc p) j /\ t < ip_horizon p /\ predict O sw t = Some pw /\
          exists id, get_agent w id = Some a /\ conflict p c pw id /\ (forall k, conflict p c pw k -> (id <= k)%N) /\
          (forall j' pw' k, (i <= j' < j)%nat -> predict O sw (grid (ip_inc p) j') = Some pw' -> ~ conflict p c pw' k)
      end.
  Proof.
    intros Hok Hinc Hrd Hsub. induction fuel as [|f IH]; intros i Hh Hf; [lia|]. cbn [detect_loop].
    destruct (Qle_bool (ip_horizon p) (grid (ip_inc p) i)) eqn:Eh.
    { apply Qle_bool_iff in Eh. exists None. split; [reflexivity|]. intros j pw k Hj Hlt. exfalso.
      pose proof (grid_mono (ip_inc p) i j ltac:(Lqa.lra) Hj). Lqa.lra. }
    assert (Hlt : grid (ip_inc p) i < ip_horizon p).
    { apply Qnot_le_lt. intros C. apply Qle_bool_iff in C. congruence. }
    destruct (predict_fresh O sw (grid (ip_inc p) i) Hok) as (pw & Ep & Eg & Okp & Frp & Hnone). rewrite Ep.
    destruct (time_spec p c pw Okp Frp) as (m & r & Em & Ei & Hr).
    { intros k a Hk. destruct (get_agent (ow_world sw) k) as [a'|] eqn:Ek; [exact (Hrd k a' Ek)|]. apply Hnone in Ek. congruence. }
    rewrite Em, Ei.
    assert (Hrec : (forall k, ~ conflict p c pw k) ->
      exists r, loop p f w sw c (grid (ip_inc p) i + ip_inc p) = Done r /\
      match r with
      | None => forall j pw k, (i <= j)%nat -> grid (ip_inc p) j < ip_horizon p -> predict O sw (grid (ip_inc p) j) = Some pw -> ~ conflict p c pw k
      | Some (t, a) => exists j pw, (i <= j)%nat /\ t = grid (ip_inc p) j /\ t < ip_horizon p /\ predict O sw t = Some pw /\
          exists id, get_agent w id = Some a /\ conflict p c pw id /\ (forall k, conflict p c pw k -> (id <= k)%N) /\
          (forall j' pw' k, (i <= j' < j)%nat -> predict O sw (grid (ip_inc p) j') = Some pw' -> ~ conflict p c pw' k)
      end).
    { intros Hnc. destruct f as [|f].
      { exfalso. cbn [pred] in Hh. rewrite Nat.add_0_r in Hh. Lqa.lra. }
      destruct (IH (S i)) as (r' & El & Hr').
      { cbn [pred] in *. replace (S i + f)%nat with (i + S f)%nat by lia. exact Hh. }
      { lia. }
      cbn [grid] in El. exists r'. split; [exact El|]. destruct r' as [[t a]|].
      - destruct Hr' as (j & pw' & Hj & Et & Htl & Epw & id & Hg & Hc & Hmin & Hearl). exists j, pw'. split; [lia|].
        repeat (split; [assumption|]). exists id. repeat (split; [assumption|]).
        intros j' pw2 k Hj' Ep2. destruct (Nat.eq_dec j' i) as [->|Hne]; [|apply (Hearl j'); [lia|exact Ep2]].
        rewrite Ep in Ep2. injection Ep2 as <-. apply Hnc.
      - intros j pw2 k Hj Hjl Ep2. destruct (Nat.eq_dec j i) as [->|Hne]; [|apply (Hr' j); [lia|exact Hjl|exact Ep2]].
        rewrite Ep in Ep2. injection Ep2 as <-. apply Hnc. }
    destruct r as [id|]; [|exact (Hrec Hr)]. destruct Hr as [Hc Hmin].
    destruct (get_agent w id) as [a|] eqn:Ea.
    - exists (Some (grid (ip_inc p) i, a)). split; [reflexivity|]. exists i, pw. split; [lia|]. split; [reflexivity|]. split; [exact Hlt|].
      split; [exact Ep|]. exists id. split; [exact Ea|]. split; [exact Hc|]. split; [exact Hmin|]. intros; lia.
    - exfalso. destruct Hc as (e & es & a & s & re & ra & ce & ca & _ & _ & G & _).
      apply (Hsub id); [|exact Ea]. intros N. apply Hnone in N. congruence.
  Qed.
End P.

(** C35: the detection. The loop ends; it reports a vehicle exactly if the prediction shows a conflict at some grid time before
    the horizon; it reports the earliest such time and, there, the conflicting vehicle with the smallest id (as it is now). *)
Theorem C35_earliest_predicted_conflict :
  forall (T : Types) (O : Ops T) (Road Corridor : Type) (ceqb : Corridor -> Corridor -> bool) road_of nearest_lane lane_at
         position theta arc cor_poly pi fl (p : inter_params) (ns ca : tBM T) (ow : observed T) e c,
  world_ok (ow_world ow) -> box_contract O -> (forall a b, ceqb a b = true <-> a = b) ->
  get_agent (ow_world ow) (ow_ego ow) = Some e ->
  (forall id a, get_agent (ow_world ow) id = Some a -> road_of id <> None) ->
  0 < ip_inc p ->
  let predicted := predicted_at O ns ca ow in
  let conflict := conflict O Road Corridor road_of nearest_lane lane_at position theta arc cor_poly pi fl p c in
  exists n, forall fuel, (n <= fuel)%nat ->
  exists r, check_intersecting O Road Corridor ceqb road_of nearest_lane lane_at position theta arc cor_poly pi fl p fuel ns ca ow (Some c) = Done r /\
  match r with
  | None => forall i pw id, grid (ip_inc p) i < ip_horizon p -> predicted (grid (ip_inc p) i) pw -> ~ conflict pw id
  | Some (t, a) => exists i pw id, t = grid (ip_inc p) i /\ t < ip_horizon p /\ predicted t pw /\
      get_agent (ow_world ow) id = Some a /\ conflict pw id /\
      (forall id', conflict pw id' -> (id <= id')%N) /\
      (forall i' pw' id', (i' < i)%nat -> predicted (grid (ip_inc p) i') pw' -> ~ conflict pw' id')
  end.
Proof.
  intros T O Road Corridor ceqb road_of nearest_lane lane_at position theta arc cor_poly pi fl p ns ca ow e c
    Hok Hbox Hceq He Hrd Hinc predicted conf.
  set (n := S (Z.to_nat (Qceiling (ip_horizon p / ip_inc p)))). exists n. intros fuel Hfuel.
  assert (Okc : world_ok (ow_world (clone_observed O ow))) by exact (clone_world_ok O _ Hok). destruct (clone_world_spec O _ Hok) as (Ec & _).
  assert (FC : forall k, get_agent (ow_world (clone_observed O ow)) k = option_map (clone_agent O) (get_agent (ow_world ow) k)).
  { intros k. unfold get_agent. cbn. rewrite Ec. apply (m_find_map (agent T) (fun p => clone_agent O (snd p))). }
  assert (Hsw : exists sw, apply_settings O ns (mkSettings (Some ca) (Some ca) None []) (clone_observed O ow) = Some sw).
  { apply C44_defined; [exact (proj1 Okc)|]. cbn [ps_ego ps_specific ow_ego clone_observed]. split; [discriminate|]. split.
    - rewrite FC, He. discriminate.
    - intros N; congruence. }
  destruct Hsw as (sw & Esw). unfold check_intersecting. rewrite Esw.
  pose proof (assigned_world_ok T O ns _ _ _ Okc Esw) as Oks.
  destruct (C44_assignment T O ns _ _ _ (proj1 Okc) Esw) as (_ & (_ & Hkeys) & _ & _).
  assert (Hsub : forall k, get_agent (ow_world sw) k <> None -> get_agent (ow_world ow) k <> None).
  { intros k H. unfold get_agent in H. apply keys_in in H. rewrite Hkeys in H. apply keys_in in H.
    change (get_agent (ow_world (clone_observed O ow)) k <> None) in H. rewrite FC in H. destruct (get_agent (ow_world ow) k); [discriminate|exact H]. }
  destruct (loop_spec O Road Corridor ceqb road_of nearest_lane lane_at position theta arc cor_poly pi fl Hceq Hbox p c (ow_world ow) sw Oks Hinc)
    with (fuel := fuel) (i := 0%nat) as (r & Er & Hr).
  { intros k a Hk. assert (N : get_agent (ow_world ow) k <> None) by (apply Hsub; congruence).
    destruct (get_agent (ow_world ow) k) as [a'|] eqn:E; [exact (Hrd k a' E)|congruence]. }
  { exact Hsub. }
  { rewrite grid_eq. cbn [Nat.add].
    assert (L : ip_horizon p / ip_inc p <= inject_Z (Z.of_nat (pred fuel))).
    { eapply Qle_trans; [apply Qle_ceiling|]. rewrite <- Zle_Qle. unfold n in Hfuel. lia. }
    setoid_replace (ip_horizon p) with (ip_horizon p / ip_inc p * ip_inc p) by (field; Lqa.lra).
    apply Qmult_le_compat_r; [exact L|Lqa.lra]. }
  { unfold n in Hfuel. lia. }
  cbn [grid] in Er. exists r. split; [exact Er|].
  assert (Pu : forall t pw, predicted t pw <-> predict O sw t = Some pw).
  { intros t pw. split.
    - intros (sw' & E1 & E2). rewrite Esw in E1. injection E1 as <-. exact E2.
    - intros H. exists sw. auto. }
  destruct r as [[t a]|].
  - destruct Hr as (j & pw & _ & Et & Hlt & Ep & id & Hg & Hc & Hmin & Hearl). exists j, pw, id.
    split; [exact Et|]. split; [exact Hlt|]. split; [apply Pu, Ep|]. split; [exact Hg|]. split; [exact Hc|]. split; [exact Hmin|].
    intros i' pw' id' Hi Hp. apply (Hearl i'); [lia|apply Pu, Hp].
  - intros i pw id Hlt Hp. apply (Hr i); [lia|exact Hlt|apply Pu, Hp].
Qed.
Print Assumptions C35_earliest_predicted_conflict.

Lemma ok_state {T} (w : world T) id a : world_ok w -> get_agent w id = Some a -> exists s, current_state a = Some s.
Proof.
  intros (_ & Hk & _) Ha. destruct (Hk _ _ Ha) as (_ & Hne & _). unfold current_state. destruct (ag_hist a) as [|x h] eqn:Eh; [congruence|].
  destruct (last_opt (x :: h)) eqn:El; [eexists; reflexivity|]. exfalso. clear -El. revert x El.
  induction h as [|y h IH]; intros x El; [discriminate|]. apply (IH y). exact El.
Qed.

(** C35: what Plan does with it. With a lane corridor the vehicle tracks the corridor of the lane change decision; if nothing is
    detected, or the detected vehicle is not coming from the right now, it follows the plain IDM values; otherwise it treats the
    crossing as a standing obstacle at most speed * time of the other vehicle away. *)
Theorem C35_plan_values :
  forall (T : Types) (O : Ops T) (Road Corridor : Type) (ceqb : Corridor -> Corridor -> bool) road_of nearest_lane lane_at
         position theta velocity arc cor_poly pi fl (p : inter_params) (ns ca : tBM T) (ow : observed T) e es cur stored c rel_on rv fuel found,
  world_ok (ow_world ow) ->
  get_agent (ow_world ow) (ow_ego ow) = Some e -> current_state e = Some es -> rel_on c = Some rv ->
  check_intersecting O Road Corridor ceqb road_of nearest_lane lane_at position theta arc cor_poly pi fl p fuel ns ca ow (Some c) = Done found ->
  exists rv',
  inter_plan O Road Corridor ceqb road_of nearest_lane lane_at position theta velocity arc cor_poly pi fl p fuel ns ca ow
    (Some cur) stored (Some c) rel_on = Done (Some (c, rv')) /\
  ((rv' = rv /\ forall t a s, found = Some (t, a) -> current_state a = Some s -> (0 <= SignedAngleDiff pi fl (theta es) (theta s))%R) \/
   (exists t a s, found = Some (t, a) /\ current_state a = Some s /\ (SignedAngleDiff pi fl (theta es) (theta s) < 0)%R /\
      has_leading rv' = true /\ leading_velocity rv' = 0%R /\ leading_acc rv' = leading_acc rv /\
      leading_distance rv' = Rmin (velocity s * Q2R t) (leading_distance rv))).
Proof.
  intros T O Road Corridor ceqb road_of nearest_lane lane_at position theta velocity arc cor_poly pi fl p ns ca ow e es cur stored c rel_on rv fuel found
    Hok He Hes Hrel Hch.
  unfold inter_plan. rewrite Hch, He, Hrel, Hes. unfold yield_values. destruct found as [[t a]|].
  2:{ exists rv. split; [reflexivity|]. left. split; [reflexivity|discriminate]. }
  assert (Hg : exists id, get_agent (ow_world ow) id = Some a).
  { unfold check_intersecting in Hch. destruct (apply_settings _ _ _ _) as [sw|]; [|discriminate]. revert Hch. generalize 0%Q.
    induction fuel as [|f IH]; intros t0 H; [discriminate|]. cbn [detect_loop] in H.
    destruct (Qle_bool _ _); [discriminate|]. destruct (predict _ _ _) as [pw|]; [|discriminate].
    destruct (get_agents_intersecting _ _ _) as [m|]; [|discriminate]. destruct (intersecting_agent _ _ _ _ _ _ _ _ _ _ _ _ _ _) as [[id|]|]; [| |discriminate].
    - destruct (get_agent (ow_world ow) id) as [b|] eqn:Eb; [|exact (IH _ H)]. injection H as _ <-. eauto.
    - exact (IH _ H). }
  destruct Hg as (id & Hg). destruct (ok_state _ _ _ Hok Hg) as (s & Hs). rewrite Hs.
  destruct (Rltb_spec (SignedAngleDiff pi fl (theta es) (theta s)) 0) as [L|L].
  - eexists. split; [reflexivity|]. right. exists t, a, s. cbn. auto 10.
  - exists rv. split; [reflexivity|]. left. split; [reflexivity|]. intros t' a' s' E Hs'. injection E as <- <-. rewrite Hs in Hs'. injection Hs' as <-. lra.
Qed.
Print Assumptions C35_plan_values.

(** C35, consequence for the acceleration: with nobody ahead the plain relative values have distance 0 (see
    CalcRelativeValues), so a detection from the right makes the vehicle brake with the lower acceleration limit, no matter how far
    away the crossing is. *)
Theorem C35_full_braking_without_leader :
  forall (ip : idm_params) until_end ego_action rv (v t v0 : R) dt,
  (0 < max_acc ip)%R -> (0 < comf_brake ip)%R -> (0 < desired_vel ip)%R -> (acc_lb ip <= acc_ub ip)%R -> coolness ip = 0%R ->
  brake_lane_end ip = false -> (0 <= v * t)%R ->
  calc_relative_values ip None until_end ego_action = Some rv ->
  exists rest, total_acc ip v0 (mkRV (Rmin (v * t) (leading_distance rv)) 0 (leading_acc rv) true) (Rmin (v * t) (leading_distance rv))%R dt
    = Some (Fin (acc_lb ip), rest).
Proof.
  intros ip until_end ego_action rv v t v0 dt H1 H2 H3 H4 H5 H6 H7 Hrv. unfold calc_relative_values in Hrv. rewrite H6 in Hrv. 
  unfold Model_Dynamic.bind in Hrv. destruct (lon_acc_of ego_action); [|discriminate]. injection Hrv as <-. cbn [leading_distance leading_acc].
  unfold total_acc. cbn [has_leading leading_velocity leading_acc]. rewrite H5. destruct (Rltb_spec 0 0) as [L|L]; [lra|].
  unfold Model_Dynamic.bind. unfold idm_acc. rewrite raw_neg; [|split; lra|pose proof (Rmin_r (v * t) 0); lra].
  rewrite clamp_minf. eexists. reflexivity.
Qed.
Print Assumptions C35_full_braking_without_leader.

(** C35 refuted as "yields to vehicles from the right": the detection accepts only vehicles whose predicted heading is turned to the
    other side (difference above the angle limit), the reaction only those whose current difference is negative. If the prediction does not turn the
    vehicles (straight lanes), the behaviour never yields to anybody, whatever the traffic. *)
Theorem C35_straight_traffic_never_yields_refuted :
  forall (T : Types) (O : Ops T) (Road Corridor : Type) (ceqb : Corridor -> Corridor -> bool) road_of nearest_lane lane_at
         position theta velocity arc cor_poly pi fl (p : inter_params) (ns ca : tBM T) (ow : observed T) e es cur stored c rel_on rv,
  world_ok (ow_world ow) -> box_contract O -> (forall a b, ceqb a b = true <-> a = b) ->
  get_agent (ow_world ow) (ow_ego ow) = Some e -> current_state e = Some es -> rel_on c = Some rv ->
  (forall id a, get_agent (ow_world ow) id = Some a -> road_of id <> None) ->
  0 < ip_inc p -> (0 <= ip_angle p)%R ->
  (forall t pw id a s a' s', predicted_at O ns ca ow t pw -> get_agent (ow_world ow) id = Some a -> current_state a = Some s ->
     get_agent (ow_world pw) id = Some a' -> current_state a' = Some s' -> theta s' = theta s) ->
  exists n, forall fuel, (n <= fuel)%nat ->
  inter_plan O Road Corridor ceqb road_of nearest_lane lane_at position theta velocity arc cor_poly pi fl p fuel ns ca ow
    (Some cur) stored (Some c) rel_on = Done (Some (c, rv)).
Proof.
  intros T O Road Corridor ceqb road_of nearest_lane lane_at position theta velocity arc cor_poly pi fl p ns ca ow e es cur stored c rel_on rv
    Hok Hbox Hceq He Hes Hrel Hrd Hinc Hang Hstr.
  destruct (C35_earliest_predicted_conflict T O Road Corridor ceqb road_of nearest_lane lane_at position theta arc cor_poly pi fl p ns ca ow e c
              Hok Hbox Hceq He Hrd Hinc) as (n & Hn).
  exists n. intros fuel Hf. destruct (Hn fuel Hf) as (found & Hfound & Hspec).
  destruct (C35_plan_values T O Road Corridor ceqb road_of nearest_lane lane_at position theta velocity arc cor_poly pi fl p ns ca ow e es cur stored c
              rel_on rv fuel found Hok He Hes Hrel Hfound) as (rv' & E & [(-> & _)|(t & a & s & -> & Hs & Hneg & _)]); [exact E|].
  exfalso. destruct Hspec as (i & pw & id & -> & _ & Hp & Hg & Hc & _).
  destruct Hc as (e' & es' & a' & s' & re & ra & ce & ca' & G1 & G2 & G3 & G4 & _ & _ & _ & _ & _ & _ & _ & _ & G13 & _).
  rewrite (Hstr _ _ _ _ _ _ _ Hp Hg Hs G3 G4) in G13.
  assert (Eg : ow_ego pw = ow_ego ow).
  { destruct Hp as (sw & E1 & E2). unfold predict in E2. destruct (step _ _ _); [|discriminate]. injection E2 as <-. cbn.
    assert (Okc : world_ok (ow_world (clone_observed O ow))) by exact (clone_world_ok O _ Hok).
    exact (proj1 (C44_assignment T O ns _ _ _ (proj1 Okc) E1)). }
  rewrite Eg in G1. rewrite (Hstr _ _ _ _ _ _ _ Hp He Hes G1 G2) in G13. lra.
Qed.
Print Assumptions C35_straight_traffic_never_yields_refuted.

(** C35: a prediction increment that is not positive makes the check loop forever as soon as there is no conflict. *)
Theorem C35_nonpositive_increment_diverges :
  forall (T : Types) (O : Ops T) (Road Corridor : Type) (ceqb : Corridor -> Corridor -> bool) road_of nearest_lane lane_at
         position theta arc cor_poly pi fl (p : inter_params) (ns ca : tBM T) (ow : observed T) e c,
  world_ok (ow_world ow) -> box_contract O -> (forall a b, ceqb a b = true <-> a = b) ->
  get_agent (ow_world ow) (ow_ego ow) = Some e ->
  (forall id a, get_agent (ow_world ow) id = Some a -> road_of id <> None) ->
  ip_inc p <= 0 -> 0 < ip_horizon p ->
  (forall i pw id, predicted_at O ns ca ow (grid (ip_inc p) i) pw ->
     ~ conflict O Road Corridor road_of nearest_lane lane_at position theta arc cor_poly pi fl p c pw id) ->
  forall fuel, check_intersecting O Road Corridor ceqb road_of nearest_lane lane_at position theta arc cor_poly pi fl p fuel ns ca ow (Some c) = OutOfFuel.
Proof.
  intros T O Road Corridor ceqb road_of nearest_lane lane_at position theta arc cor_poly pi fl p ns ca ow e c
    Hok Hbox Hceq He Hrd Hinc Hh Hno fuel.
  assert (Okc : world_ok (ow_world (clone_observed O ow))) by exact (clone_world_ok O _ Hok). destruct (clone_world_spec O _ Hok) as (Ec & _).
  assert (FC : forall k, get_agent (ow_world (clone_observed O ow)) k = option_map (clone_agent O) (get_agent (ow_world ow) k)).
  { intros k. unfold get_agent. cbn. rewrite Ec. apply (m_find_map (agent T) (fun p => clone_agent O (snd p))). }
  assert (Hsw : exists sw, apply_settings O ns (mkSettings (Some ca) (Some ca) None []) (clone_observed O ow) = Some sw).
  { apply C44_defined; [exact (proj1 Okc)|]. cbn [ps_ego ps_specific ow_ego clone_observed]. split; [discriminate|]. split.
    - rewrite FC, He. discriminate.
    - intros N; congruence. }
  destruct Hsw as (sw & Esw). unfold check_intersecting. rewrite Esw.
  pose proof (assigned_world_ok T O ns _ _ _ Okc Esw) as Oks.
  destruct (C44_assignment T O ns _ _ _ (proj1 Okc) Esw) as (_ & (_ & Hkeys) & _ & _).
  change 0 with (grid (ip_inc p) 0). generalize 0%nat. induction fuel as [|f IH]; intros i; [reflexivity|]. cbn [detect_loop].
  destruct (Qle_bool (ip_horizon p) (grid (ip_inc p) i)) eqn:Eh.
  { apply Qle_bool_iff in Eh. exfalso. assert (grid (ip_inc p) i <= 0).
    { clear -Hinc. induction i as [|i IH]; cbn [grid]; Lqa.lra. } Lqa.lra. }
  destruct (predict_fresh O sw (grid (ip_inc p) i) Oks) as (pw & Ep & Eg & Okp & Frp & Hnone). rewrite Ep.
  destruct (time_spec O Road Corridor ceqb road_of nearest_lane lane_at position theta arc cor_poly pi fl Hceq Hbox p c pw Okp Frp) as (m & r & Em & Ei & Hr).
  { intros k a Hk. assert (N : get_agent (ow_world sw) k <> None) by (intros N; apply Hnone in N; congruence).
    unfold get_agent in N. apply keys_in in N. rewrite Hkeys in N. apply keys_in in N.
    change (get_agent (ow_world (clone_observed O ow)) k <> None) in N. rewrite FC in N.
    destruct (get_agent (ow_world ow) k) as [a'|] eqn:E; [exact (Hrd k a' E)|]. exfalso. exact (N eq_refl). }
  rewrite Em, Ei. destruct r as [id|].
  - exfalso. apply (Hno i pw id); [exists sw; auto|exact (proj1 Hr)].
  - exact (IH (S i)).
Qed.
Print Assumptions C35_nonpositive_increment_diverges.

(** Example: the ego (agent 1) and a vehicle on another lane (agent 2). At the first prediction step the ego has turned left and the
    other vehicle right; now the other vehicle comes from the right, and the ego yields. *)
Lemma signed_small a b : (- PI <= a - b < PI)%R -> SignedAngleDiff PI exact a b = (a - b)%R.
Proof.
  intros H. pose proof PI_RGT_0 as Hp. unfold SignedAngleDiff.
  destruct (C20_normtopi PI (a - b) Hp) as (_ & _ & U & _).
  rewrite <- (U (a - b)%R); [|exists 0%Z; lra|exact H].
  rewrite fmod_small by lra. lra.
Qed.
Definition ti_world : world TT := toy_line [(1, 0%Z); (2, 3%Z)]%N.
Definition ti_theta (x : Z) : R := if (x =? 1)%Z then (PI / 2)%R else if (x =? 3)%Z then (PI / 4)%R else 0%R.
Definition ti_crossing := is_crossing (T:=TT) unit bool Bool.eqb (fun _ => Some tt) (fun _ _ => Some false) (fun _ _ => Some true)
  (fun x => x) ti_theta (fun _ => IZR) PI exact inter_defaults.
Local Notation ti_check := (check_intersecting TO unit bool Bool.eqb (fun _ => Some tt) (fun _ _ => Some false) (fun _ _ => Some true)
  (fun x => x) ti_theta (fun _ => IZR) (fun _ => (-100, 100)%Z) PI exact inter_defaults).
Definition ti_bm : tBM TT := mkBM Model_World.VALID 1 0.
Lemma ti_cross : ti_crossing 1%N 1%Z tt 2%N 4%Z = true.
Proof.
  assert (Hpi : (3 / 2 < PI / 2)%R) by exact PI2_3_2. pose proof PI_4 as Hpi4.
  apply crossing_iff; [intros [] []; cbn; split; intros; congruence|].
  exists tt, false, true. repeat (split; [reflexivity || discriminate|]).
  split; [|split; cbv beta; cbn [inter_defaults ip_braking]; lra].
  change (ti_theta 1) with (PI / 2)%R. change (ti_theta 4) with 0%R. cbn [inter_defaults ip_angle].
  rewrite signed_small; lra.
Qed.
Lemma ti_cross1 : ti_crossing 1%N 1%Z tt 1%N 1%Z = false.
Proof. reflexivity. Qed.
Lemma ti_found : forall f, ti_check (S f) ti_bm ti_bm (mkObserved ti_world 1%N) (Some false) = Done (Some (0, toy_agent 2 3 1 Model_World.VALID 50 0)).
Proof.
  intros f.
  unfold check_intersecting.
  set (sw := apply_settings _ _ _ _). vm_compute in sw. subst sw. cbv iota beta.
  cbn [detect_loop]. set (pw := predict _ _ _). vm_compute in pw. subst pw.
  change (Qle_bool (ip_horizon inter_defaults) 0) with false. cbv iota beta. cbn [ow_world].
  set (m := get_agents_intersecting _ _ _). vm_compute in m. subst m. cbv iota beta. cbn [intersecting_agent].
  cbn [get_agent ow_world ow_ego w_agents m_find N.eqb Pos.eqb ag_id current_state ag_hist last_opt option_map fst].
  fold ti_crossing. rewrite ti_cross1, ti_cross. reflexivity.
Qed.

Example C35_nonvacuous :
  world_ok ti_world /\ box_contract TO /\ 0 < ip_inc inter_defaults /\
  (forall fuel, (0 < fuel)%nat -> exists a, get_agent ti_world 2%N = Some a /\
    ti_check fuel ti_bm ti_bm (mkObserved ti_world 1%N) (Some false) = Done (Some (0, a))) /\
  exists rv', inter_plan TO unit bool Bool.eqb (fun _ => Some tt) (fun _ _ => Some false) (fun _ _ => Some true)
    (fun x => x) ti_theta (fun _ => 5%R) (fun _ => IZR) (fun _ => (-100, 100)%Z) PI exact inter_defaults 20 ti_bm ti_bm
    (mkObserved ti_world 1%N) (Some false) None (Some false) (fun _ => Some (mkRV 0 1000000 0 false)) = Done (Some (false, rv')) /\
    has_leading rv' = true.
Proof.
  assert (Hpi : (3 / 2 < PI / 2)%R) by exact PI2_3_2. pose proof PI_4 as Hpi4.
  assert (Hok : world_ok ti_world).
  { split; [repeat constructor|]. split; [|discriminate]. intros k a H. apply m_find_In in H. cbn in H.
    destruct H as [H|[H|[]]]; injection H as <- <-; (split; [reflexivity|]); unfold agent_ok, kept; cbn; split; (discriminate || lia). }
  split; [exact Hok|]. split; [exact toy_box|]. split; [reflexivity|]. split.
  - intros fuel Hf. destruct fuel as [|f]; [lia|]. exists (toy_agent 2 3 1 Model_World.VALID 50 0). split; [reflexivity|]. exact (ti_found f).
  - pose proof (ti_found 19) as F. 
    pose proof (C35_plan_values TT TO unit bool Bool.eqb (fun _ => Some tt) (fun _ _ => Some false) (fun _ _ => Some true)
      (fun x => x) ti_theta (fun _ => 5%R) (fun _ => IZR) (fun _ => (-100, 100)%Z) PI exact inter_defaults ti_bm ti_bm
      (mkObserved ti_world 1%N) (toy_agent 1 0 1 Model_World.VALID 50 0) 0%Z false None false (fun _ => Some (mkRV 0 1000000 0 false)) (mkRV 0 1000000 0 false) 20%nat
       (Some (0, toy_agent 2 3 1 Model_World.VALID 50 0)) Hok eq_refl eq_refl eq_refl) as X.
    destruct (X F) as (rv' & E & [(_ & H)|(t & a & s & _ & _ & _ & H & _)]).
    + exfalso. specialize (H 0 (toy_agent 2 3 1 Model_World.VALID 50 0) 3%Z eq_refl eq_refl). change (ti_theta 0) with 0%R in H. change (ti_theta 3) with (PI / 4)%R in H.
      rewrite signed_small in H; lra.
    + exists rv'. split; [exact E|exact H].
Qed.

