(** C69, C70: the label functions of the temporal rules. *)
From Coq Require Import Reals List Bool Arith NArith ZArith QArith Lia Lra ClassicalDescription.
From Verif Require Import Base_Real Base_Geom Model_Map Proof_Map Model_World Spec_World Model_Angle Model_Line Model_Shape Model_Frenet
  Spec_Line Proof_Line Props_Line Toy_World Model_Labels.
Import ListNotations.
Local Open Scope R_scope.

Lemma bindo_some {A B} (x : option A) (f : A -> option B) y : bindo x f = Some y -> exists a, x = Some a /\ f a = Some y.
Proof. destruct x as [a|]; [eauto|discriminate]. Qed.
Lemma bind2_some {A B C} (x : option A) (y : option B) (f : A -> B -> option C) z : bind2 x y f = Some z ->
  exists a b, x = Some a /\ y = Some b /\ f a b = Some z.
Proof. destruct x as [a|], y as [b|]; try discriminate. eauto. Qed.

Section Labels.
  Context {T : Types} (O : Ops T).
  Variables (pos : tState T -> pt) (vel tm : tState T -> R) (front_d rear_d : tShape T -> R).
  Variable RC : Type.
  Variable road : agent T -> option RC.
  Variables (rc_current rc_nearest : RC -> pt -> option lanek).
  Variable rc_left_right : RC -> pt -> option lanek * option lanek.
  Variable poly_distance : tShape T -> tState T -> tShape T -> tState T -> R.
  Variable in_merged : lanek -> pt -> bool.
  Variable lines_meet : line -> line -> bool.
  (** road_corridor.cpp:41-54: the current lane corridor, if there is one, is the nearest one. *)
  Hypothesis nearest_current : forall r p l, rc_current r p = Some l -> rc_nearest r p = Some l.
  Notation front_of := (front_of pos front_d rear_d RC road rc_current).
  Notation behind_of := (behind_of pos front_d rear_d RC road rc_current rc_nearest).
  Notation ego_lane := (ego_lane pos RC road rc_nearest).

  (* ---------------------------------------------------------------- which agents are labelled *)
  (** C69. A label for pairs of agents has one entry for every other agent that is valid now, and no other entry; its value is that
      of the pair (ego, agent). It is undefined exactly when one of these values is. *)
  Theorem C69_one_label_per_valid_other_agent : forall f (ow : observed T), m_sorted (w_agents (ow_world ow)) ->
    match multi_agent O f ow with
    | Some labels => NoDup (map fst labels) /\
        forall id b, In (id, b) labels <-> exists a, id <> ow_ego ow /\ get_agent (ow_world ow) id = Some a /\ live_at O (ow_world ow) a /\ f ow a = Some b
    | None => exists id a, id <> ow_ego ow /\ get_agent (ow_world ow) id = Some a /\ live_at O (ow_world ow) a /\ f ow a = None
    end.
  Proof.
    intros f ow Hs. unfold multi_agent, get_valid_other_agents, get_valid_agents.
    set (g := fun p : N * agent T => _ && _). set (l := m_erase (ow_ego ow) (filter g (w_agents (ow_world ow)))).
    assert (In_l : forall id a, In (id, a) l <-> id <> ow_ego ow /\ get_agent (ow_world ow) id = Some a /\ live_at O (ow_world ow) a).
    { intros id a. unfold l, m_erase. rewrite filter_In, filter_In. unfold g. cbn [fst snd]. unfold get_agent.
      rewrite andb_true_iff, negb_true_iff, N.eqb_neq. unfold live_at.
      assert (V : is_valid (b_status O (ag_bm a)) = true <-> b_status O (ag_bm a) = VALID)
        by (destruct (b_status O (ag_bm a)); cbn; split; congruence).
      rewrite V. split.
      - intros ((I & A & B) & N). split; [exact N|]. split; [now apply (m_find_iff _ _ _ Hs)|]. auto.
      - intros (N & F & A & B). apply m_find_In in F. auto. }
    assert (Sl : m_sorted l) by (unfold l, m_erase; apply m_filter_sorted, m_filter_sorted; exact Hs).
    clearbody l. clear g Hs. revert In_l.
    assert (G : match label_all (f ow) l with
      | Some labels => map fst labels = map fst l /\ forall id b, In (id, b) labels <-> exists a, In (id, a) l /\ f ow a = Some b
      | None => exists id a, In (id, a) l /\ f ow a = None end).
    { clear Sl. induction l as [|(id, a) l IH]; cbn [label_all]; [split; [reflexivity|]; intros; split; [intros []|intros (? & [] & _)]|].
      destruct (f ow a) as [b|] eqn:F; cbn [bind2]; [|exists id, a; cbn; auto].
      destruct (label_all (f ow) l) as [m|].
      - destruct IH as (E & IH). split; [cbn; now rewrite E|]. intros id' b'. cbn. rewrite IH. split.
        + intros [K|(a' & I & F')]; [injection K as <- <-; exists a; auto|exists a'; auto].
        + intros (a' & [K|I] & F'); [left; injection K as -> ->; rewrite F in F'; injection F' as <-; reflexivity|right; eauto].
      - destruct IH as (id' & a' & I & F'). exists id', a'. cbn. auto. }
    intro In_l. destruct (label_all (f ow) l) as [labels|].
    - destruct G as (E & G). split; [rewrite E; now apply m_sorted_NoDup|]. intros id b. rewrite G. split.
      + intros (a & I & F). apply In_l in I as (? & ? & ?). eauto.
      + intros (a & ? & ? & ? & F). exists a. split; [apply In_l; auto|exact F].
    - destruct G as (id & a & I & F). apply In_l in I as (? & ? & ?). eauto 6.
  Qed.

  (* ---------------------------------------------------------------- front_of / behind_of *)
  (** The interval an agent at position [p] occupies along a lane. *)
  Definition occupies (lane : lanek) (a : agent T) (lo hi : R) : Prop :=
    exists p f, pos_of pos a = Some p /\ frenet_position p (lk_center lane) = Some f /\
      lo = p_lon f - rear_d (ag_shape a) /\ hi = p_lon f + front_d (ag_shape a).
  Definition lane_of (a : agent T) (lane : lanek) : Prop := exists r p, road a = Some r /\ pos_of pos a = Some p /\ rc_current r p = Some lane.

  (** C69. "front_of" ("behind_of") for an agent in a lane says that the ego's interval along the agent's lane lies entirely ahead
      of (behind) the agent's, so the two never hold together, and one of them holds exactly when the intervals do not overlap. *)
  Theorem C69_front_behind : forall ow ego other lane lo hi lo' hi', ego_of ow = Some ego -> lane_of other lane -> ego_lane ow <> Some None ->
    occupies lane ego lo hi -> occupies lane other lo' hi' -> lo < hi -> lo' < hi' ->
    exists f b, front_of ow other = Some f /\ behind_of ow other = Some b /\
      (f = true <-> hi' <= lo) /\ (b = true <-> hi <= lo') /\ ~ (f = true /\ b = true) /\
      ((f = true \/ b = true) <-> ~ exists x, lo < x < hi /\ lo' < x < hi').
  Proof.
    intros ow ego other lane lo hi lo' hi' He (r & p & Hr & Hp & Hc) Hl (pe & fe & Hpe & Hfe & -> & ->) (po & fo & Hpo & Hfo & -> & ->) L1 L2.
    rewrite Hp in Hpo. injection Hpo as <-.
    assert (EL : exists l, ego_lane ow = Some (Some l)).
    { unfold Model_Labels.ego_lane in *. rewrite He in *. cbn [bindo] in *. rewrite Hpe in *. cbn [bindo] in *.
      destruct (match road ego with Some _ => _ | None => _ end) as [l|]; [exists l; reflexivity|congruence]. }
    destruct EL as (el & EL).
    exists (Rleb (p_lon fo + front_d (ag_shape other)) (p_lon fe - rear_d (ag_shape ego))),
           (Rleb (p_lon fe + front_d (ag_shape ego)) (p_lon fo - rear_d (ag_shape other))).
    split; [|split; [|]].
    - unfold Model_Labels.front_of. rewrite He, Hr, Hp. cbn [bindo bind2]. rewrite Hc, Hpe. cbn [bindo]. rewrite Hfe, Hfo. reflexivity.
    - unfold Model_Labels.behind_of. rewrite He, EL, Hr, Hp. cbn [bindo bind2]. rewrite Hc, Hpe. cbn [bindo]. rewrite Hfe, Hfo. reflexivity.
    - destruct (Rleb_spec (p_lon fo + front_d (ag_shape other)) (p_lon fe - rear_d (ag_shape ego))) as [A|A],
               (Rleb_spec (p_lon fe + front_d (ag_shape ego)) (p_lon fo - rear_d (ag_shape other))) as [B|B]; try (exfalso; lra).
      + split; [tauto|]. split; [split; [discriminate|lra]|]. split; [intros (_ & K); discriminate|].
        split; [intros _ (x & X); lra|auto].
      + split; [split; [discriminate|lra]|]. split; [tauto|]. split; [intros (K & _); discriminate|].
        split; [intros _ (x & X); lra|auto].
      + split; [split; [discriminate|lra]|]. split; [split; [discriminate|lra]|]. split; [intros (K & _); discriminate|].
        split; [intros [K|K]; discriminate|]. intro K. exfalso. apply K.
        exists ((Rmax (p_lon fe - rear_d (ag_shape ego)) (p_lon fo - rear_d (ag_shape other)) +
                 Rmin (p_lon fe + front_d (ag_shape ego)) (p_lon fo + front_d (ag_shape other))) / 2).
        unfold Rmax, Rmin. destruct (Rle_dec _ _), (Rle_dec _ _); lra.
  Qed.

  (** C69. Without a lane neither label holds: the agent is outside every lane, or (behind_of) the ego has none. *)
  Theorem C69_no_lane : forall ow ego other r po le, ego_of ow = Some ego -> road other = Some r -> pos_of pos other = Some po -> ego_lane ow = Some le ->
    (rc_current r po = None -> front_of ow other = Some false) /\ (rc_current r po = None \/ le = None -> behind_of ow other = Some false).
  Proof.
    intros ow ego other r po le He Hr Hp El. split.
    - intro C. unfold Model_Labels.front_of. rewrite He, Hr, Hp. cbn [bindo bind2]. now rewrite C.
    - intro C. unfold Model_Labels.behind_of. rewrite He, El, Hr, Hp. cbn [bindo bind2]. destruct C as [-> | ->]; [now destruct le|reflexivity].
  Qed.

  (** C69. For two agents in the same lane the labels are dual: a is in front of b iff b is behind a. *)
  Theorem C69_front_behind_dual : forall (w : world T) i j a b lane, get_agent w i = Some a -> get_agent w j = Some b ->
    lane_of a lane -> lane_of b lane ->
    front_of (mkObserved w i) b = behind_of (mkObserved w j) a.
  Proof.
    intros w i j a b lane Ha Hb (ra & pa & Hra & Hpa & Hca) (rb & pb & Hrb & Hpb & Hcb).
    unfold Model_Labels.front_of, Model_Labels.behind_of, Model_Labels.ego_lane, ego_of. cbn [ow_world ow_ego].
    rewrite Ha, Hb. cbn [bindo]. rewrite Hra, Hpa, Hrb, Hpb. cbn [bindo bind2]. rewrite Hca, Hcb, (nearest_current _ _ _ Hcb).
    destruct (frenet_position pa (lk_center lane)), (frenet_position pb (lk_center lane)); reflexivity.
  Qed.

  (** C69. left_of (right_of): the lane left (right) of the agent is the ego's lane; both hold only if the two neighbours are the
      same lane. *)
  Theorem C69_side : forall ow ego other r po le pe, ego_of ow = Some ego -> pos_of pos ego = Some pe ->
    road other = Some r -> pos_of pos other = Some po -> ego_lane ow = Some le ->
    exists lb rb, left_of pos RC road rc_nearest rc_left_right ow other = Some lb /\ right_of pos RC road rc_nearest rc_left_right ow other = Some rb /\
      (lb = true <-> exists l e, fst (rc_left_right r po) = Some l /\ le = Some e /\ lk_lanes l = lk_lanes e) /\
      (rb = true <-> exists l e, snd (rc_left_right r po) = Some l /\ le = Some e /\ lk_lanes l = lk_lanes e).
  Proof.
    assert (EQ : forall a b, lk_eqb a b = true <-> lk_lanes a = lk_lanes b).
    { intros a b. unfold lk_eqb. rewrite andb_true_iff, Nat.eqb_eq. generalize (lk_lanes a) (lk_lanes b). intro l.
      induction l as [|x l IH]; intros [|y m]; cbn; try (split; [intros (? & _); discriminate|discriminate]); [tauto|].
      rewrite andb_true_iff, N.eqb_eq. specialize (IH m). split.
      - intros (A & -> & B). f_equal. apply IH. auto.
      - intros K. injection K as -> ->. destruct IH as (_ & IH). destruct (IH eq_refl). auto. }
    intros ow ego other r po le pe He Hpe Hr Hp El.
    assert (K : forall x : option lanek, match x, le with Some l, Some e => lk_eqb l e | _, _ => false end = true <->
                exists l e, x = Some l /\ le = Some e /\ lk_lanes l = lk_lanes e).
    { intros [l|]; destruct le as [e|]; try (split; [discriminate|intros (? & ? & ? & ? & _); discriminate]).
      rewrite EQ. split; [eauto|]. intros (? & ? & A & B & C). congruence. }
    eexists _, _. unfold left_of, right_of, side_of. rewrite El, Hr, Hp. cbn [bindo bind2]. split; [reflexivity|]. split; [reflexivity|].
    split; apply K.
  Qed.

  (** C69. rel_speed: the ego is faster by at least the threshold; for a positive threshold never both ways. *)
  Theorem C69_rel_speed : forall thr (w : world T) i j a b sa sb, get_agent w i = Some a -> get_agent w j = Some b ->
    current_state a = Some sa -> current_state b = Some sb ->
    exists x y, rel_speed vel thr (mkObserved w i) b = Some x /\ rel_speed vel thr (mkObserved w j) a = Some y /\
      (x = true <-> vel sb + thr <= vel sa) /\ (y = true <-> vel sa + thr <= vel sb) /\ (0 < thr -> ~ (x = true /\ y = true)).
  Proof.
    intros thr w i j a b sa sb Ha Hb Sa Sb. unfold rel_speed, ego_of. cbn [ow_world ow_ego]. rewrite Ha, Hb. cbn [bindo]. rewrite Sa, Sb. cbn [bind2].
    eexists _, _. split; [reflexivity|]. split; [reflexivity|].
    destruct (Rleb_spec thr (vel sa - vel sb)), (Rleb_spec thr (vel sb - vel sa)); repeat split; intros; try discriminate; try lra; intuition discriminate.
  Qed.
  (** C69. agent_near: the footprints are closer than the threshold, from whichever side it is asked. *)
  Theorem C69_near : forall thr (w : world T) i j a b sa sb, get_agent w i = Some a -> get_agent w j = Some b ->
    current_state a = Some sa -> current_state b = Some sb ->
    (forall s1 x1 s2 x2, 0 <= poly_distance s1 x1 s2 x2 /\ poly_distance s1 x1 s2 x2 = poly_distance s2 x2 s1 x1) ->
    exists x, agent_near poly_distance thr (mkObserved w i) b = Some x /\ agent_near poly_distance thr (mkObserved w j) a = Some x /\
      (x = true <-> poly_distance (ag_shape a) sa (ag_shape b) sb < thr).
  Proof.
    intros thr w i j a b sa sb Ha Hb Sa Sb P. unfold agent_near, ego_of. cbn [ow_world ow_ego]. rewrite Ha, Hb. cbn [bindo]. rewrite Sa, Sb. cbn [bind2].
    destruct (P (ag_shape a) sa (ag_shape b) sb) as (P0 & P1). rewrite <- P1. eexists. split; [reflexivity|]. split; [reflexivity|].
    rewrite Rabs_pos_eq by exact P0. destruct (Rltb_spec (poly_distance (ag_shape a) sa (ag_shape b) sb) thr); split; intros; try discriminate; auto; lra.
  Qed.

  (** C69. The label "succeeding/preceding agent" holds for the reported front agent of the ego and for no other agent. *)
  Theorem C69_preceding : forall front ow lane f, ego_lane ow = Some (Some lane) -> front ow lane = Some f ->
    forall other, exists b, succeeding pos RC road rc_nearest front ow other = Some b /\
      (b = true <-> exists a, f = Some a /\ ag_id a = ag_id other).
  Proof.
    intros front ow lane f El Hf other. unfold succeeding. rewrite El. cbn [bindo]. rewrite Hf. cbn [bindo]. eexists. split; [reflexivity|].
    destruct f as [a|]; [|split; [discriminate|intros (? & ? & _); discriminate]].
    rewrite N.eqb_eq. split; [eauto|]. intros (? & K & ?). congruence.
  Qed.

  (* ---------------------------------------------------------------- C70 *)
  (** C70. Leftmost (rightmost) lane: there is no lane on that side or it ends within the threshold ahead of the vehicle's front. *)
  Theorem C70_outermost : forall side thr a r p, road a = Some r -> pos_of pos a = Some p ->
    match side (rc_left_right r p) with
    | None => outermost pos front_d RC road rc_left_right side thr a = Some true
    | Some lane => forall s, get_nearest_s (lk_center lane) p = Some s ->
        exists b, outermost pos front_d RC road rc_left_right side thr a = Some b /\
          (b = true <-> line_length (lk_center lane) <= s + front_d (ag_shape a) + thr)
    end.
  Proof.
    intros side thr a r p Hr Hp. unfold outermost. rewrite Hr, Hp. cbn [bind2]. destruct (side (rc_left_right r p)) as [lane|]; [|reflexivity].
    intros s Hs. unfold length_until_end. rewrite Hs. cbn [bindo]. eexists. split; [reflexivity|].
    rewrite negb_true_iff. destruct (Rltb_spec thr (line_length (lk_center lane) - s - front_d (ag_shape a))); split; intros; try discriminate; auto; lra.
  Qed.

  (** C70. At the lane end: the front is within the threshold of the end ... *)
  Theorem C70_at_lane_end : forall thr ow other r p lane s, road other = Some r -> pos_of pos other = Some p -> rc_nearest r p = Some lane ->
    get_nearest_s (lk_center lane) p = Some s ->
    exists b, at_lane_end pos front_d RC road rc_nearest thr ow other = Some b /\
      (b = true <-> line_length (lk_center lane) - thr < s + front_d (ag_shape other) < line_length (lk_center lane) + thr).
  Proof.
    intros thr ow other r p lane s Hr Hp Hl Hs. unfold at_lane_end. rewrite Hr, Hp. cbn [bind2]. rewrite Hl. cbn [bindo].
    unfold length_until_end. rewrite Hs. cbn [bindo]. eexists. split; [reflexivity|].
    destruct (Rltb_spec (Rabs (line_length (lk_center lane) - s - front_d (ag_shape other))) thr) as [L|L].
    - apply Rabs_def2 in L. split; [lra|auto].
    - split; [discriminate|]. intro K. exfalso. apply Rnot_lt_le in L || idtac. assert (Rabs (line_length (lk_center lane) - s - front_d (ag_shape other)) < thr); [apply Rabs_def1; lra|lra].
  Qed.
  (** ... so an agent standing at the very end of its lane is NOT reported at the lane end when its front overhang reaches the
      threshold (refutes: "an agent whose remaining lane is shorter than the threshold is at the lane end"). *)
  Theorem C70_at_lane_end_refuted : forall thr ow other r p lane, road other = Some r -> pos_of pos other = Some p -> rc_nearest r p = Some lane ->
    get_nearest_s (lk_center lane) p = Some (line_length (lk_center lane)) -> thr <= front_d (ag_shape other) ->
    at_lane_end pos front_d RC road rc_nearest thr ow other = Some false.
  Proof.
    intros thr ow other r p lane Hr Hp Hl Hs Ht. destruct (C70_at_lane_end thr ow other r p lane _ Hr Hp Hl Hs) as ([|] & -> & K); [|reflexivity].
    destruct K as (K & _). specialize (K eq_refl). lra.
  Qed.

  (** C70. Accelerating: with a history of at least three states, the mean acceleration between the last two is at least the
      threshold; with a shorter history the label is false whatever the ego does. *)
  Theorem C70_accelerate : forall thr ow e h s0 a0 s1 a1, ego_of ow = Some e -> ag_hist e = h ++ [(s0, a0); (s1, a1)] -> tm s0 < tm s1 ->
    exists b, ego_accelerate vel tm thr ow = Some b /\ (b = true <-> h <> [] /\ vel s0 + thr * (tm s1 - tm s0) <= vel s1).
  Proof.
    intros thr ow e h s0 a0 s1 a1 He Hh Ht. unfold ego_accelerate. rewrite He. cbn [bindo]. rewrite Hh, app_length. cbn [length].
    rewrite rev_app_distr. cbn [rev app]. destruct h as [|x h].
    - cbn. eexists. split; [reflexivity|]. split; [discriminate|tauto].
    - replace (Nat.ltb 2 (length (x :: h) + 2)) with true by (symmetry; apply Nat.ltb_lt; cbn; lia).
      destruct (Reqb_spec (tm s1 - tm s0) 0); [lra|]. eexists. split; [reflexivity|].
      assert (E : (vel s1 - vel s0) / (tm s1 - tm s0) * (tm s1 - tm s0) = vel s1 - vel s0) by (field; lra).
      destruct (Rleb_spec thr ((vel s1 - vel s0) / (tm s1 - tm s0))); split; intros K; try discriminate; auto.
      + split; [discriminate|]. nra.
      + exfalso. destruct K as (_ & K). nra.
  Qed.

  (** C70. Two equal time stamps at the end of the history: no value (division by zero). *)
  Theorem C70_accelerate_equal_times : forall thr ow e x h s0 a0 s1 a1, ego_of ow = Some e -> ag_hist e = (x :: h) ++ [(s0, a0); (s1, a1)] ->
    tm s0 = tm s1 -> ego_accelerate vel tm thr ow = None.
  Proof.
    intros thr ow e x h s0 a0 s1 a1 He Hh Ht. unfold ego_accelerate. rewrite He. cbn [bindo]. rewrite Hh, app_length.
    replace (Nat.ltb 2 (length (x :: h) + length [(s0, a0); (s1, a1)])) with true by (symmetry; apply Nat.ltb_lt; cbn; lia).
    rewrite rev_app_distr. cbn [rev app]. destruct (Reqb_spec (tm s1 - tm s0) 0); [reflexivity|lra].
  Qed.

  (** C70. Dense traffic: at least the given number of other agents -- valid or not -- are closer than the radius. *)
  Theorem C70_dense_traffic : forall radius num ow e pe, ego_of ow = Some e -> pos_of pos e = Some pe ->
    (forall id a, In (id, a) (w_agents (ow_world ow)) -> current_state a <> None) ->
    exists b, dense_traffic pos radius num ow = Some b /\
      (b = true <-> (num <= Z.of_nat (length (filter (fun x => match pos_of pos (snd x) with Some p => Rltb (dist pe p) (Rabs radius) | None => false end)
                                              (filter (fun x => negb (N.eqb (fst x) (ow_ego ow))) (w_agents (ow_world ow))))))%Z).
  Proof.
    intros radius num ow e pe He Hp Hs. unfold dense_traffic. rewrite He. cbn [bindo]. rewrite Hp. cbn [bindo].
    unfold get_other_agents, m_erase. set (l := filter _ (w_agents (ow_world ow))) at 1.
    assert (Hl : forall id a, In (id, a) l -> current_state a <> None) by (intros id a I; apply filter_In in I as (I & _); eapply Hs; eauto).
    assert (Ec : l = filter (fun x => negb (N.eqb (fst x) (ow_ego ow))) (w_agents (ow_world ow))) by reflexivity.
    rewrite <- Ec. clearbody l. clear Ec Hs.
    assert (G : exists n, count_within pos pe radius l = Some n /\
       n = Z.of_nat (length (filter (fun x => match pos_of pos (snd x) with Some p => Rltb (dist pe p) (Rabs radius) | None => false end) l))).
    { induction l as [|(id, a) l IH]; [exists 0%Z; auto|].
      destruct IH as (n & E & ->); [intros; apply (Hl id0); cbn; auto|]. cbn [count_within filter snd].
      assert (K : current_state a <> None) by (apply (Hl id); cbn; auto).
      assert (Ep : exists p, pos_of pos a = Some p) by (unfold pos_of; destruct (current_state a) as [s|]; [cbn; eauto|congruence]).
      destruct Ep as (p & Ep). rewrite Ep, E. cbn [bind2].
      rewrite Rabs_pos_eq by apply dist_nonneg. eexists. split; [reflexivity|].
      destruct (Rltb _ _); cbn [length]; lia. }
    destruct G as (n & -> & ->). cbn [bindo]. eexists. split; [reflexivity|]. apply Z.leb_le.
  Qed.

  (** C70. Beyond a point: strictly further along the lane. No agent is ever beyond a point that projects onto the end of the
      lane. *)
  Theorem C70_beyond : forall q lane p fa fq, frenet_position p (lk_center lane) = Some fa -> frenet_position q (lk_center lane) = Some fq ->
    exists b, ahead_of_point (Some lane) q p = Some b /\ (b = true <-> p_lon fq < p_lon fa).
  Proof.
    intros q lane p fa fq Ha Hq. unfold ahead_of_point. rewrite Ha, Hq. cbn [bind2]. eexists. split; [reflexivity|].
    destruct (Rltb_spec 0 (p_lon fa - p_lon fq)); split; intros; try discriminate; auto; lra.
  Qed.
  (** C70. The remaining labels. Below the speed limit: strictly. On the road: inside the nearest lane's polygon. Beyond a point: along
      the agent's current lane (the ego: its nearest lane); false without a lane. *)
  Theorem C70_other_labels : forall ow e other se so r re limit q,
    ego_of ow = Some e -> current_state e = Some se -> current_state other = Some so -> road other = Some r -> road e = Some re ->
    (exists b, below_speed_limit vel limit ow other = Some b /\ (b = true <-> vel so < limit)) /\
    (exists b, ego_below_speed vel limit ow = Some b /\ (b = true <-> vel se < limit)) /\
    (exists b, on_road pos RC road rc_nearest in_merged ow other = Some b /\
       (b = true <-> exists lane, rc_nearest r (pos so) = Some lane /\ in_merged lane (pos so) = true)) /\
    agent_beyond pos RC road rc_current q ow other = ahead_of_point (rc_current r (pos so)) q (pos so) /\
    ego_beyond pos RC road rc_nearest q ow = ahead_of_point (rc_nearest re (pos se)) q (pos se) /\
    (forall thr, rightmost_lane pos front_d RC road rc_left_right thr ow other = outermost pos front_d RC road rc_left_right snd thr other /\
      ego_leftmost pos front_d RC road rc_left_right thr ow = outermost pos front_d RC road rc_left_right fst thr e /\
      ego_rightmost pos front_d RC road rc_left_right thr ow = outermost pos front_d RC road rc_left_right snd thr e) /\
    ahead_of_point None q (pos so) = Some false.
  Proof.
    intros ow e other se so r re limit q He Se So Hr Hre.
    assert (LT : forall x y, Rltb x y = true <-> x < y) by (intros x y; destruct (Rltb_spec x y); split; intros; try discriminate; auto; lra).
    split; [unfold below_speed_limit; rewrite So; cbn [bindo]; eexists; split; [reflexivity|apply LT]|].
    split; [unfold ego_below_speed; rewrite He; cbn [bindo]; rewrite Se; cbn [bindo]; eexists; split; [reflexivity|apply LT]|].
    split.
    { unfold on_road, pos_of. rewrite Hr, So. cbn [bind2 option_map]. eexists. split; [reflexivity|].
      destruct (rc_nearest r (pos so)) as [l|]; [|split; [discriminate|intros (? & ? & _); discriminate]].
      split; [eauto|]. intros (? & K & ?). congruence. }
    split; [unfold agent_beyond, pos_of; rewrite Hr, So; reflexivity|].
    split; [unfold ego_beyond, Model_Labels.ego_lane, pos_of; rewrite He; cbn [bindo]; rewrite Se; cbn [bindo option_map]; rewrite Hre; reflexivity|].
    split; [|reflexivity]. intro thr. unfold rightmost_lane, ego_leftmost, ego_rightmost. rewrite He. auto.
  Qed.
End Labels.

(* ------------------------------------------------------------------------- lane changes *)
(** Two lines share a point. *)
Definition share_point (a b : line) : Prop := exists P, on_polyline (pts a) P /\ on_polyline (pts b) P.

Section LaneChange.
  Context {T : Types}.
  Variables (pos : tState T -> pt) (RC : Type) (road : agent T -> option RC) (rc_nearest : RC -> pt -> option lanek).
  Variable lines_meet : line -> line -> bool.
  Hypothesis meet_spec : forall a b, lines_meet a b = true <-> share_point a b.

  (** C70. The label "lane change" compares the last move of the ego with the boundaries of the lane it is in now. *)
  Theorem C70_lane_change : forall ow e h s0 a0 s1 a1 lane, ego_of ow = Some e -> ag_hist e = h ++ [(s0, a0); (s1, a1)] ->
    ego_lane pos RC road rc_nearest ow = Some (Some lane) ->
    exists b, lane_change pos RC road rc_nearest lines_meet ow = Some b /\
      (b = true <-> exists t, 0 <= t <= 1 /\ (on_polyline (pts (lk_left lane)) (lerp t (pos s0) (pos s1)) \/
                                              on_polyline (pts (lk_right lane)) (lerp t (pos s0) (pos s1)))).
  Proof.
    intros ow e h s0 a0 s1 a1 lane He Hh El. unfold lane_change. rewrite He. cbn [bindo]. rewrite El. cbn [bindo]. rewrite Hh, app_length.
    replace (Nat.leb 2 (length h + length [(s0, a0); (s1, a1)])) with true by (symmetry; apply Nat.leb_le; cbn; lia).
    rewrite rev_app_distr. cbn [rev app]. eexists. split; [reflexivity|].
    set (m := add_point (add_point empty_line (pos s0)) (pos s1)).
    assert (M : forall P, on_polyline (pts m) P <-> exists t, 0 <= t <= 1 /\ P = lerp t (pos s0) (pos s1)).
    { intro P. cbn. unfold on_polyline, on_segment. split.
      - intros ([|[|i]] & t & p & q & Hp & Hq & Ht & E); cbn in Hp, Hq; try discriminate; try (destruct i; discriminate).
        injection Hp as <-; injection Hq as <-; eauto.
      - intros (t & Ht & E). exists 0%nat, t, (pos s0), (pos s1). auto. }
    rewrite orb_true_iff, !meet_spec. unfold share_point. split.
    - intros [(P & A & B)|(P & A & B)]; apply M in A as (t & Ht & ->); eauto.
    - intros (t & Ht & [A|A]); [left|right]; (eexists; split; [apply M; eauto|exact A]).
  Qed.

  (** C70. On a straight lane (boundaries y = 0 and y = w over [0, len]) a move is reported unless it stays strictly inside the
      lane or strictly on one side of it. *)
  Theorem C70_lane_change_straight : forall ow e h s0 a0 s1 a1 lane len w, ego_of ow = Some e -> ag_hist e = h ++ [(s0, a0); (s1, a1)] ->
    ego_lane pos RC road rc_nearest ow = Some (Some lane) -> 0 < len -> 0 < w ->
    pts (lk_right lane) = [(0, 0); (len, 0)] -> pts (lk_left lane) = [(0, w); (len, w)] ->
    0 <= fst (pos s0) <= len -> 0 <= fst (pos s1) <= len ->
    let y0 := snd (pos s0) in let y1 := snd (pos s1) in
    exists b, lane_change pos RC road rc_nearest lines_meet ow = Some b /\
      (b = false <-> (y0 < 0 /\ y1 < 0) \/ (0 < y0 < w /\ 0 < y1 < w) \/ (w < y0 /\ w < y1)).
  Proof.
    intros ow e h s0 a0 s1 a1 lane len w He Hh El Hlen Hw Hr Hl X0 X1 y0 y1.
    destruct (C70_lane_change ow e h s0 a0 s1 a1 lane He Hh El) as (b & -> & K). exists b. split; [reflexivity|].
    assert (B : forall c P, on_polyline [(0, c); (len, c)] P <-> snd P = c /\ 0 <= fst P <= len).
    { intros c (x, y). unfold on_polyline, on_segment. cbn [fst snd]. split.
      - intros ([|[|i]] & t & p & q & Hp & Hq & Ht & E); cbn in Hp, Hq; try discriminate; try (destruct i; discriminate).
        injection Hp as <-; injection Hq as <-. unfold lerp in E. cbn [fst snd] in E. injection E as -> ->. split; [ring|]. split; nra.
      - intros (-> & Hx). exists 0%nat, (x / len), (0, c), (len, c). repeat split; auto.
        + apply Rmult_le_reg_r with len; auto. unfold Rdiv. rewrite Rmult_assoc, Rinv_l by lra. lra.
        + apply Rmult_le_reg_r with len; auto. unfold Rdiv. rewrite Rmult_assoc, Rinv_l by lra. lra.
        + unfold lerp. cbn [fst snd]. f_equal; field; lra. }
    rewrite Hl, Hr in K.
    assert (K' : b = true <-> exists t, 0 <= t <= 1 /\ (y0 + t * (y1 - y0) = w \/ y0 + t * (y1 - y0) = 0)).
    { rewrite K. split.
      - intros (t & Ht & [A|A]); apply B in A as (A & _); unfold lerp in A; cbn [snd] in A; exists t; (split; [exact Ht|]); [left|right]; unfold y0, y1; lra.
      - intros (t & Ht & A). exists t. split; [exact Ht|]. destruct A as [A|A]; [left|right]; apply B; unfold lerp; cbn [fst snd]; unfold y0, y1 in A;
          (split; [lra|nra]). }
    clear K B. revert K'. generalize y0 y1. clear - Hw. intros y0 y1 K.
    assert (Cross : forall c, (y0 <= c <= y1 \/ y1 <= c <= y0) -> exists t, 0 <= t <= 1 /\ y0 + t * (y1 - y0) = c).
    { intros c D. destruct (Req_dec y0 y1) as [->|N]; [exists 0; lra|].
      exists ((c - y0) / (y1 - y0)). assert (E : (c - y0) / (y1 - y0) * (y1 - y0) = c - y0) by (field; lra). split; [|lra].
      destruct D as [D|D].
      - assert (0 < y1 - y0) by lra. split; nra.
      - assert (y1 - y0 < 0) by lra. split; nra. }
    split.
    - intros ->. assert (N : forall c, c = w \/ c = 0 -> ~ (y0 <= c <= y1 \/ y1 <= c <= y0)).
      { intros c Hc D. destruct (Cross c D) as (t & Ht & E). assert (false = true) by (apply K; exists t; destruct Hc; subst; auto). discriminate. }
      pose proof (N w (or_introl eq_refl)) as N1. pose proof (N 0 (or_intror eq_refl)) as N2. clear - N1 N2 Hw.
      destruct (Rtotal_order y0 0) as [?|[?|?]], (Rtotal_order y1 0) as [?|[?|?]], (Rtotal_order y0 w) as [?|[?|?]], (Rtotal_order y1 w) as [?|[?|?]];
        first [exfalso; lra | exfalso; apply N2; lra | exfalso; apply N1; lra | left; lra | right; left; lra | right; right; lra].
    - intro D. destruct b; [|reflexivity]. exfalso. destruct K as (K & _). destruct (K eq_refl) as (t & Ht & E).
      assert (U : forall c, y0 < c -> y1 < c -> y0 + t * (y1 - y0) < c).
      { intros c A B. destruct (Req_dec t 0) as [->|Nt]; [lra|]. nra. }
      assert (L : forall c, c < y0 -> c < y1 -> c < y0 + t * (y1 - y0)).
      { intros c A B. destruct (Req_dec t 0) as [->|Nt]; [lra|]. nra. }
      destruct D as [(A & B)|[((A & A') & (B & B'))|(A & B)]].
      + pose proof (U _ A B). lra.
      + pose proof (U _ A' B'). pose proof (L _ A B). lra.
      + pose proof (L _ A B). lra.
  Qed.
End LaneChange.

(** C70. A label made from an evaluator depends on the current world only: the evaluator is copied for every evaluation. *)
Theorem C70_generic_history_free : forall (E W : Type) (eval : E -> W -> E * bool) has_ego (e : E) ws w,
  snd (generic_ego eval has_ego (fold_left (fun e w => fst (generic_ego eval has_ego e w)) ws e) w) = snd (generic_ego eval has_ego e w).
Proof.
  intros E W eval has_ego e ws w. replace (fold_left _ ws e) with e; [reflexivity|]. induction ws as [|x ws IH]; cbn; auto.
Qed.

(* ------------------------------------------------------------------------- straight lanes *)
Definition straight (x0 x1 : R) : line := add_points empty_line [(x0, 0); (x1, 0)].
Lemma straight_pts x0 x1 : pts (straight x0 x1) = [(x0, 0); (x1, 0)]. Proof. reflexivity. Qed.
Lemma dist_axis a b : dist (a, 0) (b, 0) = Rabs (a - b).
Proof. unfold dist. cbn [fst snd]. replace (_ + _) with ((a - b) * (a - b)) by ring. apply sqrt_Rsqr_abs. Qed.
Lemma straight_tangent x0 x1 s : x0 <> x1 -> exists t, get_tangent_angle_at_s (straight x0 x1) s = Some t.
Proof.
  intro N. assert (ES : ss (straight x0 x1) = [0; Rabs (x1 - x0)]).
  { cbn. rewrite dist_refl, dist_axis. f_equal; [ring|]. f_equal. rewrite Rabs_minus_sym. rewrite <- (dist_axis x0 x1), dist_sym, dist_axis. ring. }
  unfold get_tangent_angle_at_s. rewrite ES. unfold last_opt. cbn [length Nat.sub nth_error]. rewrite straight_pts.
  destruct (Rleb_spec (Rabs (x1 - x0)) s); [cbn; eauto|]. destruct (Rleb_spec s 0); [cbn; eauto|].
  unfold at_vertex, segment_end_idx. rewrite ES. cbn [upper_bound lower_bound length].
  destruct (Rltb_spec s 0); [lra|]. destruct (Rltb_spec s (Rabs (x1 - x0))); [|lra].
  destruct (Rltb_spec 0 s); [|lra]. destruct (Rltb_spec (Rabs (x1 - x0)) s); [lra|]. cbn. eauto.
Qed.
(** The longitudinal coordinate along a straight lane is the distance from its start. *)
Lemma straight_lon x0 x1 x y : x0 <> x1 -> (x0 <= x <= x1 \/ x1 <= x <= x0) ->
  exists f, frenet_position (x, y) (straight x0 x1) = Some f /\ p_lon f = Rabs (x - x0).
Proof.
  intros NE Hx. set (l := straight x0 x1). assert (C : arc_lengths_of (pts l) (ss l)) by apply recompute_spec.
  assert (NE' : (x0, 0) <> (x1, 0)) by congruence.
  destruct (C24_nearest_point l (x, y) (x0, 0) (x1, 0) [] C eq_refl NE') as (N & s & k & t & EN & (p & q & Hp & Hq & Ht & EL) & AA & M).
  assert (k = 0%nat). { destruct k as [|k]; auto. cbn in Hq. destruct k; discriminate. } subst k. cbn in Hp, Hq. injection Hp as <-. injection Hq as <-.
  assert (HN : dist (x, y) N <= dist (x, y) (x, 0)).
  { apply M. exists 0%nat, ((x - x0) / (x1 - x0)), (x0, 0), (x1, 0).
    assert (E : (x - x0) / (x1 - x0) * (x1 - x0) = x - x0) by (field; lra).
    repeat split; try (destruct Hx; nra). unfold lerp. cbn [fst snd]. f_equal; [lra|ring]. }
  assert (EN' : N = (x, 0)).
  { rewrite EL in HN |- *. apply dist_le_iff in HN. unfold dist2, lerp in HN |- *. cbn [fst snd] in HN |- *.
    assert (K : (x - (x0 + t * (x1 - x0))) * (x - (x0 + t * (x1 - x0))) <= 0) by (ring_simplify in HN; ring_simplify; lra).
    f_equal; [|ring]. assert (x - (x0 + t * (x1 - x0)) = 0) by (apply Rsqr_0_uniq; unfold Rsqr; pose proof (sq_nonneg (x - (x0 + t * (x1 - x0)))); lra). lra. }
  assert (Es : s = Rabs (x - x0)).
  { destruct AA as (j & u & v & z & H1 & H2 & H3 & H4 & ->).
    assert (j = 0%nat). { destruct j as [|j]; auto. cbn in H2. destruct j; discriminate. } subst j. cbn in H1, H2. injection H1 as <-. injection H2 as <-.
    rewrite EN'. unfold l. rewrite straight_pts. cbn [firstn polyline_length]. rewrite dist_axis, Rabs_minus_sym. ring. }
  destruct (straight_tangent x0 x1 s NE) as (a & Ta). unfold frenet_position. rewrite EN. fold l in Ta. rewrite Ta. eexists. split; [reflexivity|]. exact Es.
Qed.

(** C70. No agent is ever reported beyond a point that projects onto the end of the lane. *)
Theorem C70_never_beyond_lane_end : forall lane p q p0 p1 r fq b, arc_lengths_of (pts (lk_center lane)) (ss (lk_center lane)) ->
  pts (lk_center lane) = p0 :: p1 :: r -> p0 <> p1 ->
  frenet_position q (lk_center lane) = Some fq -> line_length (lk_center lane) <= p_lon fq ->
  ahead_of_point (Some lane) q p = Some b -> b = false.
Proof.
  intros lane p q p0 p1 r fq b C EP NE Hq Hl. unfold ahead_of_point. rewrite Hq.
  destruct (frenet_position p (lk_center lane)) as [fa|] eqn:Fa; [|discriminate]. cbn [bind2]. intro E. injection E as <-.
  destruct (C24_nearest_point (lk_center lane) p p0 p1 r C EP NE) as (P & s & i & t & EN & _ & A & _).
  unfold frenet_position in Fa. rewrite EN in Fa. destruct (get_tangent_angle_at_s _ s); [|discriminate]. injection Fa as <-. cbn [p_lon].
  apply at_arclength_range in A. unfold line_length in Hl. rewrite bg_length_plen in Hl.
  destruct (Rltb_spec 0 (s - p_lon fq)); [lra|reflexivity].
Qed.

(** C69. In a straight lane the labels compare positions along the lane. *)
Theorem C69_front_straight : forall (T : Types) (pos : tState T -> pt) front_d rear_d RC road rc_current
    (ow : observed T) ego other r lane len xe ye xo yo,
  ego_of ow = Some ego -> road other = Some r -> pos_of pos ego = Some (xe, ye) -> pos_of pos other = Some (xo, yo) ->
  rc_current r (xo, yo) = Some lane -> lk_center lane = straight 0 len -> 0 <= xe <= len -> 0 <= xo <= len -> 0 < len ->
  exists b, front_of pos front_d rear_d RC road rc_current ow other = Some b /\
    (b = true <-> xo + front_d (ag_shape other) <= xe - rear_d (ag_shape ego)).
Proof.
  intros T pos front_d rear_d RC road rc_current ow ego other r lane len xe ye xo yo He Hr Pe Po Hc Hl X1 X2 L.
  destruct (straight_lon 0 len xe ye) as (fe & Fe & Le); [lra|lra|]. destruct (straight_lon 0 len xo yo) as (fo & Fo & Lo); [lra|lra|].
  unfold front_of. rewrite He, Hr, Po. cbn [bindo bind2]. rewrite Hc, Pe. cbn [bindo]. rewrite Hl, Fe, Fo. cbn [bind2]. eexists. split; [reflexivity|].
  rewrite Le, Lo, !Rminus_0_r, !Rabs_pos_eq by lra.
  destruct (Rleb_spec (xo + front_d (ag_shape other)) (xe - rear_d (ag_shape ego))); split; intros; try discriminate; auto; lra.
Qed.

(* ------------------------------------------------------------------------- concrete worlds *)
(** Two cars one metre long to either side, on the x axis between 0 and 100; car 1 drives forwards, car 2 along [dir2]. *)
Definition lane_fw : lanek := mkLK [1%N] (straight 0 100) (straight 0 100) (straight 0 100).
Definition lane_bw : lanek := mkLK [2%N] (straight 100 0) (straight 100 0) (straight 100 0).
Definition ex_pos (z : Z) : pt := (IZR z, 0).
Definition ex_one (_ : unit) : R := 1.
Definition car_1 : agent TT := toy_agent 1 10 3 VALID 2 0.
Definition car_2 : agent TT := toy_agent 2 20 1 VALID 50 (3#1).
Definition ex_cars : world TT := toy_world [(1%N, car_1); (2%N, car_2)] true.
Definition two_way (a : agent TT) : option lanek := Some (if N.eqb (ag_id a) 1 then lane_fw else lane_bw).
Definition one_way (a : agent TT) : option lanek := Some lane_fw.
Definition ex_rc (l : lanek) (_ : pt) : option lanek := Some l.

Lemma car1 : get_agent ex_cars 1%N = Some car_1. Proof. reflexivity. Qed.
Lemma car2 : get_agent ex_cars 2%N = Some car_2. Proof. reflexivity. Qed.

(** C69. "front_of" is not antisymmetric between oncoming vehicles: each of two cars driving in opposite directions is in front of
    the other -- whether they approach each other or, as here, whichever way they face. *)
Theorem C69_front_of_antisymmetric_refuted :
  exists (road : agent TT -> option lanek) (w : world TT) a b, get_agent w 1%N = Some a /\ get_agent w 2%N = Some b /\
    front_of (T:=TT) ex_pos ex_one ex_one lanek road ex_rc (mkObserved w 1%N) b = Some true /\
    front_of (T:=TT) ex_pos ex_one ex_one lanek road ex_rc (mkObserved w 2%N) a = Some true.
Proof.
  exists two_way, ex_cars. eexists _, _. split; [exact car1|]. split; [exact car2|]. split.
  - unfold front_of, ego_of. cbn [ow_world ow_ego]. rewrite car1. cbn [bindo].
    cbn. unfold ex_pos, ex_one.
    destruct (straight_lon 100 0 10 0) as (fe & Fe & Le); [lra|lra|]. destruct (straight_lon 100 0 20 0) as (fo & Fo & Lo); [lra|lra|].
    rewrite Fe, Fo. cbn [bind2]. rewrite Le, Lo. rewrite !Rabs_left by lra. destruct (Rleb_spec (- (20 - 100) + 1) (- (10 - 100) - 1)); [reflexivity|lra].
  - unfold front_of, ego_of. cbn [ow_world ow_ego]. rewrite car2. cbn [bindo]. cbn. unfold ex_pos, ex_one.
    destruct (straight_lon 0 100 10 0) as (fe & Fe & Le); [lra|lra|]. destruct (straight_lon 0 100 20 0) as (fo & Fo & Lo); [lra|lra|].
    rewrite Fe, Fo. cbn [bind2]. rewrite Le, Lo. rewrite !Rabs_pos_eq by lra. destruct (Rleb_spec (10 - 0 + 1) (20 - 0 - 1)); [reflexivity|lra].
Qed.
(** The hypotheses of the C69 theorems are met: two cars in one lane, car 2 ahead. *)
Example C69_nonvacuous :
  front_of (T:=TT) ex_pos ex_one ex_one lanek one_way ex_rc (mkObserved ex_cars 2%N) car_1 = Some true /\
  behind_of (T:=TT) ex_pos ex_one ex_one lanek one_way ex_rc ex_rc (mkObserved ex_cars 1%N) car_2 = Some true /\
  front_of (T:=TT) ex_pos ex_one ex_one lanek one_way ex_rc (mkObserved ex_cars 1%N) car_2 = Some false.
Proof.
  assert (D := C69_front_behind_dual (T:=TT) ex_pos ex_one ex_one lanek one_way ex_rc ex_rc ltac:(auto) ex_cars 2%N 1%N _ _ lane_fw car2 car1
    ltac:(eexists _, _; repeat split; reflexivity) ltac:(eexists _, _; repeat split; reflexivity)).
  rewrite <- D.
  destruct (C69_front_straight TT ex_pos ex_one ex_one lanek one_way ex_rc (mkObserved ex_cars 2%N) _ car_1 lane_fw lane_fw 100 20 0 10 0
    car2 eq_refl eq_refl eq_refl eq_refl eq_refl ltac:(lra) ltac:(lra) ltac:(lra)) as (b & -> & B).
  destruct (C69_front_straight TT ex_pos ex_one ex_one lanek one_way ex_rc (mkObserved ex_cars 1%N) _ car_2 lane_fw lane_fw 100 10 0 20 0
    car1 eq_refl eq_refl eq_refl eq_refl eq_refl ltac:(lra) ltac:(lra) ltac:(lra)) as (c & -> & C).
  unfold ex_one in B, C. assert (b = true) as -> by (apply B; lra). split; [reflexivity|]. split; [reflexivity|].
  destruct c; [|reflexivity]. exfalso. destruct C as (C & _). specialize (C eq_refl). lra.
Qed.

(** C70. Dense traffic counts agents that have not entered the simulation: car 2 (first valid at time 3) is counted at time 0
    although no label for pairs of agents mentions it. *)
Theorem C70_dense_traffic_counts_absent_agents :
  exists (w : world TT), dense_traffic (T:=TT) ex_pos 15 1 (mkObserved w 1%N) = Some true /\ get_valid_other_agents TO (mkObserved w 1%N) = [].
Proof.
  exists ex_cars. split; [|reflexivity].
  assert (D : Rabs (dist (10, 0) (20, 0)) = 10) by (rewrite dist_axis, Rabs_Rabsolu, Rabs_left; lra).
  unfold dense_traffic, ego_of. cbn [ow_world ow_ego]. rewrite car1. cbn. unfold ex_pos. rewrite D, Rabs_pos_eq by lra.
  destruct (Rltb_spec 10 15); [reflexivity|lra].
Qed.
(** A lane four metres wide; the ego crosses its right boundary, or stays inside (the oracle of the theorem exists). *)
Definition lane4 : lanek := mkLK [1%N] (straight 0 100) (add_points empty_line [(0, 4); (100, 4)]) (straight 0 100).
Definition side_pos (z : Z) : pt := (10, IZR z).
Definition crossing (y0 y1 : Z) : world TT := toy_world [(1%N, set_hist car_1 [(y0, 0%Z); (y1, 0%Z)])] true.
Example C70_nonvacuous : exists meet, (forall a b, meet a b = true <-> share_point a b) /\
  lane_change (T:=TT) side_pos lanek (fun _ => Some lane4) ex_rc meet (mkObserved (crossing (-1) 2) 1%N) = Some true /\
  lane_change (T:=TT) side_pos lanek (fun _ => Some lane4) ex_rc meet (mkObserved (crossing 1 2) 1%N) = Some false.
Proof.
  exists (fun a b => if excluded_middle_informative (share_point a b) then true else false).
  assert (M : forall a b, (if excluded_middle_informative (share_point a b) then true else false) = true <-> share_point a b)
    by (intros a b; destruct (excluded_middle_informative _); split; auto; discriminate).
  split; [exact M|]. split.
  - destruct (C70_lane_change_straight (T:=TT) side_pos lanek (fun _ => Some lane4) ex_rc _ M (mkObserved (crossing (-1) 2) 1%N) _ [] (-1)%Z 0%Z 2%Z 0%Z lane4 100 4
      eq_refl eq_refl eq_refl ltac:(lra) ltac:(lra) eq_refl eq_refl ltac:(cbn; lra) ltac:(cbn; lra)) as (b & -> & B).
    destruct b; [reflexivity|]. exfalso. destruct B as (B & _). specialize (B eq_refl). cbn in B. lra.
  - destruct (C70_lane_change_straight (T:=TT) side_pos lanek (fun _ => Some lane4) ex_rc _ M (mkObserved (crossing 1 2) 1%N) _ [] 1%Z 0%Z 2%Z 0%Z lane4 100 4
      eq_refl eq_refl eq_refl ltac:(lra) ltac:(lra) eq_refl eq_refl ltac:(cbn; lra) ltac:(cbn; lra)) as (b & -> & B).
    f_equal. apply B. right; left. cbn. lra.
Qed.
Print Assumptions C69_one_label_per_valid_other_agent. Print Assumptions C69_front_behind. Print Assumptions C69_front_behind_dual.
Print Assumptions C69_side. Print Assumptions C69_no_lane. Print Assumptions C70_accelerate_equal_times. Print Assumptions C69_rel_speed. Print Assumptions C69_near. Print Assumptions C69_preceding.
Print Assumptions C69_front_straight. Print Assumptions C69_front_of_antisymmetric_refuted.
Print Assumptions C70_outermost. Print Assumptions C70_at_lane_end. Print Assumptions C70_at_lane_end_refuted. Print Assumptions C70_accelerate.
Print Assumptions C70_dense_traffic. Print Assumptions C70_dense_traffic_counts_absent_agents. Print Assumptions C70_beyond. Print Assumptions C70_other_labels.
Print Assumptions C70_never_beyond_lane_end. Print Assumptions C70_lane_change. Print Assumptions C70_lane_change_straight.
Print Assumptions C70_generic_history_free.
