(* C37, C39, C61, C62: neighbours, next lane, successor edges and polygons of the roadgraph. *)
From Coq Require Import List NArith ZArith Bool Arith Lia.
From Verif Require Import Model_Map Model_Roadgraph Spec_Roadgraph Spec_Roadgraph2 Proof_Map Proof_Roadgraph Proof_Roadgraph2
  Proof_Roadgraph3 Proof_RoadSearch2.
Import ListNotations.

(* a roadgraph the code can build from the map: with GenerateVertices + GenerateNeighbours, or the full
   Generate *)
Definition built {P : Type} (m : xmap P) (g : graph P) : Prop :=
  g = generate_neighbours_only m \/ generate m = Some g.

Lemma built_nb {P : Type} (m : xmap P) g : map_ok m -> built m g -> nb m g.
Proof. intros OK [->|H]; [now apply nb_neighbours|]. exact (proj1 (generate_full m g OK H)). Qed.

(* ------------------------------------------------------------------------------------ C37 *)

(* GetLeftLane(l, d): the lane at the next position to the left, when there is one; otherwise "not found".
   Right-hand traffic (lanes right of the reference line run along it, those left of it against it). *)
Theorem C37_left_lane_is_the_lane_to_the_left {P : Type} (m : xmap P) g r s l d :
  map_ok m -> built m g -> section_of m r s -> in_section l s ->
  l_pos l <> 0%Z -> has_plan_view s -> right_hand l -> d <> BOTH ->
  (forall b, in_section b s -> l_pos b = left_pos d (l_pos l) -> left_lane g (l_id l) d = Some (l_id b, true)) /\
  ((forall b, in_section b s -> l_pos b <> left_pos d (l_pos l)) -> left_lane g (l_id l) d = Some (0%N, false)).
Proof. intros OK B Hs Hl Hz HP RH Hd. exact (proj1 (sides m g r s l d OK (built_nb m g OK B) Hs Hl Hz HP RH Hd)). Qed.

Theorem C37_right_lane_is_the_lane_to_the_right {P : Type} (m : xmap P) g r s l d :
  map_ok m -> built m g -> section_of m r s -> in_section l s ->
  l_pos l <> 0%Z -> has_plan_view s -> right_hand l -> d <> BOTH ->
  (forall b, in_section b s -> l_pos b = right_pos d (l_pos l) -> right_lane g (l_id l) d = Some (l_id b, true)) /\
  ((forall b, in_section b s -> l_pos b <> right_pos d (l_pos l)) -> right_lane g (l_id l) d = Some (0%N, false)).
Proof. intros OK B Hs Hl Hz HP RH Hd. exact (proj2 (sides m g r s l d OK (built_nb m g OK B) Hs Hl Hz HP RH Hd)). Qed.

Lemma pos_lane {P : Type} (m : xmap P) r s p : map_ok m -> section_of m r s ->
  (exists b, in_section b s /\ l_pos b = p) \/ (forall b, in_section b s -> l_pos b <> p).
Proof.
  intros OK Hs. destruct (lane_by_position s p) as [b|] eqn:E.
  - left. exists b. now apply (lane_by_position_spec m r s p OK Hs).
  - right. intros b Hb Eb. assert (K := proj2 (lane_by_position_spec m r s p OK Hs b) (conj Hb Eb)). congruence.
Qed.

(* left-of and right-of are mutually inverse, for a fixed direction of travel *)
Theorem C37_left_and_right_are_inverse {P : Type} (m : xmap P) g r s a b d :
  map_ok m -> built m g -> section_of m r s -> has_plan_view s ->
  (forall l, in_section l s -> right_hand l) -> d <> BOTH ->
  in_section a s -> l_pos a <> 0%Z -> in_section b s -> l_pos b <> 0%Z ->
  left_lane g (l_id a) d = Some (l_id b, true) <-> right_lane g (l_id b) d = Some (l_id a, true).
Proof.
  intros OK B Hs HP RH Hd Ha Hza Hb Hzb. pose proof (built_nb m g OK B) as NB.
  destruct (sides m g r s a d OK NB Hs Ha Hza HP (RH a Ha) Hd) as ((L1 & L2) & _).
  destruct (sides m g r s b d OK NB Hs Hb Hzb HP (RH b Hb) Hd) as (_ & (R1 & R2)).
  destruct (left_right_pos d (l_pos a) Hza) as (E1 & _ & _ & _).
  destruct (left_right_pos d (l_pos b) Hzb) as (_ & E2 & _ & _).
  assert (Inj : forall x y, in_section x s -> in_section y s -> l_id x = l_id y -> x = y).
  { intros x y Hx Hy E. assert (A : r = r /\ x = y) by (apply (lane_id_inj m r r x y OK); auto; exists s; auto). tauto. }
  split; intros H.
  - apply R1; auto. destruct (pos_lane m r s (left_pos d (l_pos a)) OK Hs) as [(c & Hc & Ec)|No].
    + rewrite (L1 c Hc Ec) in H. inversion H as [Eid]. rewrite <- (Inj c b Hc Hb Eid). rewrite Ec. now rewrite E1.
    + rewrite (L2 No) in H. discriminate.
  - apply L1; auto. destruct (pos_lane m r s (right_pos d (l_pos b)) OK Hs) as [(c & Hc & Ec)|No].
    + rewrite (R1 c Hc Ec) in H. inversion H as [Eid]. rewrite <- (Inj c a Hc Ha Eid). rewrite Ec. now rewrite E2.
    + rewrite (R2 No) in H. discriminate.
Qed.

(* whatever the layout and direction, an answer is a lane of the same section of the same road, and the
   query itself is always defined *)
Theorem C37_answers_stay_in_the_section {P : Type} (m : xmap P) g r s l d :
  map_ok m -> built m g -> section_of m r s -> in_section l s ->
  (exists res, left_lane g (l_id l) d = Some res /\ (snd res = true -> exists b, in_section b s /\ fst res = l_id b)) /\
  (exists res, right_lane g (l_id l) d = Some res /\ (snd res = true -> exists b, in_section b s /\ fst res = l_id b)).
Proof.
  intros OK B Hs Hl. pose proof (built_nb m g OK B) as NB. pose proof NB as (BB & EI & EO).
  assert (Ids : forall x, in_section x s -> In (l_id x) (ids_of (g_v g))).
  { intros x Hx. apply (base_ids m g r x OK BB). exists s; auto. }
  assert (Ptr : forall x, in_section x s -> lane_ptr g (l_id x) = Some x).
  { intros x Hx. apply (base_lane_ptr m g r x OK BB). exists s; auto. }
  assert (Nin : forall x t ns n, in_section x s -> t = INNER \/ t = OUTER ->
    neighbors_of_type g (l_id x) t = Some ns -> In n ns -> snd n = true -> exists b, in_section b s /\ fst n = l_id b).
  { intros x t ns [y c] Hx Ht E Hn Hc. cbn in Hc. subst c.
    destruct (neighbors_spec g (l_id x) t (proj2 BB) (Ids x Hx)) as (ns' & E' & _ & Hi & _). assert (ns' = ns) as -> by congruence.
    apply Hi in Hn. destruct Ht as [->| ->].
    - apply EI in Hn as (a & b & Adj & Ea & Eb). destruct (adj_by_id m a b x OK Adj r s Hs Hx Ea) as (-> & Hb). eauto.
    - apply EO in Hn as (a & b & Adj & Ea & Eb). destruct (adj_by_id_r m a b x OK Adj r s Hs Hx Ea) as (-> & Hb). eauto. }
  assert (Front : forall x t, in_section x s -> t = INNER \/ t = OUTER ->
    exists n rest, neighbors_of_type g (l_id x) t = Some (n :: rest) /\ (snd n = true -> exists b, in_section b s /\ fst n = l_id b)).
  { intros x t Hx Ht. destruct (neighbors_spec g (l_id x) t (proj2 BB) (Ids x Hx)) as (ns & E & Hne & _).
    destruct ns as [|n rest]; [contradiction|]. exists n, rest. split; auto. intros Hn. eapply Nin; eauto. now left. }
  assert (Tow : exists res, toward g (l_id l) = Some res /\ (snd res = true -> exists b, in_section b s /\ fst res = l_id b)).
  { unfold toward. destruct (Front l INNER Hl (or_introl eq_refl)) as ([i c] & rest & E & Hi).
    unfold inner_neighbor. rewrite E. destruct c.
    - destruct (Hi eq_refl) as (b & Hb & Eb). cbn in Eb. subst i. rewrite (Ptr b Hb).
      destruct (negb (l_pos b =? 0)%Z); [eexists; split; [reflexivity|]; cbn; eauto|].
      unfold outer_neighbors_plan_view. destruct (Front b OUTER Hb (or_intror eq_refl)) as (n & rest' & E' & _). rewrite E'. cbn [option_map].
      eexists. split; [reflexivity|]. unfold across_plan_view. destruct (find _ _) as [n'|] eqn:F; [|discriminate].
      apply find_some in F as (Hn & Hc). cbn. intros _. apply andb_prop in Hc as (Hc & _). eapply (Nin b OUTER); eauto.
    - eexists. split; [reflexivity|]. discriminate. }
  assert (Out : exists res, outer_neighbor g (l_id l) = Some res /\ (snd res = true -> exists b, in_section b s /\ fst res = l_id b)).
  { destruct (Front l OUTER Hl (or_intror eq_refl)) as (n & rest & E & Hi). unfold outer_neighbor. rewrite E. eauto. }
  rewrite (left_lane_toward g _ d l (Ptr l Hl)), (right_lane_toward g _ d l (Ptr l Hl)).
  destruct (dir_eqb d (l_dir l)); auto.
Qed.

(* GetAllNeighbors: every other lane on the same side of the reference line, each once *)
Theorem C37_all_neighbors_of_a_side {P : Type} (m : xmap P) g r s l :
  map_ok m -> built m g -> section_of m r s -> contiguous s -> in_section l s -> l_pos l <> 0%Z ->
  exists ids, all_neighbors g (l_id l) = Some ids /\ NoDup ids /\
    forall x, In x ids <-> exists b, in_section b s /\ x = l_id b /\ (0 < l_pos l * l_pos b)%Z /\ b <> l.
Proof. intros OK B. apply all_neighbors_spec; auto. now apply built_nb. Qed.

(* ------------------------------------------------------------------------------------ C39 *)

Theorem C39_next_lane {P : Type} (m : xmap P) g roads r l :
  map_ok m -> generate m = Some g -> lane_of m r l ->
  (exists b rb, lane_of m rb b /\ In rb roads /\ (linked m l b \/ linked m b l) /\
     next_lane g roads (l_id l) = Some (l_id b, true)) \/
  (next_lane g roads (l_id l) = Some (0%N, false) /\
     forall b rb, lane_of m rb b -> In rb roads -> ~ (linked m l b \/ linked m b l)).
Proof.
  intros OK E Hl. destruct (generate_full m g OK E) as ((B & _) & LS & _).
  pose proof B as (_ & (ND & _ & R)).
  assert (Hid : In (l_id l) (ids_of (g_v g))) by (eapply base_ids; eauto).
  apply find_v_In in Hid as (i & Hi). fold (vertex_by_lane g (l_id l)) in Hi.
  unfold next_lane. rewrite Hi.
  assert (Road : forall b rb j, lane_of m rb b -> vertex_by_lane g (l_id b) = Some j -> vroad g j = rb).
  { intros b rb j Hb Hj. pose proof (base_road m g rb b OK B Hb) as K. unfold road_for_lane in K. rewrite Hj in K. congruence. }
  assert (Vtx : forall j, j < length (g_v g) -> vertex_by_lane g (vid g j) = Some j).
  { intros j Hj. unfold vid, vertex_by_lane. destruct (nth_error (g_v g) j) as [v|] eqn:N; [|apply nth_error_None in N; lia].
    now apply find_v_nth. }
  destruct (find _ (out_edges g i)) as [e|] eqn:F.
  - apply find_some in F as (He & Hc). apply andb_prop in Hc as (Ht & Hr). apply etype_eqb_spec in Ht.
    apply filter_In in He as (He & Hs). apply Nat.eqb_eq in Hs.
    assert (Hin : In (l_id l, vid g (e_dst e), LANE_SUCC) (edge_ids g)).
    { unfold edge_ids. apply in_map_iff. exists e. rewrite Hs, Ht, (vid_find g _ _ Hi). auto. }
    apply LS in Hin as (a & b & L & Ea & Eb).
    destruct (sym_linked_lanes m a b L) as ((ra & Ha) & (rb & Hb)).
    destruct (lane_id_inj m r ra l a OK Hl Ha Ea) as (-> & ->).
    left. exists b, rb. split; auto. split.
    + apply existsb_exists in Hr as (q & Hq & Eq). apply N.eqb_eq in Eq. subst q.
      rewrite (Road b rb (e_dst e) Hb) in Hq; auto. rewrite <- Eb. apply Vtx. apply (R e He).
    + split; [exact L|]. now rewrite Eb.
  - right. split; auto. intros b rb Hb Hr L.
    assert (Hin : In (l_id l, l_id b, LANE_SUCC) (edge_ids g)) by (apply LS; exists l, b; auto).
    unfold edge_ids in Hin. apply in_map_iff in Hin as (e & E1 & He). inversion E1 as [[A1 A2 A3]].
    destruct (R e He) as (L1 & L2).
    assert (Hs : e_src e = i) by (pose proof (Vtx _ L1) as K; rewrite A1, Hi in K; congruence).
    assert (Hin2 : In e (out_edges g i)) by (apply filter_In; split; auto; now apply Nat.eqb_eq).
    assert (K := find_none _ _ F e Hin2). cbn beta in K. rewrite A3 in K. cbn in K.
    assert (Hd : vroad g (e_dst e) = rb) by (apply (Road b); auto; rewrite <- A2; now apply Vtx).
    rewrite Hd in K. assert (X : existsb (N.eqb rb) roads = true) by (apply existsb_exists; exists rb; split; auto; apply N.eqb_refl).
    rewrite X in K. discriminate.
Qed.

(* ------------------------------------------------------------------------------------ C61 *)

(* Generate never fails on a map whose roads have a section, whose junctions name existing roads and whose
   lane lines are not empty *)
Theorem C61_generate_is_defined {P : Type} (m : xmap P) :
  map_ok m ->
  (forall k r, In (k, r) (m_roads m) -> r_sections r <> []) ->
  (forall j cs k c, In (j, cs) (m_junctions m) -> In (k, c) cs ->
     m_find (c_incoming c) (m_roads m) <> None /\ m_find (c_connecting c) (m_roads m) <> None) ->
  (forall r l, lane_of m r l -> l_line l <> []) ->
  exists g, generate m = Some g.
Proof. intros OK A B C. apply generate_total; auto. repeat split; auto; eapply B; eauto. Qed.

(* successors: exactly the lanes the map links to l -- in either orientation, so successors and
   predecessors are the same lanes *)
Theorem C61_successor_lanes {P : Type} (m : xmap P) g r l :
  map_ok m -> generate m = Some g -> lane_of m r l ->
  exists succs preds,
    successor_lanes g (l_id l) = Some succs /\ predecessor_lanes g (l_id l) = Some preds /\
    (forall x, In x succs <-> exists b, (linked m l b \/ linked m b l) /\ x = l_id b) /\
    (forall x, In x preds <-> exists b, (linked m l b \/ linked m b l) /\ x = l_id b).
Proof.
  intros OK E Hl. destruct (generate_full m g OK E) as ((B & _) & LS & _).
  assert (Hid : In (l_id l) (ids_of (g_v g))) by (eapply base_ids; eauto).
  apply find_v_In in Hid as (i & Hi). fold (vertex_by_lane g (l_id l)) in Hi.
  unfold successor_lanes, predecessor_lanes. rewrite Hi. eexists _, _.
  split; [reflexivity|]. split; [reflexivity|]. split; intros x.
  - rewrite (out_ids g (l_id l) i LANE_SUCC (proj2 B) Hi), LS. split.
    + intros (a & b & L & Ea & ->). exists b. split; auto.
      destruct (sym_linked_lanes m a b L) as ((ra & Ha) & _).
      destruct (lane_id_inj m r ra l a OK Hl Ha Ea) as (_ & ->). exact L.
    + intros (b & L & ->). exists l, b. auto.
  - rewrite (in_ids_edges g (l_id l) i LANE_SUCC (proj2 B) Hi), LS. split.
    + intros (a & b & L & -> & Eb). exists a. split; auto.
      destruct (sym_linked_lanes m a b L) as (_ & (rb & Hb)).
      destruct (lane_id_inj m r rb l b OK Hl Hb Eb) as (_ & ->). unfold sym in L. tauto.
    + intros (b & L & ->). exists b, l. unfold sym. tauto.
Qed.

(* every lane of the map is a vertex, with its own lane data and road; lane ids known to the graph are
   exactly those of the map *)
Theorem C61_vertices {P : Type} (m : xmap P) g :
  map_ok m -> built m g ->
  (forall r l, lane_of m r l -> lane_ptr g (l_id l) = Some l /\ road_for_lane g (l_id l) = Some r) /\
  (forall id, has_lane g id = true <-> exists r l, lane_of m r l /\ l_id l = id) /\
  (forall id, In id (all_lane_ids g) <-> exists r l, lane_of m r l /\ l_id l = id /\ l_pos l <> 0%Z).
Proof.
  intros OK Bt. pose proof (proj1 (built_nb m g OK Bt)) as B. split; [|split].
  - intros r l H. split; [eapply base_lane_ptr; eauto|eapply base_road; eauto].
  - intros id. rewrite has_lane_spec. split.
    + intros H. apply in_map_iff in H as (v & <- & Hv). destruct (base_lane m g v OK B Hv) as (H & E). eauto.
    + intros (r & l & H & <-). eapply base_ids; eauto.
  - intros id. unfold all_lane_ids. rewrite in_map_iff. split.
    + intros (v & <- & Hv). apply filter_In in Hv as (Hv & Hp). destruct (base_lane m g v OK B Hv) as (H & E).
      exists (v_road v), (v_lane v). repeat split; auto. intros E0. rewrite E0 in Hp. discriminate.
    + intros (r & l & H & <- & Hz). destruct (base_vertex m g r l OK B H) as (v & Hv & E1 & E2 & _).
      exists v. split; auto. apply filter_In. split; auto. rewrite E2. now apply negb_true_iff, Z.eqb_neq.
Qed.

(* the plan view of a lane: found by walking inwards *)
Theorem C61_plan_view_for_lane {P : Type} (m : xmap P) g r s l :
  map_ok m -> built m g -> section_of m r s -> in_section l s -> contiguous s ->
  exists pv, in_section pv s /\ l_pos pv = 0%Z /\ plan_view_for_lane g (l_id l) = Some (l_id pv, true).
Proof.
  intros OK B Hs Hl HC. destruct (plan_view_total m g r s l OK (built_nb m g OK B) Hs Hl) as (res & E & H).
  destruct (H HC) as (pv & A1 & A2 & ->). eauto.
Qed.

(* ------------------------------------------------------------------------------------ C62 *)

(* the polygon stored for a lane: its inner neighbour's line, then its own line backwards, closed *)
Theorem C62_lane_polygon {P : Type} (m : xmap P) g r s l i :
  map_ok m -> generate m = Some g -> section_of m r s -> in_section l s -> in_section i s ->
  l_pos l <> 0%Z -> l_pos i = inward (l_pos l) ->
  exists p rest, l_line i = p :: rest /\
    lane_polygon g (l_id l) = Some (Some (l_line i ++ rev (l_line l) ++ [p])) /\
    exists v, In v (g_v g) /\ v_id v = l_id l /\ v_poly v = Some (l_line i ++ rev (l_line l) ++ [p]).
Proof.
  intros OK E Hs Hl Hi Hz Ei.
  destruct (generate_inv m g OK E) as (g0 & I0 & G).
  pose proof (generate_full m g OK E) as (NB & _). pose proof (proj1 I0) as NB0.
  assert (LPg : forall h, nb m h -> lane_boundaries h (l_id l) = Some (Some i, l)).
  { intros h Hh. unfold lane_boundaries. rewrite (base_lane_ptr m h r l OK (proj1 Hh)) by (exists s; auto).
    destruct (inner_spec m h r s l OK Hh Hs Hl) as (I1 & _). rewrite (I1 i Hi Hz Ei).
    rewrite (base_lane_ptr m h r i OK (proj1 Hh)) by (exists s; auto). reflexivity. }
  destruct (base_vertex m g r l OK (proj1 NB) (ex_intro _ s (conj Hs Hl))) as (v & Hv & E1 & E2 & E3).
  unfold gen_polygons in G. destruct (gen_polys g0 (g_v g0)) as [vs|] eqn:GP; [|discriminate]. cbn in G. inversion G; subst g. clear G.
  destruct (gen_polys_In g0 _ _ v GP Hv) as (v0 & _ & _ & _ & _ & _ & K).
  rewrite E2 in K. destruct (K Hz) as (q & Eq & Ev). unfold lane_polygon in Eq. rewrite (LPg g0 NB0) in Eq.
  destruct (l_line i) as [|p rest] eqn:Li; [discriminate|]. inversion Eq; subst q.
  exists p, rest. split; auto. split.
  - unfold lane_polygon. rewrite (LPg _ NB), Li. reflexivity.
  - exists v. repeat split; auto.
Qed.

(* no inner neighbour: no polygon *)
Theorem C62_no_inner_lane_no_polygon {P : Type} (m : xmap P) g r s l :
  map_ok m -> generate m = Some g -> section_of m r s -> in_section l s ->
  (l_pos l = 0%Z \/ forall b, in_section b s -> l_pos b <> inward (l_pos l)) ->
  lane_polygon g (l_id l) = Some None.
Proof.
  intros OK E Hs Hl H. pose proof (generate_full m g OK E) as (NB & _).
  unfold lane_polygon, lane_boundaries. rewrite (base_lane_ptr m g r l OK (proj1 NB)) by (exists s; auto).
  destruct (inner_spec m g r s l OK NB Hs Hl) as (_ & I2). rewrite (I2 H). reflexivity.
Qed.

(* ------------------------------------------------------------------------------------ instances *)
From Verif Require Import Toy_Map.

Opaque g2.
Lemma built2 : built map2 g2. Proof. right. exact g2_generated. Qed.

(* lane 2 (position -1) going forward: lane 4 (position 1) is on its left, lane 3 (position -2) on its right *)
Example C37_nonvacuous :
  left_lane g2 (l_id L2) FORWARD = Some (l_id L4, true) /\ right_lane g2 (l_id L2) FORWARD = Some (l_id L3, true) /\
  left_lane g2 (l_id L3) FORWARD = Some (l_id L2, true) /\ left_lane g2 (l_id L4) BACKWARD = Some (l_id L2, true) /\
  right_lane g2 (l_id L4) BACKWARD = Some (0%N, false).
Proof.
  split; [|split; [|split; [|split]]].
  - refine (proj1 (C37_left_lane_is_the_lane_to_the_left map2 g2 1 S1 L2 FORWARD map2_ok built2 map2_s1 _ _ map2_pv1 _ _) L4 _ _);
      try (apply S1_in; auto); try apply map2_right_hand; try (apply S1_in; auto); try discriminate; reflexivity.
  - refine (proj1 (C37_right_lane_is_the_lane_to_the_right map2 g2 1 S1 L2 FORWARD map2_ok built2 map2_s1 _ _ map2_pv1 _ _) L3 _ _);
      try (apply S1_in; auto); try apply map2_right_hand; try (apply S1_in; auto); try discriminate; reflexivity.
  - refine (proj1 (C37_left_lane_is_the_lane_to_the_left map2 g2 1 S1 L3 FORWARD map2_ok built2 map2_s1 _ _ map2_pv1 _ _) L2 _ _);
      try (apply S1_in; auto); try apply map2_right_hand; try (apply S1_in; auto); try discriminate; reflexivity.
  - refine (proj1 (C37_left_lane_is_the_lane_to_the_left map2 g2 1 S1 L4 BACKWARD map2_ok built2 map2_s1 _ _ map2_pv1 _ _) L2 _ _);
      try (apply S1_in; auto); try apply map2_right_hand; try (apply S1_in; auto); try discriminate; reflexivity.
  - refine (proj2 (C37_right_lane_is_the_lane_to_the_right map2 g2 1 S1 L4 BACKWARD map2_ok built2 map2_s1 _ _ map2_pv1 _ _) _);
      try (apply S1_in; auto); try apply map2_right_hand; try (apply S1_in; auto); try discriminate.
    intros b Hb. apply S1_in in Hb. repeat destruct Hb as [Hb|Hb]; subst; discriminate.
Qed.
Example C37_all_neighbors_nonvacuous : all_neighbors g2 2 = Some [3%N].
Proof. vm_compute. reflexivity. Qed.

(* on a one-way road (a lane left of the reference line that runs along it) the claim fails: the "left" lane
   of that lane is the one on its right, and left-of and right-of are not inverse *)
Theorem C37_one_way_road_refuted :
  exists (m : xmap nat) g s a b,
    map_ok m /\ built m g /\ section_of m 1 s /\ in_section a s /\ in_section b s /\ has_plan_view s /\
    l_pos a = (-1)%Z /\ l_pos b = 1%Z /\ l_dir a = FORWARD /\ l_dir b = FORWARD /\
    left_lane g (l_id a) FORWARD = Some (l_id b, true) /\
    right_lane g (l_id b) FORWARD = Some (0%N, false) /\
    left_lane g (l_id b) FORWARD = Some (l_id a, true).
Proof.
  exists one_way, (generate_neighbours_only one_way), SO, O2, O3.
  split; [exact one_way_ok|]. split; [left; reflexivity|]. split.
  { eexists. split; [cbn; left; reflexivity|cbn; auto]. }
  split; [in_s|]. split; [in_s|]. split; [exists O1; split; [in_s|reflexivity]|].
  repeat split; vm_compute; reflexivity.
Qed.

Example C39_nonvacuous :
  next_lane g2 [2%N] 2 = Some (6%N, true) /\ next_lane g2 [1%N] 2 = Some (0%N, false) /\
  linked map2 L2 L6 /\ lane_of map2 1 L2 /\ lane_of map2 2 L6.
Proof.
  split; [vm_compute; reflexivity|]. split; [vm_compute; reflexivity|]. split; [exact map2_linked26|].
  split; [exists S1; split; [exact map2_s1|apply S1_in; auto]|exists S2; split; [exact map2_s2|apply S2_in; auto]].
Qed.

(* successor queries on the two roads: the second road's lane reports the first road's lane as a successor *)
Example C61_nonvacuous :
  successor_lanes g2 2 = Some [6%N] /\ successor_lanes g2 6 = Some [2%N] /\ predecessor_lanes g2 2 = Some [6%N].
Proof. vm_compute. repeat split; reflexivity. Qed.
(* two sections of one road are not connected; both are connected to the next road *)
Example C61_sections :
  successor_lanes gD 2 = Some [6%N] /\ successor_lanes gD 4 = Some [6%N] /\ successor_lanes gD 6 = Some [2%N; 4%N].
Proof. vm_compute. repeat split; reflexivity. Qed.
Example C61_generate_nonvacuous : (forall k r, In (k, r) (m_roads map2) -> r_sections r <> []) /\
  (forall r l, lane_of map2 r l -> l_line l <> []).
Proof.
  split.
  - intros k r H. cbn in H. destruct H as [E|[E|[]]]; inversion E; discriminate.
  - intros r l (s & Hs & Hl). apply map2_section in Hs as [(-> & ->)|(-> & ->)]; [apply S1_in in Hl|apply S2_in in Hl];
      repeat destruct Hl as [Hl|Hl]; subst; discriminate.
Qed.
Example C62_nonvacuous :
  (in_section L3 S1 /\ in_section L2 S1 /\ l_pos L3 <> 0%Z /\ l_pos L2 = inward (l_pos L3)) /\
  lane_polygon g2 3 = Some (Some [2; 102; 103; 3; 2]) /\ lane_polygon g2 1 = Some None.
Proof.
  split; [|vm_compute; split; reflexivity].
  split; [apply S1_in; auto|]. split; [apply S1_in; auto|]. split; [discriminate|reflexivity].
Qed.

Print Assumptions C37_left_lane_is_the_lane_to_the_left.
Print Assumptions C37_right_lane_is_the_lane_to_the_right.
Print Assumptions C37_left_and_right_are_inverse.
Print Assumptions C37_answers_stay_in_the_section.
Print Assumptions C37_all_neighbors_of_a_side.
Print Assumptions C37_one_way_road_refuted.
Print Assumptions C39_next_lane.
Print Assumptions C61_generate_is_defined.
Print Assumptions C61_successor_lanes.
Print Assumptions C61_vertices.
Print Assumptions C61_plan_view_for_lane.
Print Assumptions C62_lane_polygon.
Print Assumptions C62_no_inner_lane_no_polygon.
