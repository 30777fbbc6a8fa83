(* C38, C63: path queries of the roadgraph. *)
From Coq Require Import List NArith ZArith Bool Arith Lia.
From Verif Require Import Model_Map Model_Roadgraph Spec_Roadgraph Spec_Roadgraph2 Proof_Map Proof_Roadgraph Proof_Roadgraph2
  Proof_Roadgraph3 Model_RoadSearch Spec_RoadSearch Proof_RoadSearch Proof_RoadSearch2 Toy_Map.
Import ListNotations.

Lemma generated_ok {P : Type} (m : xmap P) g : map_ok m -> generate m = Some g -> graph_ok g.
Proof. intros OK E. destruct (generate_full m g OK E) as (((_ & K) & _) & _). exact K. Qed.

(* the searched graph of FindDrivableLanePath in terms of the map: lanes of type DRIVING, connected by
   successor links (weight 1), or side by side (weight 10) -- in either direction -- or through road
   successor edges *)
Definition drivable {P : Type} (m : xmap P) (x : N) : Prop :=
  exists r l, lane_of m r l /\ l_id l = x /\ l_type l = DRIVING.

(* FindPath on any generated graph and any filter: when both lanes are in the searched graph the answer is a
   cheapest route from start to goal whose consecutive lanes are joined by edges of the searched graph, and
   it is empty exactly when there is no route. When start or goal is not in the searched graph: empty. *)
Theorem C38_find_path {P : Type} (m : xmap P) g f ver (D : dijkstra P) x y :
  map_ok m -> generate m = Some g -> dijkstra_ok D -> in_bounds ver g f = true ->
  (exists path n, find_path ver D g f x y = Some path /\ route (lane_edge g f) x y path n /\
     forall path' n', route (lane_edge g f) x y path' n' -> n <= n') \/
  (find_path ver D g f x y = Some [] /\
     (id_in_filtered g f x = true -> id_in_filtered g f y = true -> forall path' n', ~ route (lane_edge g f) x y path' n')).
Proof.
  intros OK E HD HB. pose proof (generated_ok m g OK E) as GO.
  destruct (id_in_filtered g f x) eqn:Fx; [destruct (id_in_filtered g f y) eqn:Fy|].
  - destruct (find_path_spec ver D g f x y GO HD Fx Fy HB) as [H|(H1 & H2)]; [left; auto|right; auto].
  - right. split; [|discriminate]. unfold find_path. rewrite Fx, Fy.
    destruct (vertex_by_lane g x), (vertex_by_lane g y); reflexivity.
  - right. split; [|discriminate]. unfold find_path. rewrite Fx.
    destruct (vertex_by_lane g x), (vertex_by_lane g y); reflexivity.
Qed.

(* what a route is, in plain words: starts at x, ends at y, consecutive lanes joined by an edge *)
Theorem C38_routes_are_connected {A : Type} (E : A -> A -> nat -> Prop) x y l n :
  route E x y l n -> starts x l /\ ends y l /\ chain (fun a b => exists w, E a b w) l.
Proof.
  intros Q. induction Q as [x|x y z l w n He Q IH].
  - repeat split; cbn; auto; [exists []|exists []]; reflexivity.
  - destruct IH as ((t & ->) & (u & E2) & C). split; [eexists; reflexivity|].
    split; [rewrite E2; exists (x :: u); reflexivity|]. cbn. cbn in C. split; eauto.
Qed.

(* drivable lane path: every step joins two DRIVING lanes that are neighbours in their section, linked by
   the map, or (through road successor edges) reference lines of linked roads *)
Theorem C38_drivable_path {P : Type} (m : xmap P) g ver (D : dijkstra P) x y path :
  map_ok m -> generate m = Some g -> dijkstra_ok D -> in_bounds ver g (@TypeDriving P) = true ->
  find_drivable_lane_path ver D g x y = Some path -> path <> [] ->
  starts x path /\ ends y path /\ (forall z, In z path -> drivable m z) /\
  chain (fun a b => exists t, In (a, b, t) (edge_ids g)) path.
Proof.
  intros OK E HD HB F Ne. pose proof (generated_ok m g OK E) as GO.
  destruct (C38_find_path m g _ ver D x y OK E HD HB) as [(p & n & Fp & Q & _)|(Fp & _)].
  2:{ unfold find_drivable_lane_path in F. congruence. }
  unfold find_drivable_lane_path in F. assert (p = path) as -> by congruence.
  destruct (generate_full m g OK E) as ((B & _) & _).
  assert (Dr : forall i, fvert g (@TypeDriving P) i = true -> drivable m (vid g i)).
  { intros i Hi. unfold fvert in Hi. unfold vid. destruct (nth_error (g_v g) i) as [v|] eqn:N; [|discriminate].
    cbn in Hi. destruct (base_lane m g v OK B (nth_error_In _ _ N)) as (Hl & Ev).
    exists (v_road v), (v_lane v). repeat split; auto. destruct (l_type (v_lane v)); [reflexivity|discriminate]. }
  destruct (C38_routes_are_connected _ _ _ _ _ Q) as (S1 & S2 & _). split; auto. split; auto. 
  assert (Hx : drivable m x).
  { unfold find_path in Fp. destruct (vertex_by_lane g x); [|destruct path; congruence].
    destruct (vertex_by_lane g y); [|congruence].
    destruct (id_in_filtered g TypeDriving x) eqn:Ix; [|cbn in Fp; congruence].
    apply (id_in_filtered_spec g _ _ GO) in Ix as (i & Hi & Fi). apply fverts_In in Fi.
    rewrite <- (vid_find g x i Hi). auto. }
  clear - Q Hx Dr.
  induction Q as [x|x y z l w n He Q IH].
  - split; cbn; auto. intros u [<-|[]]. exact Hx.
  - destruct He as (e & He & _ & H1 & H2 & -> & -> & ->).
    destruct (IH (Dr _ H2)) as (A1 & A2). split.
    + intros u [<-|Hu]; auto.
    + destruct (route_head _ _ _ _ _ Q) as []. destruct l as [|b l']; [exact I|].
      pose proof (route_head _ _ _ _ _ Q) as Hh. cbn in Hh. inversion Hh; subst b. cbn. split; auto.
      exists (e_type e). unfold edge_ids. apply in_map_iff. exists e. auto.
Qed.

(* whether the search is defined at all depends on the library's notion of num_vertices *)
Theorem C38_search_defined {P : Type} (g : graph P) (f : filt P) ver (D : dijkstra P) x y :
  (ver = COUNT_ALL \/ forall i, i < length (g_v g) -> fvert g f i = true) ->
  find_path ver D g f x y <> None.
Proof.
  intros H. assert (HB : in_bounds ver g f = true).
  { destruct H as [->|H]; [apply all_bounds|]. destruct ver; [|apply all_bounds].
    unfold in_bounds. apply forallb_forall. intros i Hi. apply Nat.ltb_lt. pose proof (fverts_lt g f i Hi) as L. cbn.
    assert (E : fverts g f = seq 0 (length (g_v g))); [|rewrite E, seq_length; auto].
    unfold fverts. assert (G : forall xs, (forall z, In z xs -> z < length (g_v g)) -> filter (fvert g f) xs = xs).
    { induction xs as [|z q IH]; cbn; intros Hx; auto. rewrite (H z (Hx z (or_introl eq_refl))), IH; auto. }
    apply G. intros z Hz. apply in_seq in Hz. lia. }
  unfold find_path. rewrite HB. destruct (vertex_by_lane g x), (vertex_by_lane g y); try discriminate.
  destruct (id_in_filtered g f x && id_in_filtered g f y); [|discriminate].
  destruct (walk _ _ _ _); discriminate.
Qed.

(* with a num_vertices that counts only filtered vertices, FindDrivableLanePath writes outside its vectors
   whenever some non-drivable lane (every reference line) was added before a drivable one and both query
   lanes are drivable *)
Theorem C38_drivable_search_out_of_bounds {P : Type} (g : graph P) (D : dijkstra P) x y i j :
  graph_ok g -> i < j -> j < length (g_v g) ->
  fvert g (@TypeDriving P) i = false -> fvert g (@TypeDriving P) j = true ->
  (forall k, j < k < length (g_v g) -> fvert g (@TypeDriving P) k = false) ->
  id_in_filtered g (@TypeDriving P) x = true -> id_in_filtered g (@TypeDriving P) y = true ->
  find_drivable_lane_path COUNT_FILTERED D g x y = None.
Proof.
  intros GO Lij Lj Fi Fj After Hx Hy. unfold find_drivable_lane_path, find_path.
  assert (Hb : in_bounds COUNT_FILTERED g (@TypeDriving P) = false).
  { apply Bool.not_true_is_false. intros H. unfold in_bounds in H. rewrite forallb_forall in H.
    assert (Hj : In j (fverts g (@TypeDriving P))) by now apply fverts_In.
    specialize (H j Hj). apply Nat.ltb_lt in H. cbn in H.
    assert (Inc : incl (i :: fverts g (@TypeDriving P)) (seq 0 (S j))).
    { intros k [<-|Hk]; apply in_seq; [lia|]. pose proof (fverts_lt g _ k Hk). apply fverts_In in Hk.
      destruct (le_lt_dec k j); [lia|]. rewrite After in Hk by lia. discriminate. }
    apply NoDup_incl_length in Inc.
    - rewrite seq_length in Inc. cbn in Inc. lia.
    - constructor; [|apply fverts_NoDup]. rewrite fverts_In. congruence. }
  pose proof (proj1 (id_in_filtered_spec g _ x GO) Hx) as (vx & Ex & _).
  pose proof (proj1 (id_in_filtered_spec g _ y GO) Hy) as (vy & Ey & _).
  rewrite Ex, Ey, Hx, Hy, Hb. reflexivity.
Qed.

(* FindRoadPath on maps whose roads have one section each: a chain of linked roads with the fewest roads, or
   empty exactly when the roads are not connected *)
Theorem C38_road_path {P : Type} (m : xmap P) g ver (D : dijkstra P) k k' :
  map_ok m -> simple_roads m -> generate m = Some g -> dijkstra_ok D ->
  m_find k (m_roads m) <> None -> m_find k' (m_roads m) <> None ->
  (exists ks, find_road_path ver D g k k' = Some ks /\ starts k ks /\ ends k' ks /\ chain (road_linked m) ks /\
     forall ks', starts k ks' -> ends k' ks' -> chain (road_linked m) ks' -> length ks <= length ks') \/
  (find_road_path ver D g k k' = Some [] /\
     forall ks', starts k ks' -> ends k' ks' -> ~ chain (road_linked m) ks').
Proof. intros OK SR E HD. apply find_road_path_spec; auto. now apply generate_full. Qed.
Theorem C38_road_path_unknown {P : Type} (m : xmap P) g ver (D : dijkstra P) k k' :
  map_ok m -> generate m = Some g -> m_find k (m_roads m) = None \/ m_find k' (m_roads m) = None ->
  find_road_path ver D g k k' = Some [].
Proof.
  intros OK E H. destruct (generate_full m g OK E) as ((B & _) & _).
  unfold find_road_path. destruct H as [H|H].
  - rewrite (plan_view_for_road_none m g k OK B H). reflexivity.
  - rewrite (plan_view_for_road_none m g k' OK B H). cbn. now rewrite andb_false_r.
Qed.

(* the contract assumed of boost's search is met by an algorithm, on every graph and filter *)
Theorem C38_search_contract_satisfiable {P : Type} : exists D : dijkstra P, dijkstra_ok D.
Proof. exists reference_dijkstra. apply reference_dijkstra_ok. Qed.

(* ------------------------------------------------------------------------------------ C63 *)
(* FindAllPathsInSubgraph over successor edges on a generated roadgraph: the successor edges run both ways,
   so a lane without predecessor in the subset has no successor in it either. The result is one single-lane
   path for each lane of the subset that is linked to no lane of the subset, and nothing else: connected
   lanes are never reported, and no path has two lanes. *)
Theorem C63_all_paths_are_isolated_lanes {P : Type} (m : xmap P) g ver (D : dijkstra P) ids paths :
  map_ok m -> generate m = Some g -> dijkstra_ok D ->
  find_all_paths ver D g [LANE_SUCC] ids = Some paths ->
  forall p, In p paths <->
    exists r l, p = [l_id l] /\ lane_of m r l /\ In (l_id l) ids /\
      forall b, In (l_id b) ids -> ~ (linked m l b \/ linked m b l).
Proof.
  intros OK E HD F. destruct (generate_full m g OK E) as ((B & _) & LS & _). pose proof (proj2 B) as GO.
  assert (SY : symmetric g).
  { intros x y H. apply LS in H as (a & b & L & -> & ->). apply LS. exists b, a. unfold sym in *. tauto. }
  unfold find_all_paths in F. destruct (_ || _); [|discriminate].
  rewrite (paths_from_spec g ids D GO SY HD) in F by auto. inversion F; subst paths. clear F.
  set (f := @SubsetFilter P [LANE_SUCC] ids).
  assert (FV : forall i, In i (fverts g f) <-> exists r l, lane_of m r l /\ In (l_id l) ids /\ vertex_by_lane g (l_id l) = Some i).
  { intros i. rewrite fverts_In. unfold fvert. split.
    - destruct (nth_error (g_v g) i) as [v|] eqn:N; [|discriminate]. cbn. rewrite existsb_exists. intros (x & Hx & Ex).
      apply N.eqb_eq in Ex. destruct (base_lane m g v OK B (nth_error_In _ _ N)) as (Hl & Ev).
      exists (v_road v), (v_lane v). split; auto. rewrite <- Ev. split; [congruence|].
      apply find_v_nth; auto. apply GO.
    - intros (r & l & Hl & Hi & Hv). apply find_v_Some in Hv as (v & N & Ev). rewrite N. cbn. apply existsb_exists.
      exists (l_id l). split; auto. now apply N.eqb_eq. }
  intros p. rewrite in_map_iff. split.
  - intros (i & <- & Hi). apply filter_In in Hi as (Hi & Hd). apply FV in Hi as (r & l & Hl & Hids & Hv).
    exists r, l. split; [now rewrite (vid_find g _ _ Hv)|]. split; auto. split; auto.
    intros b Hb L. apply negb_true_iff in Hd.
    destruct (sym_linked_lanes m l b L) as (_ & (rb & Lb)).
    destruct (find_v_In (g_v g) (l_id b)) as (j & Hj); [eapply base_ids; eauto|]. fold (vertex_by_lane g (l_id b)) in Hj.
    assert (K : (0 <? fin_degree g f i) = true).
    { unfold fin_degree. apply filter_pos. exists (j, i, 1). split; [|apply Nat.eqb_refl].
      apply (sub_edge g ids GO). split; [apply FV; eauto|]. split; [apply FV; eauto|]. split; auto.
      rewrite (vid_find g _ _ Hv), (vid_find g _ _ Hj). apply LS. exists b, l. unfold sym. tauto. }
    fold f in Hd. congruence.
  - intros (r & l & -> & Hl & Hids & No). destruct (find_v_In (g_v g) (l_id l)) as (i & Hv); [eapply base_ids; eauto|].
    exists i. split; [now rewrite (vid_find g _ _ Hv)|]. apply filter_In. split; [apply FV; eauto|].
    apply negb_true_iff, Bool.not_true_is_false. intros K. unfold fin_degree in K. apply filter_pos in K as ([[a b] w] & He & Hc).
    cbn in Hc. apply Nat.eqb_eq in Hc. subst b. apply (sub_edge g ids GO) in He as (H1 & _ & H3 & _).
    apply FV in H1 as (ra & la & Hla & Hida & Ha). rewrite (vid_find g _ _ Ha), (vid_find g _ _ Hv) in H3.
    apply LS in H3 as (a' & b' & L & Ea & Eb). destruct (sym_linked_lanes m a' b' L) as ((r1 & Q1) & (r2 & Q2)).
    destruct (lane_id_inj m _ _ _ _ OK Hla Q1 Ea) as (_ & <-). destruct (lane_id_inj m _ _ _ _ OK Hl Q2 Eb) as (_ & <-).
    apply (No la Hida). unfold sym in L. tauto.
Qed.

Theorem C63_all_paths_defined {P : Type} (m : xmap P) g (D : dijkstra P) ids :
  map_ok m -> generate m = Some g -> dijkstra_ok D ->
  exists paths, find_all_paths COUNT_ALL D g [LANE_SUCC] ids = Some paths.
Proof.
  intros OK E HD. destruct (generate_full m g OK E) as ((B & _) & LS & _).
  assert (SY : symmetric g).
  { intros x y H. apply LS in H as (a & b & L & -> & ->). apply LS. exists b, a. unfold sym in *. tauto. }
  unfold find_all_paths. rewrite all_bounds. cbn [orb].
  rewrite (paths_from_spec g ids D (proj2 B) SY HD) by auto. eauto.
Qed.

(* ------------------------------------------------------------------------------------ instances *)
Definition refD : dijkstra nat := reference_dijkstra.
Example C38_nonvacuous :
  map_ok map2 /\ simple_roads map2 /\ generate map2 = Some g2 /\ dijkstra_ok refD /\
  find_drivable_lane_path COUNT_ALL refD g2 3 6 = Some [3; 7; 6]%N /\
  find_road_path COUNT_FILTERED refD g2 1 2 = Some [1; 2]%N /\
  find_drivable_lane_path COUNT_ALL refD g2 3 1 = Some [] /\
  find_drivable_lane_path COUNT_FILTERED refD g2 3 6 = None.
Proof.
  split; [exact map2_ok|]. split; [exact map2_simple|]. split; [exact g2_generated|]. split; [apply reference_dijkstra_ok|].
  vm_compute. auto.
Qed.
(* lanes 2 -> 6 are linked and both in the subset: no path is reported *)
Example C63_nonvacuous :
  find_all_paths COUNT_ALL refD g2 [LANE_SUCC] [2; 6]%N = Some [] /\
  find_all_paths COUNT_ALL refD g2 [LANE_SUCC] [2; 7]%N = Some [[2]; [7]]%N.
Proof. vm_compute. auto. Qed.

Print Assumptions C38_find_path.
Print Assumptions C38_drivable_path.
Print Assumptions C38_search_defined.
Print Assumptions C38_drivable_search_out_of_bounds.
Print Assumptions C38_road_path.
Print Assumptions C38_road_path_unknown.
Print Assumptions C38_search_contract_satisfiable.
Print Assumptions C63_all_paths_are_isolated_lanes.
Print Assumptions C63_all_paths_defined.
