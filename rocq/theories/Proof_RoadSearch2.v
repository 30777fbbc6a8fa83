(* Road paths and paths in subgraphs. *)
From Coq Require Import List NArith ZArith Bool Arith Lia.
From Verif Require Import Model_Map Model_Roadgraph Spec_Roadgraph Spec_Roadgraph2 Proof_Map Proof_Roadgraph Proof_Roadgraph2
  Proof_Roadgraph3 Model_RoadSearch Spec_RoadSearch Proof_RoadSearch.
Import ListNotations.

Lemma route_chain {A : Type} (E : A -> A -> nat -> Prop) (R : A -> A -> Prop) :
  (forall x y w, E x y w -> R x y /\ w = 10) ->
  forall x y l n, route E x y l n -> starts x l /\ ends y l /\ chain R l /\ n + 10 = 10 * length l.
Proof.
  intros H x y l n Q. induction Q as [x|x y z l w n He Q IH].
  - repeat split; cbn; auto; [exists []|exists []]; reflexivity.
  - destruct (H _ _ _ He) as (Hr & ->). destruct IH as ((t & ->) & (u & E2) & C & L).
    split; [eexists; reflexivity|]. split; [rewrite E2; exists (x :: u); reflexivity|].
    split; [cbn; cbn in C; auto|]. cbn [length] in *. lia.
Qed.
Lemma chain_route {A : Type} (E : A -> A -> nat -> Prop) (R : A -> A -> Prop) :
  (forall x y, R x y -> E x y 10) ->
  forall l x y, starts x l -> ends y l -> chain R l -> exists n, route E x y l n.
Proof.
  intros H. induction l as [|a r IH]; intros x y (t & E1) (u & E2) C; [discriminate|].
  inversion E1; subst x t. destruct r as [|b r'].
  - destruct u as [|c u]; [|destruct u; discriminate]. inversion E2; subst. exists 0. constructor.
  - destruct C as (Hab & C). destruct (IH b y) as (n & Q); auto; [eexists; reflexivity| |].
    + destruct u as [|c u]; [destruct r'; discriminate|]. inversion E2. exists u. assumption.
    + exists (10 + n). econstructor; eauto.
Qed.

Lemma m_sorted_fun {V : Type} (m : kmap V) k a b : m_sorted m -> In (k, a) m -> In (k, b) m -> a = b.
Proof. intros S H1 H2. apply (m_find_iff _ _ _ S) in H1, H2. congruence. Qed.

Section RoadPath.
  Context {P : Type}.
  Implicit Types (m : xmap P) (g : graph P).

  Lemma road_filter_bounds ver g : in_bounds ver g (@RoadSuccessor P) = true.
  Proof.
    unfold in_bounds. apply forallb_forall. intros i Hi. apply Nat.ltb_lt.
    pose proof (fverts_lt g _ i Hi) as L. destruct ver; cbn; auto.
    assert (E : length (fverts g (@RoadSuccessor P)) = length (g_v g)); [|lia].
    unfold fverts. rewrite <- (seq_length (length (g_v g)) 0) at 2. f_equal.
    assert (G : forall xs, (forall x, In x xs -> x < length (g_v g)) -> filter (fvert g (@RoadSuccessor P)) xs = xs).
    { induction xs as [|x r IH]; cbn; intros H; auto.
      assert (F : fvert g (@RoadSuccessor P) x = true).
      { unfold fvert. destruct (nth_error (g_v g) x) eqn:E; auto. apply nth_error_None in E.
        specialize (H x (or_introl eq_refl)). lia. }
      rewrite F, IH; auto. }
    apply G. intros x Hx. apply in_seq in Hx. lia.
  Qed.

  Lemma all_bounds g f : in_bounds COUNT_ALL g f = true.
  Proof.
    unfold in_bounds. apply forallb_forall. intros i Hi. apply Nat.ltb_lt. cbn. eapply fverts_lt; eauto.
  Qed.

  Lemma plan_view_for_road_spec m g k r s pv : map_ok m -> base m g -> In (k, r) (m_roads m) ->
    r_sections r = [s] -> in_section pv s -> l_pos pv = 0%Z ->
    plan_view_for_road g k = (l_id pv, true).
  Proof.
    intros OK B Hr Es Hpv E0. unfold plan_view_for_road.
    assert (Hs : section_of m k s) by (exists r; rewrite Es; cbn; auto).
    destruct (base_vertex m g k pv OK B (ex_intro _ s (conj Hs Hpv))) as (v & Hv & E1 & E2 & E3).
    destruct (find _ (g_v g)) as [u|] eqn:F.
    - apply find_some in F as (Hu & F). apply andb_prop in F as (F1 & F2).
      apply N.eqb_eq in F1. apply Z.eqb_eq in F2.
      destruct (base_lane m g u OK B Hu) as ((s' & (rd & Hrd & Hs') & Hl) & Eu).
      rewrite F1 in Hrd.
      assert (rd = r) as -> by (eapply m_sorted_fun; [exact (ok_roads m OK)| |]; eauto).
      rewrite Es in Hs'. destruct Hs' as [<-|[]].
      f_equal. rewrite Eu. f_equal. eapply (pos_inj m k s); eauto. congruence.
    - pose proof (find_none _ _ F v Hv) as K. cbn in K. rewrite E3, E2, E0, N.eqb_refl in K. discriminate.
  Qed.

  Lemma plan_view_for_road_none m g k : map_ok m -> base m g -> m_find k (m_roads m) = None ->
    plan_view_for_road g k = (0%N, false).
  Proof.
    intros OK B Hn. unfold plan_view_for_road. destruct (find _ (g_v g)) as [u|] eqn:F; auto.
    apply find_some in F as (Hu & F). apply andb_prop in F as (F1 & F2). apply N.eqb_eq in F1.
    destruct (base_lane m g u OK B Hu) as ((s' & (rd & Hrd & Hs') & Hl) & Eu). rewrite F1 in Hrd.
    apply (m_find_iff _ _ _ (ok_roads m OK)) in Hrd. congruence.
  Qed.

  Definition is_pv m (k x : N) : Prop :=
    exists r s pv, In (k, r) (m_roads m) /\ r_sections r = [s] /\ in_section pv s /\ l_pos pv = 0%Z /\ x = l_id pv.

  Lemma is_pv_fun m k x y : map_ok m -> is_pv m k x -> is_pv m k y -> x = y.
  Proof.
    intros OK (r & s & pv & H1 & H2 & H3 & H4 & ->) (r' & s' & pv' & H1' & H2' & H3' & H4' & ->).
    assert (r' = r) as -> by (eapply m_sorted_fun; [exact (ok_roads m OK)| |]; eauto).
    rewrite H2 in H2'. inversion H2'; subst s'. f_equal. eapply (pos_inj m k s); eauto; [|congruence].
    exists r. rewrite H2. cbn; auto.
  Qed.
  Lemma is_pv_road m g k x : map_ok m -> base m g -> is_pv m k x -> road_for_lane g x = Some k.
  Proof.
    intros OK B (r & s & pv & H1 & H2 & H3 & H4 & ->). eapply base_road; eauto. exists s. split; auto.
    exists r. rewrite H2. cbn; auto.
  Qed.

  Lemma simple_contiguous m : simple_roads m -> all_contiguous m.
  Proof.
    intros S k s (r & Hr & Hs). destruct (S k r Hr) as (s' & E & _ & C). rewrite E in Hs. destruct Hs as [<-|[]]. auto.
  Qed.

  Lemma pv_of_is_pv m l k x : map_ok m -> simple_roads m -> lane_of m k l -> pv_of m l x -> is_pv m k x.
  Proof.
    intros OK S (s & Hs & Hl) (k' & s' & pv & Hs' & Hl' & Hpv & E0 & ->).
    destruct (section_inj m k k' s s' l OK Hs Hs' Hl Hl') as (<- & <-).
    destruct Hs as (r & Hr & Hin). destruct (S k r Hr) as (s1 & E & _). 
    exists r, s1, pv. rewrite E in Hin. destruct Hin as [<-|[]]. repeat split; auto.
  Qed.
  Lemma simple_pv_of m l k : simple_roads m -> lane_of m k l -> exists x, pv_of m l x.
  Proof.
    intros S (s & Hs & Hl). pose proof Hs as (r & Hr & Hin). destruct (S k r Hr) as (s1 & E & (pv & Hpv & E0) & _).
    rewrite E in Hin. destruct Hin as [<-|[]]. exists (l_id pv), k, s1, pv. repeat split; auto.
  Qed.

  Lemma linked_lanes m a b : linked m a b -> (exists r, lane_of m r a) /\ (exists r, lane_of m r b).
  Proof.
    assert (N : forall r s, next_section m r s -> exists k, section_of m k s).
    { intros r s (_ & r' & F & (rest & E)). exists (fst (r_succ r)), r'. split; [now apply m_find_In|rewrite E; now left]. }
    assert (Q : forall r s, prev_section m r s -> exists k, section_of m k s).
    { intros r s (_ & r' & F & (rest & E)). exists (fst (r_pred r)), r'. split; [now apply m_find_In|rewrite E, in_app_iff; cbn; auto]. }
    intros [H|[H|H]].
    - destruct H as (k & r & s & s' & H1 & _ & H3 & H4 & H5 & H6 & _). split.
      + exists k, s. split; auto. exists r; auto.
      + destruct (N _ _ H5) as (k' & H'). exists k', s'. auto.
    - destruct H as (k & r & s & s' & H1 & _ & H3 & H4 & H5 & H6 & _). split.
      + destruct (Q _ _ H5) as (k' & H'). exists k', s'. auto.
      + exists k, s. split; auto. exists r; auto.
    - destruct H as (j & cs & k & c & ri & rc & si & sc & pa & pb & _ & _ & F1 & F2 & (r1 & E1) & (r2 & E2) & _ & H1 & _ & H2 & _).
      apply m_find_In in F1, F2. split.
      + exists (c_incoming c), si. split; auto. exists ri. rewrite E1. cbn; auto.
      + exists (c_connecting c), sc. split; auto. exists rc. rewrite E2. cbn; auto.
  Qed.
  Lemma sym_linked_lanes m a b : sym (linked m) a b -> (exists r, lane_of m r a) /\ (exists r, lane_of m r b).
  Proof. intros [H|H]; apply linked_lanes in H; tauto. Qed.

  Lemma edge_road m g x y w : lane_edge g (@RoadSuccessor P) x y w ->
    In (x, y, ROAD_SUCC) (edge_ids g) /\ w = 10.
  Proof.
    intros (e & He & Hf & _ & _ & -> & -> & ->). cbn in Hf. apply etype_eqb_spec in Hf. split.
    - unfold edge_ids. apply in_map_iff. exists e. rewrite Hf. auto.
    - now rewrite Hf.
  Qed.
  Lemma road_edge g x y : graph_ok g -> In (x, y, ROAD_SUCC) (edge_ids g) -> lane_edge g (@RoadSuccessor P) x y 10.
  Proof.
    intros (_ & _ & R) H. unfold edge_ids in H. apply in_map_iff in H as (e & E & He). inversion E as [[A1 A2 A3]]. clear E.
    exists e. destruct (R e He) as (L1 & L2).
    assert (F : forall i, i < length (g_v g) -> fvert g (@RoadSuccessor P) i = true).
    { intros i Hi. unfold fvert. destruct (nth_error (g_v g) i) eqn:N; auto. apply nth_error_None in N. lia. }
    cbn. rewrite A3. repeat split; auto.
  Qed.

  Lemma route_pvs m g : map_ok m -> simple_roads m -> inv m (sym (linked m)) g ->
    forall x y l n, route (lane_edge g (@RoadSuccessor P)) x y l n -> forall k k', is_pv m k x -> is_pv m k' y ->
    exists ks, route (fun a b w => road_linked m a b /\ w = 10) k k' ks n /\
      fold_right (fun id acc => match road_for_lane g id, acc with
                                | Some r, Some rs => Some (r :: rs) | _, _ => None end) (Some []) l = Some ks.
  Proof.
    intros OK SR ((B & _) & _ & RS) x y l n Q. specialize (RS (simple_contiguous m SR)).
    induction Q as [x|x y z l w n He Q IH]; intros k k' Hk Hk'.
    - pose proof (is_pv_road m g k x OK B Hk) as E1. pose proof (is_pv_road m g k' x OK B Hk') as E2.
      assert (k' = k) as -> by congruence. exists [k]. split; [constructor|]. cbn. now rewrite E1.
    - destruct (edge_road m g _ _ _ He) as (He' & ->). apply RS in He' as (a & b & L & Pa & Pb).
      destruct (sym_linked_lanes m a b L) as ((ra & La) & (rb & Lb)).
      pose proof (pv_of_is_pv m a ra x OK SR La Pa) as Ka. pose proof (pv_of_is_pv m b rb y OK SR Lb Pb) as Kb.
      assert (ra = k) as ->.
      { pose proof (is_pv_road m g k x OK B Hk). pose proof (is_pv_road m g ra x OK B Ka). congruence. }
      destruct (IH rb k' Kb Hk') as (ks & Q' & E). exists (k :: ks). split.
      + econstructor; [|exact Q']. split; auto. exists a, b. repeat split; auto. 
      + cbn. rewrite (is_pv_road m g k x OK B Hk), E. reflexivity.
  Qed.

  Lemma pvs_route m g : map_ok m -> simple_roads m -> inv m (sym (linked m)) g ->
    forall k k' ks n, route (fun a b w => road_linked m a b /\ w = 10) k k' ks n -> forall x y, is_pv m k x -> is_pv m k' y ->
    exists l, route (lane_edge g (@RoadSuccessor P)) x y l n.
  Proof.
    intros OK SR ((B & _) & _ & RS) k k' ks n Q. specialize (RS (simple_contiguous m SR)).
    induction Q as [k|k y z l w n He Q IH]; intros u v Hu Hv.
    - assert (v = u) as -> by (eapply is_pv_fun; eauto). exists [u]. constructor.
    - destruct He as ((a & b & La & Lb & L) & ->).
      destruct (simple_pv_of m a k SR La) as (pa & Pa). destruct (simple_pv_of m b y SR Lb) as (pb & Pb).
      assert (pa = u) as -> by (eapply is_pv_fun; eauto using pv_of_is_pv).
      destruct (IH pb v (pv_of_is_pv m b y pb OK SR Lb Pb) Hv) as (l' & Q').
      exists (u :: l'). econstructor; [|exact Q']. apply road_edge; [exact (proj2 B)|]. apply RS. exists a, b. auto.
  Qed.

  Lemma find_road_path_spec ver D m g k k' : map_ok m -> simple_roads m -> inv m (sym (linked m)) g -> dijkstra_ok D ->
    m_find k (m_roads m) <> None -> m_find k' (m_roads m) <> None ->
    (exists ks, find_road_path ver D g k k' = Some ks /\ starts k ks /\ ends k' ks /\ chain (road_linked m) ks /\
       forall ks', starts k ks' -> ends k' ks' -> chain (road_linked m) ks' -> length ks <= length ks') \/
    (find_road_path ver D g k k' = Some [] /\
       forall ks', starts k ks' -> ends k' ks' -> ~ chain (road_linked m) ks').
  Proof.
    intros OK SR I HD Hk Hk'. pose proof I as ((B & _) & _ & RS).
    assert (PV : forall k, m_find k (m_roads m) <> None -> exists x, is_pv m k x /\ plan_view_for_road g k = (x, true) /\
              id_in_filtered g (@RoadSuccessor P) x = true).
    { intros j Hj. destruct (m_find j (m_roads m)) as [r|] eqn:F; [|contradiction]. apply m_find_In in F.
      destruct (SR j r F) as (s & E & (pv & Hpv & E0) & _). exists (l_id pv). split; [exists r, s, pv; repeat split; auto|].
      split; [eapply plan_view_for_road_spec; eauto|].
      apply (id_in_filtered_spec g _ _ (proj2 B)).
      destruct (find_v_In (g_v g) (l_id pv)) as (i & Hi).
      { apply (base_ids m g j pv OK B). exists s. split; auto. exists r. rewrite E. cbn; auto. }
      exists i. split; auto. apply fverts_In. unfold fvert. pose proof (find_v_lt _ _ _ Hi) as L.
      destruct (nth_error (g_v g) i) eqn:N; auto. apply nth_error_None in N. lia. }
    destruct (PV k Hk) as (x & Px & Ex & Fx). destruct (PV k' Hk') as (y & Py & Ey & Fy).
    unfold find_road_path. rewrite Ex, Ey. cbn [snd fst andb].
    destruct (find_path_spec ver D g _ x y (proj2 B) HD Fx Fy (road_filter_bounds ver g)) as [(l & n & E & Q & Min)|(E & No)].
    - left. rewrite E. destruct (route_pvs m g OK SR I x y l n Q k k' Px Py) as (ks & Q' & F). exists ks. split; [exact F|].
      destruct (route_chain _ (road_linked m) (fun a b w H => H) _ _ _ _ Q') as (S1 & S2 & C & L).
      repeat (split; [assumption|]). intros ks' S1' S2' C'.
      destruct (chain_route (fun a b w => road_linked m a b /\ w = 10) (road_linked m) (fun a b H => conj H eq_refl) ks' k k' S1' S2' C') as (n' & Q2).
      destruct (pvs_route m g OK SR I k k' ks' n' Q2 x y Px Py) as (l2 & Q3).
      pose proof (Min _ _ Q3).
      destruct (route_chain _ (road_linked m) (fun a b w H => H) _ _ _ _ Q2) as (_ & _ & _ & L'). lia.
    - right. rewrite E. split; auto. intros ks' S1' S2' C'.
      destruct (chain_route (fun a b w => road_linked m a b /\ w = 10) (road_linked m) (fun a b H => conj H eq_refl) ks' k k' S1' S2' C') as (n' & Q2).
      destruct (pvs_route m g OK SR I k k' ks' n' Q2 x y Px Py) as (l2 & Q3). eapply No; eauto.
  Qed.

  (* ---- paths in subgraphs of a graph with symmetric successor edges ---- *)
  Definition symmetric g : Prop := forall x y, In (x, y, LANE_SUCC) (edge_ids g) -> In (y, x, LANE_SUCC) (edge_ids g).

  Definition isolated g (f : filt P) (i : nat) : bool := negb (0 <? fin_degree g f i).

  Section Sub.
    Variables (g : graph P) (ids : list N) (D : dijkstra P).
    Hypothesis OK : graph_ok g.
    Hypothesis SY : symmetric g.
    Hypothesis HD : dijkstra_ok D.
    Let f := @SubsetFilter P [LANE_SUCC] ids.

    Lemma sub_edge i j w : In (i, j, w) (fedges g f) <->
      In i (fverts g f) /\ In j (fverts g f) /\ In (vid g i, vid g j, LANE_SUCC) (edge_ids g) /\ w = 1.
    Proof.
      destruct OK as (ND & _ & R). unfold fedges. rewrite in_map_iff. split.
      - intros (e & E & He). apply filter_In in He as (He & Hf). inversion E; subst.
        unfold fedge in Hf. apply andb_prop in Hf as (Hf & H2). apply andb_prop in Hf as (H0 & H1).
        cbn in H0. rewrite orb_false_r in H0. apply etype_eqb_spec in H0.
        rewrite !fverts_In. repeat split; auto.
        + unfold edge_ids. apply in_map_iff. exists e. rewrite H0. auto.
        + now rewrite H0.
      - intros (H1 & H2 & H3 & ->). unfold edge_ids in H3. apply in_map_iff in H3 as (e & E & He). inversion E as [[A1 A2 A3]].
        destruct (R e He) as (L1 & L2).
        apply (vid_inj g) in A1; auto; [|eapply fverts_lt; eauto].
        apply (vid_inj g) in A2; auto; [|eapply fverts_lt; eauto].
        exists e. subst i j. rewrite A3. split; auto. apply filter_In. split; auto.
        unfold fedge. apply fverts_In in H1, H2. rewrite H1, H2, !andb_true_r. cbn. now rewrite A3.
    Qed.

    Lemma filter_pos {A : Type} (h : A -> bool) xs : (0 <? length (filter h xs)) = true <-> exists x, In x xs /\ h x = true.
    Proof.
      rewrite Nat.ltb_lt. split.
      - destruct (filter h xs) as [|x r] eqn:E; cbn; [lia|]. intros _. exists x. apply filter_In. rewrite E. now left.
      - intros (x & Hx). apply filter_In in Hx. destruct (filter h xs); [contradiction|cbn; lia].
    Qed.

    Lemma degrees i : (0 <? fin_degree g f i) = (0 <? fout_degree g f i).
    Proof.
      apply Bool.eq_iff_eq_true. unfold fin_degree, fout_degree. rewrite !filter_pos.
      split; intros ([[a b] w] & He & Hc); cbn in Hc; apply Nat.eqb_eq in Hc; subst;
        apply sub_edge in He as (H1 & H2 & H3 & ->).
      - exists (i, a, 1). split; [|apply Nat.eqb_refl]. apply sub_edge. repeat split; auto.
      - exists (b, i, 1). split; [|apply Nat.eqb_refl]. apply sub_edge. repeat split; auto.
    Qed.

    Lemma isolated_no_route s t l k : (0 <? fout_degree g f s) = false ->
      route (fun a b w => In (a, b, w) (fedges g f)) s t l k -> s = t.
    Proof.
      intros H Q. inversion Q as [|x y z l' w n He Q']; subst; auto. exfalso.
      assert (K : (0 <? fout_degree g f s) = true).
      { unfold fout_degree. apply filter_pos. exists (s, y, w). split; auto. apply Nat.eqb_refl. }
      congruence.
    Qed.

    Lemma paths_to_spec s : In s (fverts g f) -> (0 <? fin_degree g f s) = false -> forall goals,
      (forall t, In t goals -> In t (fverts g f)) -> NoDup goals ->
      paths_to D g f s goals = Some (if existsb (Nat.eqb s) goals then [[vid g s]] else []).
    Proof.
      intros Hs Hi. induction goals as [|t r IH]; intros Hg ND; cbn [paths_to existsb]; auto.
      inversion ND as [|? ? Hn ND']; subst.
      rewrite (IH (fun t Ht => Hg t (or_intror Ht)) ND'). 
      destruct (0 <? fout_degree g f t) eqn:Ft.
      - destruct (Nat.eqb_spec s t) as [->|Ne]; [rewrite degrees in Hi; congruence|reflexivity].
      - assert (Ht : In t (fverts g f)) by (apply Hg; now left).
        assert (Lv : length (fverts g f) <= length (g_v g)) by apply fverts_length.
        assert (Lp : 0 < length (g_v g)) by (pose proof (fverts_lt g f t Ht); lia).
        destruct (walk_all_spec (fverts g f) (fedges g f) (fedges_ok g f) s (D g f s) t (length (g_v g))
                    (HD g f s Hs) Hs Ht Lv Lp) as [(l & k & W & Q & _)|(W & No)].
        + assert (s = t) as <- by (eapply isolated_no_route; [rewrite <- degrees|]; eauto).
          rewrite Nat.eqb_refl. cbn.
          assert (Wn : walk_all (length (g_v g)) (D g f s) s s = Some (Some [])).
          { destruct (length (g_v g)); cbn; now rewrite Nat.eqb_refl. }
          rewrite Wn. cbn.
          destruct (existsb (Nat.eqb s) r) eqn:Er; auto. exfalso.
          apply existsb_exists in Er as (z & Hz & Ez). apply Nat.eqb_eq in Ez. subst z. contradiction.
        + rewrite W. destruct (Nat.eqb_spec s t) as [->|Ne]; auto.
          exfalso. apply (No [t] 0). constructor.
    Qed.

    Lemma paths_from_spec starts0 : (forall s, In s starts0 -> In s (fverts g f)) ->
      paths_from D g f starts0 (fverts g f) =
      Some (map (fun i => [vid g i]) (filter (fun i => negb (0 <? fin_degree g f i)) starts0)).
    Proof.
      induction starts0 as [|s r IH]; intros H; cbn [paths_from filter]; auto.
      rewrite IH by (intros; apply H; now right). destruct (0 <? fin_degree g f s) eqn:F; cbn [negb]; auto.
      assert (Hs : In s (fverts g f)) by (apply H; now left).
      rewrite (paths_to_spec s Hs F (fverts g f) (fun _ x => x) (fverts_NoDup g f)).
      assert (E : existsb (Nat.eqb s) (fverts g f) = true) by (apply existsb_exists; exists s; split; auto; apply Nat.eqb_refl).
      rewrite E. reflexivity.
    Qed.
  End Sub.
End RoadPath.
