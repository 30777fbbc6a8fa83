(* Lemmas for C98-C100: the lane tree, segment distances, boxes, lane polygons in the graph. *)
From Coq Require Import List NArith ZArith QArith Qminmax Bool Arith Lia Lqa Permutation.
From Verif Require Import Model_Map Model_Roadgraph Model_RoadSearch Model_Intersection Model_Corridor
  Spec_Roadgraph Model_MapQuery Spec_MapQuery Proof_Map Proof_Roadgraph Proof_Roadgraph2 Proof_Roadgraph3 Props_Roadgraph.
Import ListNotations.
Local Open Scope Q_scope.

(* ---- the tree ---- *)
Definition nz (l : xlane qp) : bool := negb (l_pos l =? 0)%Z.
Definition ent_ok (e : entry) : Prop := line_ends (l_line (snd e)) = Some (fst e).
Definition grows (acc r : list entry) (ls : list (xlane qp)) : Prop :=
  map snd r = map snd acc ++ filter nz ls /\ (Forall ent_ok acc -> Forall ent_ok r).

Lemma grows_trans a b c l l' : grows a b l -> grows b c l' -> grows a c (l ++ l').
Proof.
  intros (A & B) (C & D). split; [|auto]. rewrite C, A, filter_app, app_assoc. reflexivity.
Qed.
Lemma ofold_grows {B : Type} (f : list entry -> B -> option (list entry)) (ls : B -> list (xlane qp)) l :
  (forall x acc r, f acc x = Some r -> grows acc r (ls x)) ->
  forall acc r, ofold f l acc = Some r -> grows acc r (flat_map ls l).
Proof.
  intros H. induction l as [|x l IH]; intros acc r E; cbn in E.
  - inversion E; subst. split; [cbn; now rewrite app_nil_r|auto].
  - destruct (f acc x) as [a'|] eqn:F; [|discriminate]. cbn [flat_map]. eapply grows_trans; eauto.
Qed.
Lemma tree_lanes m t : lane_tree m = Some t ->
  map snd t = filter nz (map snd (lanes_list m)) /\ Forall ent_ok t.
Proof.
  intros E. unfold lane_tree in E.
  assert (G : grows [] t (flat_map (fun kr : N * road qp => flat_map (fun s : section qp => flat_map (fun kl : N * xlane qp => [snd kl]) s) (r_sections (snd kr))) (m_roads m))).
  { eapply ofold_grows; [|exact E]. intros kr acc r. apply ofold_grows. intros s acc' r'. apply ofold_grows.
    intros kl acc2 r2. unfold lane_entry. destruct (l_pos (snd kl) =? 0)%Z eqn:Z0.
    - cbn. intros X. inversion X; subst. split; [|intros; now rewrite app_nil_r].
      cbn. unfold nz. rewrite Z0. cbn. now rewrite !app_nil_r.
    - destruct (line_ends (l_line (snd kl))) as [se|] eqn:LE; [|discriminate]. cbn. intros X. inversion X; subst.
      split; [rewrite map_app; cbn; unfold nz; now rewrite Z0|]. intros F. apply Forall_app. split; [exact F|]. constructor; [exact LE|constructor]. }
  destruct G as (G1 & G2). split; [|auto]. rewrite G1. cbn [map app]. f_equal.
  unfold lanes_list, sections_list. clear. induction (m_roads m) as [|kr rs IH]; [reflexivity|]. cbn [flat_map].
  rewrite flat_map_app, map_app. f_equal; [|exact IH]. clear IH.
  induction (r_sections (snd kr)) as [|s ss IH]; [reflexivity|]. cbn [flat_map map]. rewrite map_app. f_equal; [|exact IH].
  rewrite map_map. cbn. induction s as [|kl s IHs]; [reflexivity|]. cbn. now rewrite IHs.
Qed.

Lemma lanes_list_In (m : xmap qp) r l : map_ok m -> In (r, l) (lanes_list m) <-> lane_of m r l.
Proof.
  intros OK. unfold lanes_list, sections_list, lane_of. rewrite in_flat_map. split.
  - intros ([r' s] & H1 & H2). apply in_flat_map in H1 as ([k rd] & Hr & Hs). apply in_map_iff in Hs as (s' & E & Hs).
    cbn in E. inversion E; subst. apply in_map_iff in H2 as ([k' l'] & E2 & Hl). cbn in E2. inversion E2; subst.
    exists s. assert (S : section_of m r s) by (exists rd; auto). split; auto. unfold in_section.
    rewrite <- (ok_keys m OK r s k' l S Hl). exact Hl.
  - intros (s & (rd & Hr & Hs) & Hl). exists (r, s). split.
    + apply in_flat_map. exists (r, rd). split; auto. apply in_map_iff. exists s. auto.
    + apply in_map_iff. exists (l_id l, l). auto.
Qed.

Lemma tree_In m t l : map_ok m -> lane_tree m = Some t ->
  (In l (map snd t) <-> (exists r, lane_of m r l) /\ l_pos l <> 0%Z).
Proof.
  intros OK E. destruct (tree_lanes m t E) as (T & _). rewrite T, filter_In, in_map_iff. unfold nz. split.
  - intros (([r l'] & <- & H) & Z0). split; [exists r; now apply lanes_list_In|]. cbn in *. lia.
  - intros ((r & H) & Z0). split; [exists (r, l); split; auto; now apply lanes_list_In|]. lia.
Qed.
Lemma NoDup_map_filter {A B : Type} (f : A -> B) (g : A -> bool) l : NoDup (map f l) -> NoDup (map f (filter g l)).
Proof.
  induction l as [|x l IH]; cbn; intros H; [constructor|]. inversion H; subst. destruct (g x); cbn; auto.
  constructor; auto. intros I. apply in_map_iff in I as (y & E & I). apply filter_In in I as (I & _).
  apply H2. rewrite <- E. now apply in_map.
Qed.
Lemma tree_ids m t : map_ok m -> lane_tree m = Some t -> NoDup (map (fun e => l_id (snd e)) t).
Proof.
  intros OK E. destruct (tree_lanes m t E) as (T & _).
  rewrite <- (map_map snd (fun l => l_id l)), T. apply NoDup_map_filter. rewrite map_map. exact (ok_ids m OK).
Qed.

(* ---- distances ---- *)
Lemma sq_pos x : 0 <= x * x.
Proof. destruct (Qlt_le_dec x 0); nra. Qed.

Lemma seg_min p a b : exists q, on_segment a b q /\ seg_d2 p a b == d2 p q.
Proof.
  unfold seg_d2. cbv zeta.
  set (vx := fst b - fst a). set (vy := snd b - snd a). set (c1 := (fst p - fst a) * vx + (snd p - snd a) * vy).
  set (c2 := vx * vx + vy * vy).
  destruct (Qle_bool c1 0) eqn:E1.
  - exists a. split; [|reflexivity]. exists 0. repeat split; try lra; ring.
  - destruct (Qle_bool c2 c1) eqn:E2.
    + exists b. split; [|reflexivity]. exists 1. repeat split; try lra; ring.
    + assert (0 < c1). { apply Qnot_le_lt. intros H. apply Qle_bool_iff in H. congruence. }
      assert (c1 < c2). { apply Qnot_le_lt. intros H0. apply Qle_bool_iff in H0. congruence. }
      eexists. split; [|reflexivity]. exists (c1 / c2). repeat split; cbn [fst snd]; try reflexivity.
      * apply Qle_shift_div_l; lra.
      * apply Qle_shift_div_r; lra.
Qed.
Lemma d2_eq p q q' : fst q == fst q' -> snd q == snd q' -> d2 p q == d2 p q'.
Proof. intros A B. unfold d2. rewrite A, B. reflexivity. Qed.

(* |p - (a + t v)|^2 = |p-a|^2 - 2 t c1 + t^2 c2 *)
Lemma seg_expand p a b t q : fst q == fst a + t * (fst b - fst a) -> snd q == snd a + t * (snd b - snd a) ->
  d2 p q == d2 p a - 2 * t * ((fst p - fst a) * (fst b - fst a) + (snd p - snd a) * (snd b - snd a))
            + t * t * ((fst b - fst a) * (fst b - fst a) + (snd b - snd a) * (snd b - snd a)).
Proof. intros A B. unfold d2. rewrite A, B. ring. Qed.

Lemma seg_lower p a b q : on_segment a b q -> seg_d2 p a b <= d2 p q.
Proof.
  intros (t & T0 & T1 & X & Y). pose proof (seg_expand p a b t q X Y) as E. unfold seg_d2. cbv zeta.
  set (c1 := (fst p - fst a) * (fst b - fst a) + (snd p - snd a) * (snd b - snd a)) in *.
  set (c2 := (fst b - fst a) * (fst b - fst a) + (snd b - snd a) * (snd b - snd a)) in *.
  assert (C2 : 0 <= c2).
  { unfold c2. pose proof (sq_pos (fst b - fst a)). pose proof (sq_pos (snd b - snd a)). lra. }
  destruct (Qle_bool c1 0) eqn:E1.
  - apply Qle_bool_iff in E1. rewrite E. nra.
  - assert (L1 : 0 < c1). { apply Qnot_le_lt. intros H. apply Qle_bool_iff in H. congruence. }
    destruct (Qle_bool c2 c1) eqn:E2.
    + apply Qle_bool_iff in E2.
      assert (F : d2 p b == d2 p a - 2 * 1 * c1 + 1 * 1 * c2) by (apply (seg_expand p a b 1 b); ring).
      rewrite F, E. assert (0 <= (1 - t) * (2 * c1 - c2 - t * c2)); [|lra]. apply Qmult_le_0_compat; nra.
    + assert (L2 : c1 < c2). { apply Qnot_le_lt. intros H. apply Qle_bool_iff in H. congruence. }
      set (u := c1 / c2).
      assert (U : u * c2 == c1) by (unfold u; field; lra).
      rewrite (seg_expand p a b u (fst a + u * (fst b - fst a), snd a + u * (snd b - snd a))) by reflexivity.
      fold c1 c2. rewrite E, <- U. pose proof (sq_pos (t - u)) as S. nra.
Qed.

Lemma line_ends_chord l a b : line_ends (l_line l) = Some (a, b) -> chord l a b.
Proof.
  unfold line_ends, chord. destruct (l_line l) as [|x r]; [discriminate|]. intros E. inversion E; subst.
  split; [exists r; auto|]. exists (removelast (a :: r)).
  assert (H : a :: r <> []) by discriminate. rewrite (app_removelast_last a H) at 1. f_equal. f_equal.
  destruct r; reflexivity.
Qed.
Lemma chord_fun l a b a' b' : chord l a b -> chord l a' b' -> a = a' /\ b = b'.
Proof.
  intros ((r & A) & (s & B)) ((r' & A') & (s' & B')). split; [congruence|]. rewrite B in B'. now apply app_inj_tail in B'.
Qed.
Lemma entry_as_near p e e' : ent_ok e -> ent_ok e' -> entry_d2 p e <= entry_d2 p e' -> as_near p (snd e) (snd e').
Proof.
  intros O O' H a b a' b' q' C C' S. destruct e as [[x y] l]. destruct e' as [[x' y'] l']. cbn in *.
  apply line_ends_chord in O. apply line_ends_chord in O'.
  destruct (chord_fun _ _ _ _ _ C O) as (-> & ->). destruct (chord_fun _ _ _ _ _ C' O') as (-> & ->).
  unfold entry_d2 in H. cbn in H. destruct (seg_min p x y) as (q & Q1 & Q2). exists q. split; auto.
  rewrite <- Q2. eapply Qle_trans; [exact H|]. now apply seg_lower.
Qed.

(* ---- boxes ---- *)
Lemma Qmin_cases x y : (Qmin x y == x /\ x <= y) \/ (Qmin x y == y /\ y <= x).
Proof. destruct (Q.min_spec x y) as [(A & B)|(A & B)]; [left|right]; split; auto; lra. Qed.
Lemma Qmax_cases x y : (Qmax x y == x /\ y <= x) \/ (Qmax x y == y /\ x <= y).
Proof. destruct (Q.max_spec x y) as [(A & B)|(A & B)]; [right|left]; split; auto; lra. Qed.
Lemma envelope_box pts : match envelope pts with Some b => is_box pts b | None => pts = [] end.
Proof.
  destruct pts as [|p r]; [reflexivity|]. cbn [envelope].
  assert (G : forall r pre b, is_box pre b -> is_box (pre ++ r) (fold_left (fun b q => ((Qmin (fst (fst b)) (fst q), Qmin (snd (fst b)) (snd q)),
     (Qmax (fst (snd b)) (fst q), Qmax (snd (snd b)) (snd q)))) r b)).
  { clear. induction r as [|x r IH]; intros pre b H; [now rewrite app_nil_r|].
    cbn [fold_left]. replace (pre ++ x :: r) with ((pre ++ [x]) ++ r) by now rewrite <- app_assoc. apply IH. clear IH.
    destruct H as (H & (q1 & I1 & E1) & (q2 & I2 & E2) & (q3 & I3 & E3) & (q4 & I4 & E4)).
    pose proof (Qmin_cases (fst (fst b)) (fst x)) as M1. pose proof (Qmax_cases (fst (snd b)) (fst x)) as M2.
    pose proof (Qmin_cases (snd (fst b)) (snd x)) as M3. pose proof (Qmax_cases (snd (snd b)) (snd x)) as M4.
    split; [|split; [|split; [|split]]]; cbn [fst snd].
    - intros q I. apply in_app_or in I as [I|[<-|[]]]; [destruct (H q I) as ((K1 & K2) & K3 & K4)|]; (split; split); [destruct M1 as [[N1 N2]|[N1 N2]]|destruct M2 as [[N1 N2]|[N1 N2]]|destruct M3 as [[N1 N2]|[N1 N2]]|destruct M4 as [[N1 N2]|[N1 N2]]|destruct M1 as [[N1 N2]|[N1 N2]]|destruct M2 as [[N1 N2]|[N1 N2]]|destruct M3 as [[N1 N2]|[N1 N2]]|destruct M4 as [[N1 N2]|[N1 N2]]]; rewrite N1; lra.
    - destruct M1 as [(M & _)|(M & _)]; [exists q1|exists x]; rewrite in_app_iff, M; cbn [In]; split; auto; lra.
    - destruct M2 as [(M & _)|(M & _)]; [exists q2|exists x]; rewrite in_app_iff, M; cbn [In]; split; auto; lra.
    - destruct M3 as [(M & _)|(M & _)]; [exists q3|exists x]; rewrite in_app_iff, M; cbn [In]; split; auto; lra.
    - destruct M4 as [(M & _)|(M & _)]; [exists q4|exists x]; rewrite in_app_iff, M; cbn [In]; split; auto; lra. }
  apply (G r [p] (p, p)). split; [|repeat split; exists p; cbn; split; auto; lra].
  intros q [<-|[]]. cbn. lra.
Qed.

Lemma fold_app_In {A B : Type} (f : list A -> B -> list A) (g : B -> list A) l :
  (forall x acc q, In q (f acc x) <-> In q acc \/ In q (g x)) ->
  forall acc q, In q (fold_left f l acc) <-> In q acc \/ exists x, In x l /\ In q (g x).
Proof.
  intros H. induction l as [|x l IH]; intros acc q; cbn [fold_left].
  - split; [auto|intros [I|(x & [] & _)]; auto].
  - rewrite IH, H. split.
    + intros [[I|I]|(y & I & J)]; [left; exact I|right; exists x; split; [now left|exact I]|right; exists y; split; [now right|exact J]].
    + intros [I|(y & [<-|I] & J)]; eauto.
Qed.
Lemma map_points_In m q : map_ok m -> In q (map_points m) <-> exists r l, lane_of m r l /\ In q (l_line l).
Proof.
  intros OK. unfold map_points.
  rewrite (fold_app_In _ (fun kr : N * road qp => flat_map (fun s : section qp => flat_map (fun kl : N * xlane qp => l_line (snd kl)) s) (r_sections (snd kr)))).
  - split.
    + intros [[]|([r rd] & Hr & H)]. apply in_flat_map in H as (s & Hs & H). apply in_flat_map in H as ([k l] & Hl & H). cbn in *.
      exists r, l. split; auto. assert (S : section_of m r s) by (exists rd; auto). exists s. split; auto. unfold in_section.
      rewrite <- (ok_keys m OK r s k l S Hl). exact Hl.
    + intros (r & l & (s & (rd & Hr & Hs) & Hl) & H). right. exists (r, rd). split; auto. apply in_flat_map. exists s. split; auto.
      apply in_flat_map. exists (l_id l, l). auto.
  - intros kr acc x. rewrite (fold_app_In _ (fun s : section qp => flat_map (fun kl : N * xlane qp => l_line (snd kl)) s)).
    + rewrite in_flat_map. tauto.
    + intros s acc' y. rewrite (fold_app_In _ (fun kl : N * xlane qp => l_line (snd kl))).
      * rewrite in_flat_map. tauto.
      * intros kl acc2 z. apply in_app_iff.
Qed.

(* ---- polygons in the graph ---- *)
Section Polys.
  Context {P : Type}.
  Implicit Types (m : xmap P) (g : graph P).
  Lemma connect_v a b g g' : connect a b g = Some g' -> g_v g' = g_v g.
  Proof.
    unfold connect. destruct (plan_view_for_lane _ a); [|discriminate]. destruct (plan_view_for_lane _ b); [|discriminate].
    intros E. inversion E. unfold add_road_succ, add_lane_succ. now rewrite !add_edge_v.
  Qed.
  Lemma ofold_v {B : Type} (f : graph P -> B -> option (graph P)) l :
    (forall x g g', f g x = Some g' -> g_v g' = g_v g) -> forall g g', ofold f l g = Some g' -> g_v g' = g_v g.
  Proof.
    intros H. induction l as [|x l IH]; intros g g' E; cbn in E; [inversion E; auto|].
    destruct (f g x) as [g1|] eqn:F; [|discriminate]. rewrite (IH _ _ E). eauto.
  Qed.
  Lemma gen_pred_lane_v ps l g g' : gen_pred_lane ps l g = Some g' -> g_v g' = g_v g.
  Proof.
    unfold gen_pred_lane. destruct ps; [|intros E; inversion E; auto]. destruct (l_from l =? 0)%Z; [intros E; inversion E; auto|].
    destruct (lane_by_position s (l_from l)); [apply connect_v|intros E; inversion E; auto].
  Qed.
  Lemma gen_links_lane_v ss ps l g g' : gen_links_lane ss ps g l = Some g' -> g_v g' = g_v g.
  Proof.
    unfold gen_links_lane. destruct ss; [|apply gen_pred_lane_v]. destruct (l_to l =? 0)%Z; [intros E; inversion E; auto|].
    destruct (lane_by_position s (l_to l)); [|apply gen_pred_lane_v].
    destruct (connect _ _ g) as [g1|] eqn:C; [|discriminate]. intros E. rewrite (gen_pred_lane_v _ _ _ _ E). eapply connect_v; eauto.
  Qed.
  Lemma gen_links_v m g g' : gen_links m g = Some g' -> g_v g' = g_v g.
  Proof.
    apply ofold_v. intros kr h h'. unfold gen_links_road. destruct (1000 <? _)%N; [intros E; inversion E; auto|].
    destruct (succ_section m (snd kr)); [|discriminate]. destruct (pred_section m (snd kr)); [|discriminate].
    apply ofold_v. intros s h1 h2. apply ofold_v. intros kl h3 h4. apply gen_links_lane_v.
  Qed.
  Lemma gen_junctions_v m g g' : gen_junctions m g = Some g' -> g_v g' = g_v g.
  Proof.
    apply ofold_v. intros kj h h'. apply ofold_v. intros kc h1 h2. unfold gen_connection.
    destruct (m_find (c_incoming (snd kc)) (m_roads m)); [|discriminate]. destruct (m_find (c_connecting (snd kc)) (m_roads m)); [|discriminate].
    destruct (r_sections r); [discriminate|]. destruct (r_sections r0); [discriminate|]. apply ofold_v.
    intros lk h3 h4. destruct (lane_by_position s (fst lk)); [|intros E; inversion E; auto].
    destruct (lane_by_position s0 (snd lk)); [apply connect_v|intros E; inversion E; auto].
  Qed.
  Lemma fold_v {B : Type} (f : graph P -> B -> graph P) l :
    (forall x g, g_v (f g x) = g_v g) -> forall g, g_v (fold_left f l g) = g_v g.
  Proof. intros H. induction l as [|x l IH]; intros g; cbn; [auto|]. now rewrite IH. Qed.
  Lemma gen_neighbours_v m g : g_v (gen_neighbours m g) = g_v g.
  Proof.
    unfold gen_neighbours. apply fold_v. intros kr h. apply fold_v. intros s h1. apply fold_v. intros kl h2.
    unfold gen_neighbours_lane. destruct (l_pos (snd kl) =? 0)%Z; auto. destruct (lane_by_position s _); auto.
    unfold add_outer, add_inner. now rewrite !add_edge_v.
  Qed.
  Lemma gen_vertices_poly m v : In v (g_v (gen_vertices m empty_graph)) -> v_poly v = None.
  Proof. rewrite gen_vertices_spec. cbn. intros H. apply in_map_iff in H as (x & <- & _). reflexivity. Qed.

  (* the polygon of a lane's vertex is the one ComputeXodrLanePolygon gives, if any *)
  Lemma vertex_poly m g v : map_ok m -> generate m = Some g -> In v (g_v g) ->
    (l_pos (v_lane v) = 0%Z -> v_poly v = None) /\
    (l_pos (v_lane v) <> 0%Z -> exists g0, nb m g0 /\ lane_polygon g0 (l_id (v_lane v)) = Some (v_poly v)).
  Proof.
    intros OK E Hv. destruct (generate_inv m g OK E) as (g0 & I0 & G). unfold generate in E.
    destruct (gen_links m _) as [g1|] eqn:E1; [|discriminate]. destruct (gen_junctions m g1) as [g2|] eqn:E2; [|discriminate].
    clear I0 G g0.
    assert (NB : nb m g2).
    { destruct (generate_inv m g OK) as (g0 & I0 & G0).
      { unfold generate. now rewrite E1, E2. }
      (* rebuild: the invariant holds for g2 itself *)
      assert (X : exists L, inv m L g2); [|destruct X as (L & X); exact (proj1 X)].
      pose proof (ofold_inv m _ (fun kr => road_links m (snd kr)) (m_roads m)
        (fun x L g g' Hx HI => gen_links_road_inv m (fst x) (snd x) L g g' OK
           (eq_ind x (fun y => In y (m_roads m)) Hx _ (surjective_pairing x)) HI)
        _ _ _ (inv_neighbours m OK) E1) as I1.
      pose proof (ofold_inv m (fun g kj => ofold (fun g kc => gen_connection m g (snd kc)) (snd kj) g)
        (fun kj a b => exists kc, In kc (snd kj) /\ connection_links m (snd kc) a b) (m_junctions m)) as Q.
      eexists. eapply Q; [|exact I1|exact E2]. intros x L h h' Hx HI Eh.
      pose proof (ofold_inv m _ (fun kc => connection_links m (snd kc)) (snd x)
        (fun y L g g' Hy HI => gen_connection_inv m (snd y) L g g' OK HI) L h h' HI Eh) as I.
      eapply inv_ext; [|exact I]. intros u w. split.
      - intros [K|(kc & Hkc & [K|K])]; [auto| |]; right; [left|right]; eauto.
      - intros [K|[(kc & Hkc & K)|(kc & Hkc & K)]]; [auto| |]; right; exists kc; split; auto; [left|right]; auto. }
    unfold gen_polygons in E. destruct (gen_polys g2 (g_v g2)) as [vs|] eqn:GP; [|discriminate]. cbn in E. inversion E; subst g. cbn in Hv.
    destruct (gen_polys_In g2 _ _ v GP Hv) as (v0 & H0 & _ & _ & _ & K0 & K).
    assert (N0 : v_poly v0 = None).
    { apply (gen_vertices_poly m). rewrite (gen_junctions_v _ _ _ E2), (gen_links_v _ _ _ E1), gen_neighbours_v in H0. exact H0. }
    split; [intros Z0; rewrite (K0 Z0); exact N0|]. intros Z0. exists g2. split; auto.
    destruct (K Z0) as (q & Q1 & Q2). rewrite Q1, Q2, N0. destruct q; reflexivity.
  Qed.
End Polys.

Lemma pos_dec (s : section qp) z :
  (exists b, in_section b s /\ l_pos b = z) \/ (forall b, in_section b s -> l_pos b <> z).
Proof.
  induction s as [|[k l] s IH]; [right; intros b []|].
  destruct IH as [(b & I & E)|No]; [left; exists b; split; [right|]; auto|].
  destruct (N.eq_dec k (l_id l)) as [->|Nk].
  - destruct (Z.eq_dec (l_pos l) z) as [Z1|Z1]; [left; exists l; split; [left|]; auto|].
    right. intros b [I|I]; [congruence|auto].
  - right. intros b [I|I]; [congruence|auto].
Qed.

Lemma vertex_at (m : xmap qp) g r l : map_ok m -> generate m = Some g -> lane_of m r l ->
  exists i v, vertex_by_lane g (l_id l) = Some i /\ nth_error (g_v g) i = Some v /\ v_lane v = l /\ v_id v = l_id l.
Proof.
  intros OK G Hl. destruct (generate_full m g OK G) as (NB & _). pose proof (proj1 NB) as B.
  assert (Hid : In (l_id l) (ids_of (g_v g))) by (eapply base_ids; eauto).
  apply find_v_In in Hid as (i & Hi). destruct (find_v_Some _ _ _ Hi) as (v & Nv & Ev).
  exists i, v. repeat split; auto. destruct (base_lane m g v OK B (nth_error_In _ _ Nv)) as (Hv & Ei).
  apply (lane_id_inj m (v_road v) r (v_lane v) l OK); auto. congruence.
Qed.

Lemma is_in_lane_spec covers m mi0 mi p r l : map_ok m -> set_map m mi0 = Some mi -> lane_of m r l ->
  exists b, is_in_lane covers mi p (l_id l) = Some b /\ (b = true <-> holds covers m l p).
Proof.
  intros OK E Hl. unfold set_map in E. destruct (generate m) as [g|] eqn:G; [|discriminate].
  destruct (lane_tree m) as [t|] eqn:T; [|discriminate]. inversion E; subst; clear E.
  unfold is_in_lane. cbn [mi_graph]. destruct (vertex_at m g r l OK G Hl) as (i & v & V1 & V2 & V3 & V4).
  rewrite V1, V2. destruct (vertex_poly m g v OK G (nth_error_In _ _ V2)) as (K0 & K). rewrite V3 in *.
  assert (HR : forall ring, v_poly v = Some ring <-> ring_of m l ring).
  { intros ring. destruct (Z.eq_dec (l_pos l) 0) as [Z0|Z0].
    - rewrite (K0 Z0). split; [discriminate|]. intros (? & ? & ? & ? & ? & _ & _ & _ & Z1 & _). contradiction.
    - destruct (K Z0) as (g0 & NB & LP). destruct Hl as (s & Hs & Hl).
      destruct (inner_spec m g0 r s l OK NB Hs Hl) as (I1 & I2).
      unfold lane_polygon, lane_boundaries in LP. rewrite (base_lane_ptr m g0 r l OK (proj1 NB)) in LP by (exists s; auto).
      split.
      + intros Ev. rewrite Ev in LP.
        destruct (inner_neighbor g0 (l_id l)) as [[x []]|] eqn:IN; [| |discriminate].
        * destruct (pos_dec s (inward (l_pos l))) as [(b & Hb & Eb)|No].
          -- pose proof (I1 b Hb Z0 Eb) as J. inversion J; subst x.
             rewrite (base_lane_ptr m g0 r b OK (proj1 NB)) in LP by (exists s; auto).
             destruct (l_line b) as [|q rest] eqn:Lb; [discriminate|]. inversion LP; subst.
             exists r, s, b, q, rest. rewrite Lb. repeat split; auto.
          -- discriminate (I2 (or_intror No)).
        * discriminate.
      + intros (r' & s' & b & q & rest & Hs' & Hl' & Hb & _ & Eb & Lb & ->).
        destruct (section_inj m r' r s' s l OK Hs' Hs Hl' Hl) as (-> & ->).
        rewrite (I1 b Hb Z0 Eb) in LP. rewrite (base_lane_ptr m g0 r b OK (proj1 NB)) in LP by (exists s; auto).
        rewrite Lb in *. congruence. }
  destruct (v_poly v) as [ring|] eqn:EV.
  - exists (covers ring p). split; auto. split.
    + intros C. exists ring. split; auto. now apply HR.
    + intros (ring' & R' & C). apply HR in R'. congruence.
  - exists false. split; auto. split; [discriminate|]. intros (ring & R' & _). apply HR in R'. discriminate.
Qed.
