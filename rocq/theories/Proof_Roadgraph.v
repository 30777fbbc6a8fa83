(* Graph representation lemmas and the edges of a generated roadgraph. *)
From Coq Require Import List NArith ZArith Bool Arith Lia.
From Verif Require Import Model_Map Proof_Map Model_Roadgraph Spec_Roadgraph.
Import ListNotations.

Section Graph.
  Context {P : Type}.
  Implicit Types (g : graph P) (vs : list (vertex P)).

  Definition ids_of vs : list N := map v_id vs.
  Definition graph_ok g : Prop :=
    NoDup (ids_of (g_v g)) /\
    (forall v, In v (g_v g) -> v_id v = l_id (v_lane v)) /\
    (forall e, In e (g_e g) -> e_src e < length (g_v g) /\ e_dst e < length (g_v g)).

  Definition edge_ids g : list (N * N * etype) :=
    map (fun e => (vid g (e_src e), vid g (e_dst e), e_type e)) (g_e g).

  Lemma etype_eqb_spec a b : etype_eqb a b = true <-> a = b.
  Proof. destruct a, b; cbn; split; congruence. Qed.
  Lemma dir_eqb_spec a b : dir_eqb a b = true <-> a = b.
  Proof. destruct a, b; cbn; split; congruence. Qed.

  Lemma find_v_Some vs id i :
    find_v vs id = Some i -> exists v, nth_error vs i = Some v /\ v_id v = id.
  Proof.
    revert i; induction vs as [|v r IH]; cbn; intros i H; [discriminate|].
    destruct (N.eqb_spec (v_id v) id) as [E|E].
    - inversion H; subst. exists v; auto.
    - destruct (find_v r id) as [j|]; [|discriminate]. inversion H; subst.
      destruct (IH j eq_refl) as (w & Hw & Ew). exists w; auto.
  Qed.

  Lemma find_v_None vs id : find_v vs id = None <-> ~ In id (ids_of vs).
  Proof.
    induction vs as [|v r IH]; cbn; [tauto|].
    destruct (N.eqb_spec (v_id v) id) as [E|E].
    - split; [discriminate|]. intros H; exfalso; apply H; auto.
    - destruct (find_v r id) as [j|] eqn:F; cbn.
      + split; [discriminate|]. intros H; exfalso; apply H. right.
        apply find_v_Some in F as (w & Hw & Ew). apply in_map_iff. exists w.
        split; auto. eapply nth_error_In; eauto.
      + split; intros _; auto. intros [H|H]; [congruence|]. destruct IH as [IH _]. now apply IH.
  Qed.

  Lemma find_v_nth vs i v :
    NoDup (ids_of vs) -> nth_error vs i = Some v -> find_v vs (v_id v) = Some i.
  Proof.
    intros ND H. destruct (find_v vs (v_id v)) as [j|] eqn:F.
    - apply find_v_Some in F as (w & Hw & Ew). f_equal.
      assert (Ej : nth_error (ids_of vs) j = Some (v_id v))
        by (unfold ids_of; rewrite nth_error_map, Hw; cbn; congruence).
      assert (Ei : nth_error (ids_of vs) i = Some (v_id v))
        by (unfold ids_of; rewrite nth_error_map, H; reflexivity).
      rewrite NoDup_nth_error in ND. apply ND; [|congruence].
      apply nth_error_Some. rewrite Ej. discriminate.
    - apply find_v_None in F. exfalso; apply F. apply in_map. eapply nth_error_In; eauto.
  Qed.

  Lemma find_v_In vs id : In id (ids_of vs) -> exists i, find_v vs id = Some i.
  Proof.
    intros H. destruct (find_v vs id) as [i|] eqn:F; [eauto|].
    apply find_v_None in F. contradiction.
  Qed.

  Lemma vid_find g id i : vertex_by_lane g id = Some i -> vid g i = id.
  Proof.
    intros H. apply find_v_Some in H as (v & Hv & E). unfold vid. now rewrite Hv.
  Qed.

  Lemma vid_inj g i j : NoDup (ids_of (g_v g)) -> i < length (g_v g) -> j < length (g_v g) ->
    vid g i = vid g j -> i = j.
  Proof.
    intros ND Hi Hj E. unfold vid in E.
    destruct (nth_error (g_v g) i) as [v|] eqn:Ei; [|apply nth_error_None in Ei; lia].
    destruct (nth_error (g_v g) j) as [w|] eqn:Ej; [|apply nth_error_None in Ej; lia].
    pose proof (find_v_nth _ _ _ ND Ei) as A. pose proof (find_v_nth _ _ _ ND Ej) as B. congruence.
  Qed.

  Lemma find_v_lt vs id i : find_v vs id = Some i -> i < length vs.
  Proof.
    intros H. apply find_v_Some in H as (v & Hv & _). apply nth_error_Some. congruence.
  Qed.

  Lemma vid_cong g g' i : g_v g = g_v g' -> vid g i = vid g' i.
  Proof. unfold vid. now intros ->. Qed.

  Lemma in_ids_vid g i : i < length (g_v g) -> In (vid g i) (ids_of (g_v g)).
  Proof.
    intros H. unfold vid. destruct (nth_error (g_v g) i) as [v|] eqn:E.
    - apply in_map. eapply nth_error_In; eauto.
    - apply nth_error_None in E; lia.
  Qed.

  (* ---- add_edge ---- *)
  Lemma add_edge_v g a b t : g_v (fst (add_edge g a b t)) = g_v g.
  Proof.
    unfold add_edge. destruct (vertex_by_lane g a), (vertex_by_lane g b); reflexivity.
  Qed.
  Lemma add_edge_ok g a b t : graph_ok g -> graph_ok (fst (add_edge g a b t)).
  Proof.
    intros (A & B & C). unfold graph_ok. rewrite !add_edge_v. split; [auto|split; [auto|]].
    unfold add_edge. destruct (vertex_by_lane g a) as [i|] eqn:Ei, (vertex_by_lane g b) as [j|] eqn:Ej; cbn; auto.
    intros e He. apply in_app_iff in He as [He|[<-|[]]]; [auto|]. cbn.
    split; eapply find_v_lt; eauto.
  Qed.
  Lemma add_edge_ids g a b t :
    edge_ids (fst (add_edge g a b t)) =
    edge_ids g ++ (if has_lane g a && has_lane g b then [(a, b, t)] else []).
  Proof.
    assert (Hh : forall x, has_lane g x = match vertex_by_lane g x with Some _ => true | None => false end).
    { intros x. unfold has_lane, vertex_by_lane. induction (g_v g) as [|v r IH]; cbn; auto.
      destruct (v_id v =? x)%N; cbn; auto. rewrite IH. destruct (find_v r x); auto. }
    rewrite !Hh. unfold add_edge.
    destruct (vertex_by_lane g a) as [i|] eqn:Ei, (vertex_by_lane g b) as [j|] eqn:Ej; cbn;
      rewrite ?app_nil_r; auto.
    unfold edge_ids at 1; cbn. rewrite map_app. cbn. f_equal.
    rewrite (vid_find g a i Ei : vid (mkGraph (g_v g) _) i = a),
            (vid_find g b j Ej : vid (mkGraph (g_v g) _) j = b). reflexivity.
  Qed.
  Lemma has_lane_spec g id : has_lane g id = true <-> In id (ids_of (g_v g)).
  Proof.
    unfold has_lane, ids_of. rewrite existsb_exists, in_map_iff. split.
    - intros (v & Hv & E). apply N.eqb_eq in E. eauto.
    - intros (v & E & Hv). exists v. split; auto. now apply N.eqb_eq.
  Qed.
  Lemma add_edge_In g a b t x : In a (ids_of (g_v g)) -> In b (ids_of (g_v g)) ->
    (In x (edge_ids (fst (add_edge g a b t))) <-> In x (edge_ids g) \/ x = (a, b, t)).
  Proof.
    intros Ha Hb. rewrite add_edge_ids, in_app_iff.
    apply has_lane_spec in Ha, Hb. rewrite Ha, Hb. cbn. intuition.
  Qed.
  Lemma add_edge_In_sub g a b t x : In x (edge_ids (fst (add_edge g a b t))) ->
    In x (edge_ids g) \/ x = (a, b, t).
  Proof.
    rewrite add_edge_ids, in_app_iff. destruct (has_lane g a && has_lane g b); cbn; intuition.
  Qed.
  Lemma add_edge_In_sup g a b t x : In x (edge_ids g) -> In x (edge_ids (fst (add_edge g a b t))).
  Proof. rewrite add_edge_ids, in_app_iff. auto. Qed.

  (* ---- neighbour queries see exactly the edges ---- *)
  Lemma out_ids g id i t : graph_ok g -> vertex_by_lane g id = Some i ->
    forall x, In x (map (fun e => vid g (e_dst e))
                     (filter (fun e => etype_eqb (e_type e) t) (out_edges g i))) <->
              In (id, x, t) (edge_ids g).
  Proof.
    intros (ND & _ & R) Hi x. rewrite in_map_iff. unfold out_edges, edge_ids. rewrite in_map_iff. split.
    - intros (e & <- & He). apply filter_In in He as [He Ht]. apply filter_In in He as [He Hs].
      apply etype_eqb_spec in Ht. apply Nat.eqb_eq in Hs. exists e. split; auto.
      rewrite Hs, (vid_find _ _ _ Hi), Ht. reflexivity.
    - intros (e & E & He). inversion E as [[E1 E2 E3]]. exists e. split; auto.
      rewrite !filter_In. repeat split; auto.
      + apply Nat.eqb_eq. apply (vid_inj g); auto. { apply R; auto. } { eapply find_v_lt; eauto. }
        rewrite E1. symmetry. now apply vid_find.
      + now apply etype_eqb_spec.
  Qed.
  Lemma in_ids_edges g id i t : graph_ok g -> vertex_by_lane g id = Some i ->
    forall x, In x (map (fun e => vid g (e_src e))
                     (filter (fun e => etype_eqb (e_type e) t) (in_edges g i))) <->
              In (x, id, t) (edge_ids g).
  Proof.
    intros (ND & _ & R) Hi x. rewrite in_map_iff. unfold in_edges, edge_ids. rewrite in_map_iff. split.
    - intros (e & <- & He). apply filter_In in He as [He Ht]. apply filter_In in He as [He Hs].
      apply etype_eqb_spec in Ht. apply Nat.eqb_eq in Hs. exists e. split; auto.
      rewrite Hs, (vid_find _ _ _ Hi), Ht. reflexivity.
    - intros (e & E & He). inversion E as [[E1 E2 E3]]. exists e. split; auto.
      rewrite !filter_In. repeat split; auto.
      + apply Nat.eqb_eq. apply (vid_inj g); auto. { apply R; auto. } { eapply find_v_lt; eauto. }
        rewrite E2. symmetry. now apply vid_find.
      + now apply etype_eqb_spec.
  Qed.

  Lemma neighbors_spec g id t : graph_ok g -> In id (ids_of (g_v g)) ->
    exists ns, neighbors_of_type g id t = Some ns /\ ns <> [] /\
      (forall x, In (x, true) ns <-> In (id, x, t) (edge_ids g)) /\
      ((exists x, In (id, x, t) (edge_ids g)) -> forall n, In n ns -> snd n = true) /\
      ((forall x, ~ In (id, x, t) (edge_ids g)) -> ns = [(0%N, false)]).
  Proof.
    intros OK Hid. apply find_v_In in Hid as (i & Hi). fold (vertex_by_lane g id) in Hi.
    pose proof (out_ids g id i t OK Hi) as H. unfold neighbors_of_type. rewrite Hi.
    set (fs := filter _ _) in *.
    destruct fs as [|e es] eqn:Es.
    - exists [(0%N, false)]. cbn. repeat split; auto; try discriminate.
      + intros [E|[]]; inversion E.
      + intros E. apply H in E. destruct E.
      + intros (x & E). apply H in E. destruct E.
    - eexists. split; [reflexivity|]. cbn [map]. split; [discriminate|]. split; [|split].
      + intros x. rewrite <- H. change (In (x, true) (map (fun e => (vid g (e_dst e), true)) (e :: es)) <-> In x (map (fun e => vid g (e_dst e)) (e :: es))).
        rewrite !in_map_iff. split; intros (y & E & Hy); exists y; split; auto; congruence.
      + intros _ n Hn. change (In n (map (fun e => (vid g (e_dst e), true)) (e :: es))) in Hn.
        apply in_map_iff in Hn as (y & <- & _). reflexivity.
      + intros Hno. exfalso. apply (Hno (vid g (e_dst e))). apply H. left. reflexivity.
  Qed.

  (* the front neighbour when the target is unique *)
  Lemma front_unique g id t x : graph_ok g -> In (id, x, t) (edge_ids g) ->
    (forall y, In (id, y, t) (edge_ids g) -> y = x) -> In id (ids_of (g_v g)) ->
    exists r, neighbors_of_type g id t = Some ((x, true) :: r).
  Proof.
    intros OK Hx U Hid. destruct (neighbors_spec g id t OK Hid) as (ns & E & Hn & Hi & Ht & _).
    destruct ns as [|[y c] r]; [contradiction|]. exists r. rewrite E. repeat f_equal.
    - apply U, Hi. left. f_equal. exact (Ht (ex_intro _ x Hx) (y, c) (or_introl eq_refl)).
    - exact (Ht (ex_intro _ x Hx) (y, c) (or_introl eq_refl)).
  Qed.
  Lemma inner_unique g id x : graph_ok g -> In (id, x, INNER) (edge_ids g) ->
    (forall y, In (id, y, INNER) (edge_ids g) -> y = x) -> In id (ids_of (g_v g)) ->
    inner_neighbor g id = Some (x, true).
  Proof.
    intros OK A B C. destruct (front_unique g id INNER x OK A B C) as (r & E).
    unfold inner_neighbor. now rewrite E.
  Qed.
  Lemma outer_unique g id x : graph_ok g -> In (id, x, OUTER) (edge_ids g) ->
    (forall y, In (id, y, OUTER) (edge_ids g) -> y = x) -> In id (ids_of (g_v g)) ->
    outer_neighbor g id = Some (x, true).
  Proof.
    intros OK A B C. destruct (front_unique g id OUTER x OK A B C) as (r & E).
    unfold outer_neighbor. now rewrite E.
  Qed.
  Lemma inner_none g id : graph_ok g -> (forall y, ~ In (id, y, INNER) (edge_ids g)) ->
    In id (ids_of (g_v g)) -> inner_neighbor g id = Some (0%N, false).
  Proof.
    intros OK A C. destruct (neighbors_spec g id INNER OK C) as (ns & E & _ & _ & _ & Hno).
    unfold inner_neighbor. rewrite E, (Hno A). reflexivity.
  Qed.
  Lemma outer_none g id : graph_ok g -> (forall y, ~ In (id, y, OUTER) (edge_ids g)) ->
    In id (ids_of (g_v g)) -> outer_neighbor g id = Some (0%N, false).
  Proof.
    intros OK A C. destruct (neighbors_spec g id OUTER OK C) as (ns & E & _ & _ & _ & Hno).
    unfold outer_neighbor. rewrite E, (Hno A). reflexivity.
  Qed.

  Lemma lane_ptr_In g v : graph_ok g -> In v (g_v g) -> lane_ptr g (v_id v) = Some (v_lane v).
  Proof.
    intros (ND & _ & _) Hv. apply In_nth_error in Hv as (i & Hi).
    unfold lane_ptr, vertex_by_lane. rewrite (find_v_nth _ _ _ ND Hi), Hi. reflexivity.
  Qed.
  Lemma road_for_lane_In g v : graph_ok g -> In v (g_v g) -> road_for_lane g (v_id v) = Some (v_road v).
  Proof.
    intros (ND & _ & _) Hv. apply In_nth_error in Hv as (i & Hi).
    unfold road_for_lane, vertex_by_lane, vroad. rewrite (find_v_nth _ _ _ ND Hi), Hi. reflexivity.
  Qed.
End Graph.

Section Gen.
  Context {P : Type}.
  Implicit Types (g : graph P) (m : xmap P) (s : section P) (l a b : xlane P).

  Definition vkey (v : vertex P) := (v_road v, v_lane v).

  Lemma lane_by_position_last s p : NoDup (map (fun kl => l_pos (snd kl)) s) ->
    forall l, lane_by_position s p = Some l <-> (exists k, In (k, l) s) /\ l_pos l = p.
  Proof.
    intros ND.
    assert (G : forall acc l,
      fold_left (fun acc kv => if (p =? l_pos (snd kv))%Z then Some (snd kv) else acc) s acc = Some l <->
      ((exists k, In (k, l) s) /\ l_pos l = p) \/
      (acc = Some l /\ forall k l', In (k, l') s -> l_pos l' <> p)).
    { induction s as [|[k x] r IH]; intros acc l.
      - cbn. split; [intros H; right; split; [auto|tauto]|]. intros [[[k []] _]|[H _]]; auto.
      - cbn [fold_left snd]. inversion ND as [|? ? Hnot ND']; subst.
        specialize (IH ND'). rewrite IH. clear IH. cbn in Hnot.
        destruct (Z.eqb_spec p (l_pos x)) as [E|E].
        + split.
          * intros [[[k0 H] H']|[H H']].
            { left; split; auto. exists k0; right; auto. }
            { left. inversion H; subst. split; auto. exists k; left; auto. }
          * intros [[[k0 [H|H]] H']|[_ H']].
            { right. inversion H; subst. split; auto. intros k1 l' Hin E'. apply Hnot.
              apply in_map_iff. exists (k1, l'); auto. }
            { left; split; eauto. }
            { exfalso. apply (H' k x); [left; auto|auto]. }
        + split.
          * intros [[[k0 H] H']|[H H']].
            { left; split; auto. exists k0; right; auto. }
            { right. split; auto. intros k1 l' [Hin|Hin]; [inversion Hin; subst; auto|eauto]. }
          * intros [[[k0 [H|H]] H']|[H H']].
            { inversion H; subst. exfalso; auto. }
            { left; split; eauto. }
            { right; split; auto. intros k1 l' Hin. apply (H' k1 l'). right; auto. } }
    intros l. unfold lane_by_position. rewrite G. split.
    - intros [H|[H _]]; [auto|discriminate].
    - auto.
  Qed.

  Lemma lane_by_position_spec m r s p : map_ok m -> section_of m r s ->
    forall l, lane_by_position s p = Some l <-> in_section l s /\ l_pos l = p.
  Proof.
    intros OK Hs l. rewrite lane_by_position_last by (eapply ok_pos; eauto).
    unfold in_section. split; intros [A B]; split; auto.
    - destruct A as (k & A). pose proof (ok_keys m OK _ _ _ _ Hs A) as ->. exact A.
    - eauto.
  Qed.

  Lemma pos_inj m r s a b : map_ok m -> section_of m r s -> in_section a s -> in_section b s ->
    l_pos a = l_pos b -> a = b.
  Proof.
    intros OK Hs Ha Hb E.
    assert (A := proj2 (lane_by_position_spec m r s (l_pos a) OK Hs a) (conj Ha eq_refl)).
    assert (B := proj2 (lane_by_position_spec m r s (l_pos a) OK Hs b) (conj Hb (eq_sym E))).
    congruence.
  Qed.

  Lemma sections_list_In m r s : In (r, s) (sections_list m) <-> section_of m r s.
  Proof.
    unfold sections_list, section_of. rewrite in_flat_map. split.
    - intros ([k rd] & H & E). apply in_map_iff in E as (s' & E & Hs'). cbn in *. inversion E; subst. eauto.
    - intros (rd & H & Hs). exists (r, rd). split; auto. apply in_map_iff. exists s. auto.
  Qed.
  Lemma lanes_list_In m r l : map_ok m -> In (r, l) (lanes_list m) <-> lane_of m r l.
  Proof.
    intros OK. unfold lanes_list, lane_of. rewrite in_flat_map. split.
    - intros ([k s] & H & E). apply in_map_iff in E as ([k' l'] & E & Hl). cbn in *. inversion E; subst.
      apply sections_list_In in H. exists s. split; auto. unfold in_section.
      pose proof (ok_keys m OK _ _ _ _ H Hl) as ->. exact Hl.
    - intros (s & H & Hl). exists (r, s). split; [now apply sections_list_In|].
      apply in_map_iff. exists (l_id l, l). auto.
  Qed.

  (* the same lane id means the same lane, road and (for the lane) record *)
  Lemma nodup_map_inj {A B : Type} (f : A -> B) (xs : list A) :
    NoDup (map f xs) -> forall x y, In x xs -> In y xs -> f x = f y -> x = y.
  Proof.
    induction xs as [|z r IH]; cbn; intros ND x y Hx Hy E; [destruct Hx|].
    inversion ND as [|? ? Hn ND']; subst.
    destruct Hx as [->|Hx], Hy as [->|Hy]; auto.
    - exfalso; apply Hn. rewrite E. now apply in_map.
    - exfalso; apply Hn. rewrite <- E. now apply in_map.
  Qed.
  Lemma lane_id_inj m r r' a b : map_ok m -> lane_of m r a -> lane_of m r' b ->
    l_id a = l_id b -> r = r' /\ a = b.
  Proof.
    intros OK Ha Hb E. apply (lanes_list_In m r a OK) in Ha. apply (lanes_list_In m r' b OK) in Hb.
    pose proof (nodup_map_inj _ _ (ok_ids m OK) _ _ Ha Hb E) as H. inversion H; auto.
  Qed.

  Lemma nodup_app_disj {A : Type} (u w : list A) : NoDup (u ++ w) -> forall x, In x u -> ~ In x w.
  Proof.
    induction u as [|y u IH]; cbn; intros ND x Hx Hy; [destruct Hx|].
    inversion ND as [|? ? Hn ND']; subst. destruct Hx as [->|Hx].
    - apply Hn, in_app_iff. auto.
    - exact (IH ND' x Hx Hy).
  Qed.

  Lemma nodup_app_r {A : Type} (u w : list A) : NoDup (u ++ w) -> NoDup w.
  Proof.
    induction u as [|y u IH]; cbn; intros ND; auto. inversion ND; auto.
  Qed.

  (* sections partition the lanes: the section of a lane is unique as a place in the list; equal lanes in
     two listed sections would repeat an id. *)
  Lemma section_inj m r r' s s' a : map_ok m -> section_of m r s -> section_of m r' s' ->
    in_section a s -> in_section a s' -> s = s' /\ r = r'.
  Proof.
    intros OK Hs Hs' Ha Ha'.
    apply sections_list_In in Hs, Hs'. pose proof (ok_ids m OK) as ND. unfold lanes_list in ND.
    revert Hs Hs' ND. induction (sections_list m) as [|[k t] rest IH]; intros Hs Hs' ND; [destruct Hs|].
    cbn [flat_map] in ND. rewrite map_app in ND.
    assert (Disj : forall x, In x (map (fun rl => l_id (snd rl)) (map (fun kl => (fst (k, t), snd kl)) (snd (k, t)))) ->
                   ~ In x (map (fun rl => l_id (snd rl)) (flat_map (fun rs => map (fun kl => (fst rs, snd kl)) (snd rs)) rest))).
    { exact (nodup_app_disj _ _ ND). }
    assert (Inner : forall r0 s0, (r0, s0) = (k, t) -> in_section a s0 ->
                    In (l_id a) (map (fun rl => l_id (snd rl)) (map (fun kl => (fst (k, t), snd kl)) (snd (k, t))))).
    { intros r0 s0 E H. inversion E; subst. rewrite map_map. apply in_map_iff. exists (l_id a, a). auto. }
    assert (Rest : forall r0 s0, In (r0, s0) rest -> in_section a s0 ->
                   In (l_id a) (map (fun rl => l_id (snd rl)) (flat_map (fun rs => map (fun kl => (fst rs, snd kl)) (snd rs)) rest))).
    { intros r0 s0 Hin H. apply in_map_iff. exists (r0, a). split; auto. apply in_flat_map.
      exists (r0, s0). split; auto. apply in_map_iff. exists (l_id a, a). auto. }
    destruct Hs as [E|Hs], Hs' as [E'|Hs'].
    - inversion E; inversion E'; subst; auto.
    - exfalso. apply (Disj (l_id a)); [apply (Inner r s); auto|eauto].
    - exfalso. apply (Disj (l_id a)); [apply (Inner r' s'); auto|eauto].
    - apply IH; auto. exact (nodup_app_r _ _ ND).
  Qed.

  (* ---- vertices ---- *)
  Lemma fold_add_lane (r : N) (s : list (N * xlane P)) g :
    fold_left (fun g kl => add_lane r (snd kl) g) s g =
    mkGraph (g_v g ++ map (fun kl => mkVertex r (l_id (snd kl)) (snd kl) None) s) (g_e g).
  Proof.
    revert g; induction s as [|kl rest IH]; intros g; cbn.
    - rewrite app_nil_r. destruct g; reflexivity.
    - rewrite IH. cbn. now rewrite <- app_assoc.
  Qed.
  Definition vertex_of (rl : N * xlane P) : vertex P := mkVertex (fst rl) (l_id (snd rl)) (snd rl) None.

  Lemma gen_vertices_spec m : gen_vertices m empty_graph = mkGraph (map vertex_of (lanes_list m)) [].
  Proof.
    unfold gen_vertices, lanes_list, sections_list.
    assert (S2 : forall r ss g,
      fold_left (fun g s => fold_left (fun g kl => add_lane r (snd kl) g) s g) ss g =
      mkGraph (g_v g ++ map vertex_of (flat_map (fun s => map (fun kl => (r, snd kl)) s) ss)) (g_e g)).
    { intros r ss; induction ss as [|s rest IH]; intros g; cbn.
      - rewrite app_nil_r. destruct g; reflexivity.
      - rewrite fold_add_lane, IH. cbn [g_v g_e flat_map]. rewrite map_app, map_map, <- app_assoc.
        reflexivity. }
    assert (S1 : forall rs g,
      fold_left (fun g kr => fold_left (fun g s => fold_left (fun g kl => add_lane (fst kr) (snd kl) g) s g)
        (r_sections (snd kr)) g) rs g =
      mkGraph (g_v g ++ map vertex_of (flat_map (fun rs => map (fun kl => (fst rs, snd kl)) (snd rs))
        (flat_map (fun kr => map (fun s => (fst kr, s)) (r_sections (snd kr))) rs))) (g_e g)).
    { induction rs as [|[k rd] rest IH]; intros g; cbn.
      - rewrite app_nil_r. destruct g; reflexivity.
      - rewrite S2, IH. cbn [g_v g_e flat_map fst snd]. rewrite flat_map_app, map_app, <- app_assoc.
        assert (E : forall ss, flat_map (fun s : section P => map (fun kl => (k, snd kl)) s) ss =
          flat_map (fun rs => map (fun kl => (fst rs, snd kl)) (snd rs)) (map (fun s => (k, s)) ss)).
        { clear. induction ss as [|s q IH]; cbn; auto. now rewrite IH. }
        rewrite E. reflexivity. }
    rewrite S1. reflexivity.
  Qed.

  (* ---- invariant carried through the generation ---- *)
  Definition base m g : Prop := map vkey (g_v g) = lanes_list m /\ graph_ok g.

  Lemma base_vertices m : map_ok m -> base m (gen_vertices m empty_graph).
  Proof.
    intros OK. rewrite gen_vertices_spec. split; [|split; [|split]]; cbn.
    - rewrite map_map. rewrite (map_ext _ (fun x => x)); [apply map_id|]. intros [r l]; reflexivity.
    - unfold ids_of. rewrite map_map. exact (ok_ids m OK).
    - intros v Hv. apply in_map_iff in Hv as ([r l] & <- & _). reflexivity.
    - tauto.
  Qed.

  Lemma base_add_edge m g x y t : base m g -> base m (fst (add_edge g x y t)).
  Proof.
    intros (A & B). split; [now rewrite add_edge_v|now apply add_edge_ok].
  Qed.

  Lemma base_vertex m g r l : map_ok m -> base m g -> lane_of m r l ->
    exists v, In v (g_v g) /\ v_id v = l_id l /\ v_lane v = l /\ v_road v = r.
  Proof.
    intros OK (A & (_ & B & _)) H. apply (lanes_list_In m r l OK) in H. rewrite <- A in H.
    apply in_map_iff in H as (v & E & Hv). exists v. unfold vkey in E. inversion E; subst.
    repeat split; auto.
  Qed.
  Lemma base_lane m g v : map_ok m -> base m g -> In v (g_v g) ->
    lane_of m (v_road v) (v_lane v) /\ v_id v = l_id (v_lane v).
  Proof.
    intros OK (A & (_ & B & _)) H. split; [|auto].
    apply (lanes_list_In m _ _ OK). rewrite <- A. apply in_map_iff. exists v. auto.
  Qed.
  Lemma base_ids m g r l : map_ok m -> base m g -> lane_of m r l -> In (l_id l) (ids_of (g_v g)).
  Proof.
    intros OK B H. destruct (base_vertex m g r l OK B H) as (v & Hv & E & _).
    rewrite <- E. now apply in_map.
  Qed.
  Lemma base_lane_ptr m g r l : map_ok m -> base m g -> lane_of m r l ->
    lane_ptr g (l_id l) = Some l.
  Proof.
    intros OK B H. destruct (base_vertex m g r l OK B H) as (v & Hv & E & E' & _).
    rewrite <- E, (lane_ptr_In g v (proj2 B) Hv), E'. reflexivity.
  Qed.
  Lemma base_road m g r l : map_ok m -> base m g -> lane_of m r l ->
    road_for_lane g (l_id l) = Some r.
  Proof.
    intros OK B H. destruct (base_vertex m g r l OK B H) as (v & Hv & E & _ & E').
    rewrite <- E, (road_for_lane_In g v (proj2 B) Hv), E'. reflexivity.
  Qed.

  (* ---- neighbour edges ---- *)
  Definition adjacent m a b : Prop :=
    exists r s, section_of m r s /\ in_section a s /\ in_section b s /\
      l_pos a <> 0%Z /\ l_pos b = inward (l_pos a).

  (* the edges after neighbour generation, with an arbitrary set of lanes already processed *)
  Definition nb_edges (done : N -> section P -> xlane P -> Prop) m g : Prop :=
    forall x, In x (edge_ids g) <->
      exists r s a b, section_of m r s /\ in_section a s /\ in_section b s /\ done r s a /\
        l_pos a <> 0%Z /\ l_pos b = inward (l_pos a) /\
        (x = (l_id a, l_id b, INNER) \/ x = (l_id b, l_id a, OUTER)).

  Lemma gen_neighbours_lane_edges m g r s l :
    map_ok m -> base m g -> section_of m r s -> in_section l s ->
    base m (gen_neighbours_lane s l g) /\
    (forall x, In x (edge_ids (gen_neighbours_lane s l g)) <->
       In x (edge_ids g) \/
       exists b, in_section b s /\ l_pos l <> 0%Z /\ l_pos b = inward (l_pos l) /\
         (x = (l_id l, l_id b, INNER) \/ x = (l_id b, l_id l, OUTER))).
  Proof.
    intros OK B Hs Hl. unfold gen_neighbours_lane.
    destruct (Z.eqb_spec (l_pos l) 0) as [E|E].
    { split; auto. intros x; split; auto. intros [H|(b & _ & H & _)]; [auto|contradiction]. }
    fold (inward (l_pos l)).
    destruct (lane_by_position s (inward (l_pos l))) as [il|] eqn:F.
    - apply (lane_by_position_spec m r s _ OK Hs) in F as [Hil Ep].
      split; [now apply base_add_edge, base_add_edge|].
      assert (I1 : In (l_id l) (ids_of (g_v g))) by (apply (base_ids m g r l OK B); exists s; auto).
      assert (I2 : In (l_id il) (ids_of (g_v g))) by (apply (base_ids m g r il OK B); exists s; auto).
      intros x. unfold add_outer, add_inner. rewrite add_edge_In by (rewrite add_edge_v; auto).
      rewrite add_edge_In by auto. split.
      + intros [[H| ->]| ->]; [auto| |]; right; exists il; repeat split; auto.
      + intros [H|(b & Hb & _ & Eb & Hx)]; [auto|].
        assert (b = il) as -> by (eapply pos_inj; eauto; congruence).
        destruct Hx; auto.
    - split; auto. intros x; split; auto. intros [H|(b & Hb & _ & Eb & _)]; [auto|].
      exfalso. assert (A := proj2 (lane_by_position_spec m r s (inward (l_pos l)) OK Hs b) (conj Hb Eb)).
      congruence.
  Qed.

  Lemma gen_neighbours_section m r s g :
    map_ok m -> base m g -> section_of m r s ->
    let g' := fold_left (fun g kl => gen_neighbours_lane s (snd kl) g) s g in
    base m g' /\
    (forall x, In x (edge_ids g') <->
       In x (edge_ids g) \/
       exists a b, in_section a s /\ in_section b s /\ l_pos a <> 0%Z /\ l_pos b = inward (l_pos a) /\
         (x = (l_id a, l_id b, INNER) \/ x = (l_id b, l_id a, OUTER))).
  Proof.
    intros OK B Hs.
    assert (G : forall t g, (forall k l, In (k, l) t -> In (k, l) s) -> base m g ->
      let g' := fold_left (fun g kl => gen_neighbours_lane s (snd kl) g) t g in
      base m g' /\
      (forall x, In x (edge_ids g') <->
         In x (edge_ids g) \/
         exists a b, In (l_id a, a) t /\ in_section b s /\ l_pos a <> 0%Z /\ l_pos b = inward (l_pos a) /\
           (x = (l_id a, l_id b, INNER) \/ x = (l_id b, l_id a, OUTER)))).
    { induction t as [|[k l] t IH]; intros g0 Hsub B0; cbn.
      - split; auto. intros x; split; auto. intros [H|(a & b & [] & _)]; auto.
      - assert (Hl : in_section l s).
        { pose proof (Hsub k l (or_introl eq_refl)) as H. unfold in_section.
          rewrite <- (ok_keys m OK _ _ _ _ Hs H). exact H. }
        assert (Ek : k = l_id l) by (apply (ok_keys m OK r s k l Hs), Hsub; now left).
        destruct (gen_neighbours_lane_edges m g0 r s l OK B0 Hs Hl) as (B1 & E1).
        destruct (IH (gen_neighbours_lane s l g0) (fun k' l' H => Hsub k' l' (or_intror H)) B1) as (B2 & E2).
        split; auto. intros x. rewrite E2, E1. split.
        + intros [[H|(b & H)]|(a & b & H1 & H2)]; [auto| |].
          * right. exists l, b. destruct H as (H & H'). split; [left; congruence|auto].
          * right. exists a, b. split; [right; auto|auto].
        + intros [H|(a & b & [H1|H1] & H2)]; [auto| |].
          * left; right. exists b. inversion H1; subst. destruct H2 as (H2 & H2'). split; auto.
          * right. exists a, b. auto. }
    exact (G s g (fun _ _ H => H) B).
  Qed.

  Lemma neighbours_edges m : map_ok m ->
    base m (generate_neighbours_only m) /\
    (forall x, In x (edge_ids (generate_neighbours_only m)) <->
       exists a b, adjacent m a b /\ (x = (l_id a, l_id b, INNER) \/ x = (l_id b, l_id a, OUTER))).
  Proof.
    intros OK. unfold generate_neighbours_only, gen_neighbours.
    assert (E0 : edge_ids (gen_vertices m (@empty_graph P)) = []) by now rewrite gen_vertices_spec.
    assert (G : forall rs g, (forall k rd, In (k, rd) rs -> In (k, rd) (m_roads m)) -> base m g ->
      let g' := fold_left (fun g kr => fold_left (fun g s =>
                  fold_left (fun g kl => gen_neighbours_lane s (snd kl) g) s g) (r_sections (snd kr)) g) rs g in
      base m g' /\
      (forall x, In x (edge_ids g') <->
        In x (edge_ids g) \/
        exists k rd s a b, In (k, rd) rs /\ In s (r_sections rd) /\ in_section a s /\ in_section b s /\
          l_pos a <> 0%Z /\ l_pos b = inward (l_pos a) /\
          (x = (l_id a, l_id b, INNER) \/ x = (l_id b, l_id a, OUTER)))).
    { induction rs as [|[k rd] rs IH]; intros g Hsub B; cbn.
      - split; auto. intros x; split; auto. intros [H|(k & rd & s & a & b & [] & _)]; auto.
      - assert (G2 : forall ss g, (forall s, In s ss -> In s (r_sections rd)) -> base m g ->
          let g' := fold_left (fun g s => fold_left (fun g kl => gen_neighbours_lane s (snd kl) g) s g) ss g in
          base m g' /\
          (forall x, In x (edge_ids g') <->
            In x (edge_ids g) \/
            exists s a b, In s ss /\ in_section a s /\ in_section b s /\
              l_pos a <> 0%Z /\ l_pos b = inward (l_pos a) /\
              (x = (l_id a, l_id b, INNER) \/ x = (l_id b, l_id a, OUTER)))).
        { induction ss as [|s ss IHs]; intros g1 Hsub1 B1; cbn.
          - split; auto. intros x; split; auto. intros [H|(s & a & b & [] & _)]; auto.
          - assert (Hs : section_of m k s).
            { exists rd. split; [apply Hsub; now left|apply Hsub1; now left]. }
            destruct (gen_neighbours_section m k s g1 OK B1 Hs) as (B2 & E2).
            destruct (IHs _ (fun s' H => Hsub1 s' (or_intror H)) B2) as (B3 & E3).
            split; auto. intros x. rewrite E3, E2. split.
            + intros [[H|(a & b & H)]|(s' & a & b & H1 & H2)]; [auto| |].
              * right. exists s, a, b. intuition.
              * right. exists s', a, b. intuition.
            + intros [H|(s' & a & b & [<-|H1] & H2)]; [auto| |].
              * left; right. exists a, b. auto.
              * right. exists s', a, b. auto. }
        destruct (G2 (r_sections rd) g (fun s H => H) B) as (B2 & E2).
        destruct (IH _ (fun k' rd' H => Hsub k' rd' (or_intror H)) B2) as (B3 & E3).
        split; auto. intros x. rewrite E3, E2. split.
        + intros [[H|(s & a & b & H)]|(k' & rd' & s & a & b & H1 & H2)]; [auto| |].
          * right. exists k, rd, s, a, b. intuition.
          * right. exists k', rd', s, a, b. intuition.
        + intros [H|(k' & rd' & s & a & b & [E|H1] & H2)]; [auto| |].
          * left; right. inversion E; subst. exists s, a, b. auto.
          * right. exists k', rd', s, a, b. auto. }
    destruct (G (m_roads m) (gen_vertices m empty_graph) (fun _ _ H => H) (base_vertices m OK)) as (B & E).
    split; auto. intros x. rewrite E, E0. split.
    - intros [[]|(k & rd & s & a & b & H1 & H2 & H3 & H4 & H5 & H6 & H7)].
      exists a, b. split; auto. exists k, s. split; [exists rd; auto|auto].
    - intros (a & b & (r & s & (rd & H1 & H2) & H3 & H4 & H5 & H6) & H7). right.
      exists r, rd, s, a, b. tauto.
  Qed.

  (* ---- the neighbour part of any graph reached later ---- *)
  Definition nb m g : Prop :=
    base m g /\
    (forall x y, In (x, y, INNER) (edge_ids g) <-> exists a b, adjacent m a b /\ x = l_id a /\ y = l_id b) /\
    (forall x y, In (x, y, OUTER) (edge_ids g) <-> exists a b, adjacent m a b /\ x = l_id b /\ y = l_id a).

  Lemma nb_neighbours m : map_ok m -> nb m (generate_neighbours_only m).
  Proof.
    intros OK. destruct (neighbours_edges m OK) as (B & E). split; [auto|]. split; intros x y; rewrite E; split.
    - intros (a & b & H & [K|K]); inversion K; subst; eauto.
    - intros (a & b & H & -> & ->); eauto.
    - intros (a & b & H & [K|K]); inversion K; subst; eauto.
    - intros (a & b & H & -> & ->); eauto.
  Qed.
  Lemma nb_add_edge m g x y t : nb m g -> t <> INNER -> t <> OUTER -> nb m (fst (add_edge g x y t)).
  Proof.
    intros (B & I & O) T1 T2. split; [now apply base_add_edge|]. split; intros u w.
    - rewrite <- I. split; [|apply add_edge_In_sup].
      intros H. apply add_edge_In_sub in H as [H|H]; auto. inversion H; subst; contradiction.
    - rewrite <- O. split; [|apply add_edge_In_sup].
      intros H. apply add_edge_In_sub in H as [H|H]; auto. inversion H; subst; contradiction.
  Qed.

  Lemma adjacent_lane_of m a b : adjacent m a b ->
    exists r s, section_of m r s /\ in_section a s /\ in_section b s /\ lane_of m r a /\ lane_of m r b.
  Proof.
    intros (r & s & Hs & Ha & Hb & _). exists r, s. repeat split; auto; exists s; auto.
  Qed.

  (* lanes named by an edge are the lanes of the section *)
  Lemma adj_by_id m a b x : map_ok m -> adjacent m a b ->
    forall r s, section_of m r s -> in_section x s -> l_id x = l_id a ->
    a = x /\ in_section b s.
  Proof.
    intros OK (r' & s' & Hs' & Ha & Hb & _) r s Hs Hx E.
    assert (A : r = r' /\ x = a) by (apply (lane_id_inj m r r' x a OK); auto; [exists s|exists s']; auto).
    destruct A as (-> & ->). split; auto.
    destruct (section_inj m r' r' s s' a OK Hs Hs' Hx Ha) as (-> & _). exact Hb.
  Qed.
  Lemma adj_by_id_r m a b x : map_ok m -> adjacent m a b ->
    forall r s, section_of m r s -> in_section x s -> l_id x = l_id b ->
    b = x /\ in_section a s.
  Proof.
    intros OK (r' & s' & Hs' & Ha & Hb & _) r s Hs Hx E.
    assert (A : r = r' /\ x = b) by (apply (lane_id_inj m r r' x b OK); auto; [exists s|exists s']; auto).
    destruct A as (-> & ->). split; auto.
    destruct (section_inj m r' r' s s' b OK Hs Hs' Hx Hb) as (-> & _). exact Ha.
  Qed.

  (* inner / outer neighbour queries in terms of positions *)
  Lemma inner_spec m g r s l : map_ok m -> nb m g -> section_of m r s -> in_section l s ->
    (forall b, in_section b s -> l_pos l <> 0%Z -> l_pos b = inward (l_pos l) ->
       inner_neighbor g (l_id l) = Some (l_id b, true)) /\
    ((l_pos l = 0%Z \/ forall b, in_section b s -> l_pos b <> inward (l_pos l)) ->
       inner_neighbor g (l_id l) = Some (0%N, false)).
  Proof.
    intros OK (B & I & _) Hs Hl.
    assert (Hid : In (l_id l) (ids_of (g_v g))) by (apply (base_ids m g r l OK B); exists s; auto).
    split.
    - intros b Hb Hz Eb. apply inner_unique; auto; [exact (proj2 B)| |].
      + apply I. exists l, b. split; auto. exists r, s; auto.
      + intros y Hy. apply I in Hy as (a' & b' & Adj & E & ->).
        pose proof Adj as Adj'. destruct (adj_by_id m a' b' l OK Adj r s Hs Hl E) as (-> & Hb').
        destruct Adj' as (_ & _ & _ & _ & _ & _ & E'). f_equal. eapply pos_inj; eauto. congruence.
    - intros H. apply inner_none; auto; [exact (proj2 B)|]. intros y Hy.
      apply I in Hy as (a' & b' & Adj & E & ->).
      pose proof Adj as Adj'. destruct (adj_by_id m a' b' l OK Adj r s Hs Hl E) as (-> & Hb').
      destruct Adj' as (_ & _ & _ & _ & _ & Hz & E'). destruct H as [H|H]; [contradiction|].
      exact (H _ Hb' E').
  Qed.

  Definition outward (p : Z) : Z := if (0 <? p)%Z then (p + 1)%Z else (p - 1)%Z.
  Lemma inward_outward p q : (p <> 0)%Z -> (q <> 0)%Z -> inward q = p <-> q = outward p.
  Proof.
    intros Hp Hq. unfold inward, outward.
    destruct (Z.ltb_spec 0 q), (Z.ltb_spec 0 p); lia.
  Qed.

  Lemma outer_spec m g r s l : map_ok m -> nb m g -> section_of m r s -> in_section l s ->
    l_pos l <> 0%Z ->
    (forall b, in_section b s -> l_pos b = outward (l_pos l) ->
       outer_neighbor g (l_id l) = Some (l_id b, true)) /\
    ((forall b, in_section b s -> l_pos b <> outward (l_pos l)) ->
       outer_neighbor g (l_id l) = Some (0%N, false)).
  Proof.
    intros OK (B & _ & O) Hs Hl Hz.
    assert (Hid : In (l_id l) (ids_of (g_v g))) by (apply (base_ids m g r l OK B); exists s; auto).
    assert (Hout : forall a', adjacent m a' l -> l_pos a' = outward (l_pos l)).
    { intros a' (_ & _ & _ & _ & _ & Hz' & E'). apply inward_outward; auto. }
    split.
    - intros b Hb Eb. apply outer_unique; auto; [exact (proj2 B)| |].
      + apply O. exists b, l. split; auto. exists r, s. repeat split; auto.
        * rewrite Eb. unfold outward. destruct (Z.ltb_spec 0 (l_pos l)); lia.
        * symmetry. apply inward_outward; auto. rewrite Eb. unfold outward.
          destruct (Z.ltb_spec 0 (l_pos l)); lia.
      + intros y Hy. apply O in Hy as (a' & b' & Adj & E & ->).
        pose proof Adj as Adj'. destruct (adj_by_id_r m a' b' l OK Adj r s Hs Hl E) as (-> & Ha').
        f_equal. eapply pos_inj; eauto. rewrite (Hout _ Adj'). auto.
    - intros H. apply outer_none; auto; [exact (proj2 B)|]. intros y Hy.
      apply O in Hy as (a' & b' & Adj & E & ->).
      pose proof Adj as Adj'. destruct (adj_by_id_r m a' b' l OK Adj r s Hs Hl E) as (-> & Ha').
      exact (H _ Ha' (Hout _ Adj')).
  Qed.

  (* crossing the plan view *)
  Lemma across_spec m g r s l pv : map_ok m -> nb m g -> section_of m r s ->
    in_section l s -> in_section pv s -> l_pos pv = 0%Z -> (l_pos l = 1 \/ l_pos l = -1)%Z ->
    exists ns, outer_neighbors_plan_view g (l_id pv) = Some ns /\
      (forall b, in_section b s -> l_pos b = (- l_pos l)%Z -> across_plan_view ns (l_id l) = (l_id b, true)) /\
      ((forall b, in_section b s -> l_pos b <> (- l_pos l)%Z) -> across_plan_view ns (l_id l) = (0%N, false)).
  Proof.
    intros OK (B & _ & O) Hs Hl Hpv E0 E1.
    assert (Hid : In (l_id pv) (ids_of (g_v g))) by (apply (base_ids m g r pv OK B); exists s; auto).
    destruct (neighbors_spec g (l_id pv) OUTER (proj2 B) Hid) as (ns & En & _ & Hns & _ & _).
    exists ns. split; [exact En|].
    assert (Cand : forall n, In n ns -> snd n && negb (fst n =? l_id l)%N = true ->
              exists b, in_section b s /\ l_pos b = (- l_pos l)%Z /\ fst n = l_id b).
    { intros [x c] Hn Hc. cbn in Hc. apply andb_prop in Hc as [Hc1 Hc2]. subst c.
      apply Hns, O in Hn as (a' & b' & Adj & E & Ex). 
      pose proof Adj as Adj'. destruct (adj_by_id_r m a' b' pv OK Adj r s Hs Hpv E) as (-> & Ha').
      exists a'. split; auto. split; [|exact Ex].
      destruct Adj' as (_ & _ & _ & _ & _ & Hz & E').
      apply negb_true_iff, N.eqb_neq in Hc2.
      assert (l_pos a' <> l_pos l).
      { intros EE. apply Hc2. rewrite Ex. f_equal. eapply pos_inj; eauto. }
      unfold inward in E'. destruct (Z.ltb_spec 0 (l_pos a')); lia. }
    split.
    - intros b Hb Eb. unfold across_plan_view.
      destruct (find _ ns) as [n|] eqn:F.
      + apply find_some in F as [Hn Hc]. destruct (Cand n Hn Hc) as (b' & Hb' & Eb' & Ef).
        rewrite Ef. f_equal. f_equal. eapply pos_inj; eauto. congruence.
      + exfalso. assert (Hin : In (l_id b, true) ns).
        { apply Hns, O. exists b, pv. split; auto. exists r, s. repeat split; auto; [lia|].
          rewrite E0, Eb. unfold inward. destruct (Z.ltb_spec 0 (- l_pos l)); lia. }
        pose proof (find_none _ _ F _ Hin) as Hf. cbn in Hf.
        apply negb_false_iff, N.eqb_eq in Hf.
        assert (b = l).
        { assert (A : r = r /\ b = l) by (apply (lane_id_inj m r r b l OK); auto; exists s; auto). tauto. }
        subst b. lia.
    - intros H. unfold across_plan_view. destruct (find _ ns) as [n|] eqn:F; auto.
      apply find_some in F as [Hn Hc]. destruct (Cand n Hn Hc) as (b' & Hb' & Eb' & _).
      exfalso. exact (H _ Hb' Eb').
  Qed.
End Gen.
