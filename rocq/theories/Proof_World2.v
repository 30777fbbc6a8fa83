From Coq Require Import List NArith QArith Bool Permutation Lia Sorted ZArith.
From Verif Require Import Model_Map Proof_Map Model_World Spec_World Proof_World.
Import ListNotations.

Lemma skipn_skipn' {A} a b (l : list A) : skipn a (skipn b l) = skipn (a + b) l.
Proof.
  revert l; induction b as [|b IH]; intros l; [now rewrite Nat.add_0_r|].
  destruct l as [|x l]; [now rewrite !skipn_nil|]. rewrite Nat.add_succ_r. cbn [skipn]. apply IH.
Qed.

Section P.
  Context {T : Types} (O : Ops T).
  Notation agent := (agent T). Notation world := (world T). Notation observed := (observed T).
  Implicit Types (w : world) (a : agent).

  (* ---- C02 ---- *)
  Lemma plan_loop_stateless_find o cw t dt l k : stateless_observer O ->
    m_find k (snd (plan_loop O o cw t dt l)) =
    match m_find k l with
    | Some a => Some (if valid_at a t then plan_agent O a t dt (snd (observe O o cw k)) else a)
    | None => None
    end.
  Proof.
    intros Hst; induction l as [|[k' b] r IH]; cbn; [reflexivity|].
    destruct (valid_at b t) eqn:Ev; cbn; rewrite ?Hst;
      destruct (N.eqb_spec k k') as [->|Hne]; rewrite ?Ev; auto.
  Qed.

  Lemma plan_in_order_sorted o cw t dt ids m : m_sorted m -> m_sorted (plan_in_order O o cw t dt ids m).
  Proof.
    revert o m; induction ids as [|i r IH]; cbn; intros o m Hs; [exact Hs|].
    destruct (m_find i m) as [a|]; [|auto]. destruct (valid_at a t); [|auto].
    apply IH, m_insert_sorted, Hs.
  Qed.

  Lemma plan_in_order_find o cw t dt ids m k : stateless_observer O -> NoDup ids ->
    m_find k (plan_in_order O o cw t dt ids m) =
    match m_find k m with
    | Some a => Some (if existsb (N.eqb k) ids && valid_at a t
                      then plan_agent O a t dt (snd (observe O o cw k)) else a)
    | None => None
    end.
  Proof.
    intros Hst. revert m; induction ids as [|i r IH]; intros m Hnd; cbn [plan_in_order existsb andb].
    - destruct (m_find k m); reflexivity.
    - inversion Hnd as [|? ? Hni Hnd']; subst.
      assert (Hk : k = i -> existsb (N.eqb k) r = false).
      { intros ->. destruct (existsb (N.eqb i) r) eqn:E; [|reflexivity].
        apply existsb_eqb_In in E. contradiction. }
      destruct (m_find i m) as [b|] eqn:Ei.
      + destruct (valid_at b t) eqn:Ev.
        * rewrite Hst, IH by exact Hnd'. destruct (N.eqb_spec k i) as [->|Hne].
          -- rewrite m_find_insert_same, Ei, (Hk eq_refl), Ev. reflexivity.
          -- rewrite m_find_insert_other by exact Hne. reflexivity.
        * rewrite IH by exact Hnd'. destruct (N.eqb_spec k i) as [->|Hne]; [|reflexivity].
          rewrite Ei, (Hk eq_refl), Ev. reflexivity.
      + rewrite IH by exact Hnd'. destruct (N.eqb_spec k i) as [->|Hne]; [|reflexivity].
        rewrite Ei. reflexivity.
  Qed.

  Lemma plan_order_irrelevant w dt w' cw ids : world_ok w -> stateless_observer O ->
    pre_step_snapshot O w cw ->
    Permutation ids (map fst (w_agents w)) ->
    plan_agents O w dt = Some w' ->
    w_agents w' = plan_in_order O (w_observer w) cw (w_time w) dt ids (w_agents w).
  Proof.
    intros [Hs _] Hst [w1 [Hw1 ->]] Hp. unfold plan_agents. rewrite Hw1.
    pose proof (update_rtree_inv _ _ _ Hw1) as (Ea & Et & _ & _ & Eo & _).
    intros H; injection H as <-. cbn [w_agents set_observer set_agents].
    apply m_ext.
    - eapply sorted_by_keys; [apply plan_loop_keys|]. rewrite Ea; exact Hs.
    - apply plan_in_order_sorted, Hs.
    - intros k. rewrite plan_loop_stateless_find by exact Hst. rewrite Ea, Et, Eo.
      rewrite plan_in_order_find; [|exact Hst|].
      + destruct (m_find k (w_agents w)) as [a|] eqn:Ek; [|reflexivity].
        assert (Hin : existsb (N.eqb k) ids = true).
        { apply existsb_eqb_In. eapply Permutation_in; [apply Permutation_sym, Hp|].
          apply m_find_In in Ek. apply (in_map fst) in Ek. exact Ek. }
        rewrite Hin. reflexivity.
      + eapply Permutation_NoDup; [apply Permutation_sym, Hp|]. apply m_sorted_NoDup, Hs.
  Qed.

  Lemma plan_loop_noninterf f o cw t dt l k a :
    m_find k l = Some a ->
    (forall dt' ow, f (ag_bm a) dt' ow = b_plan O (ag_bm a) dt' ow) ->
    m_find k (snd (plan_loop (with_plan O f) o cw t dt l)) = m_find k (snd (plan_loop O o cw t dt l)).
  Proof.
    intros Hk Hf. revert o Hk; induction l as [|[k' b] r IH]; intros o; cbn; [discriminate|].
    destruct (valid_at b t) eqn:Ev; cbn; destruct (N.eqb_spec k k') as [->|Hne]; intros Hk; auto.
    - inversion Hk; subst b. f_equal. unfold plan_agent, plan_behavior, plan_execution, set_bm; cbn.
      rewrite Hf. reflexivity.
  Qed.

  Lemma plan_agents_noninterf f w dt k a : world_ok w -> get_agent w k = Some a ->
    (forall dt' ow, f (ag_bm a) dt' ow = b_plan O (ag_bm a) dt' ow) ->
    exists w1 w2, plan_agents O w dt = Some w1 /\ plan_agents (with_plan O f) w dt = Some w2 /\
      get_agent w1 k = get_agent w2 k.
  Proof.
    intros Hok Hk Hf.
    destruct (update_rtree_ok O w) as [w1 Hw1].
    { intros i b Hin. exact (proj2 (world_ok_In _ _ _ Hok Hin)). }
    pose proof (update_rtree_inv _ _ _ Hw1) as (Ea & _).
    unfold plan_agents. rewrite Hw1.
    change (update_rtree (with_plan O f) w) with (update_rtree O w). rewrite Hw1.
    do 2 eexists. split; [reflexivity|]. split; [reflexivity|].
    unfold get_agent; cbn [w_agents set_observer set_agents].
    change (clone_world (with_plan O f) w1) with (clone_world O w1).
    symmetry. eapply plan_loop_noninterf; [|exact Hf]. rewrite Ea. exact Hk.
  Qed.

  (* ---- C03 (value part) ---- *)
  Lemma fold_add_agents (g : agent -> agent) l w : (forall a, ag_id (g a) = ag_id a) ->
    (forall k a, In (k, a) l -> ag_id a = k) ->
    fold_left (fun w' p => add_agent w' (g (snd p))) l w =
    set_agents w (fold_left (fun m p => m_insert (fst p) (g (snd p)) m) l (w_agents w)).
  Proof.
    intros Hg. revert w; induction l as [|[k a] r IH]; intros w Hl; cbn [fold_left].
    - destruct w; reflexivity.
    - rewrite IH by (intros; apply Hl; now right). unfold add_agent; cbn [snd fst].
      rewrite Hg, (Hl k a) by now left. reflexivity.
  Qed.

  Lemma fold_insert_app {V W} (g : V -> W) (l : list (N * V)) (acc : kmap W) :
    m_sorted (acc ++ map (fun p => (fst p, g (snd p))) l) ->
    fold_left (fun m p => m_insert (fst p) (g (snd p)) m) l acc =
    acc ++ map (fun p => (fst p, g (snd p))) l.
  Proof.
    revert acc; induction l as [|[k v] r IH]; intros acc Hs; cbn [fold_left map].
    - now rewrite app_nil_r.
    - cbn [fst snd]. assert (E : m_insert k (g v) acc = acc ++ [(k, g v)]).
      { clear IH. cbn [map fst snd] in Hs. induction acc as [|[k' v'] acc IHa]; [reflexivity|].
        cbn [m_insert app]. assert (k' < k)%N.
        { eapply (sorted_head_lt k' v' _ Hs (k, g v)). apply in_or_app; right; now left. }
        destruct (N.ltb_spec k k'); [lia|]. destruct (N.eqb_spec k k'); [lia|].
        f_equal. apply IHa. eapply sorted_tail; exact Hs. }
      rewrite E, IH.
      + rewrite <- app_assoc; reflexivity.
      + rewrite <- app_assoc; exact Hs.
  Qed.

  Definition addobjs (l : list (N * tObj T)) w : world :=
    fold_left (fun w' p => add_object O w' (obj_clone O (snd p))) l w.

  Lemma fold_add_objects l w :
    w_agents (addobjs l w) = w_agents w /\
    w_time (addobjs l w) = w_time w /\
    w_rtree (addobjs l w) = w_rtree w /\
    w_evals (addobjs l w) = w_evals w /\
    w_observer (addobjs l w) = w_observer w /\
    w_map (addobjs l w) = w_map w /\
    w_remove (addobjs l w) = w_remove w /\
    w_latthr (addobjs l w) = w_latthr w /\
    w_maxfr (addobjs l w) = w_maxfr w.
  Proof.
    revert w; induction l as [|p r IH]; intros w; unfold addobjs in *; cbn [fold_left]; [repeat split|].
    destruct (IH (add_object O w (obj_clone O (snd p)))) as (E1&E2&E3&E4&E5&E6&E7&E8&E9).
    rewrite E1, E2, E3, E4, E5, E6, E7, E8, E9. repeat split.
  Qed.

  Lemma clone_world_spec w : world_ok w ->
    w_agents (clone_world O w) = map (fun p => (fst p, clone_agent O (snd p))) (w_agents w) /\
    w_time (clone_world O w) = w_time w /\ w_rtree (clone_world O w) = w_rtree w /\
    w_evals (clone_world O w) = w_evals w /\ w_observer (clone_world O w) = w_observer w /\
    w_map (clone_world O w) = w_map w /\ w_remove (clone_world O w) = w_remove w /\
    w_latthr (clone_world O w) = w_latthr w /\ w_maxfr (clone_world O w) = w_maxfr w.
  Proof.
    intros Hok. unfold clone_world.
    destruct (fold_add_objects (w_objects w)
      (fold_left (fun w' p => add_agent w' (clone_agent O (snd p))) (w_agents w)
         (set_objects (set_agents w []) []))) as (E1&E2&E3&E4&E5&E6&E7&E8&E9).
    unfold addobjs in *. rewrite E1, E2, E3, E4, E5, E6, E7, E8, E9.
    rewrite fold_add_agents; [|reflexivity|intros k a Hin; exact (proj1 (world_ok_In _ _ _ Hok Hin))].
    cbn [w_agents set_agents w_time w_rtree w_evals w_observer w_map w_remove w_latthr w_maxfr set_objects].
    split; [|repeat split]. rewrite fold_insert_app; [reflexivity|].
    cbn [app]. apply m_sorted_map. exact (proj1 Hok).
  Qed.

  Lemma clone_objects w : world_ok w -> m_sorted (w_objects w) ->
    (forall k o, In (k, o) (w_objects w) -> obj_id O (obj_clone O o) = k) ->
    w_objects (clone_world O w) = map (fun p => (fst p, obj_clone O (snd p))) (w_objects w).
  Proof.
    intros Hok Hs Hid. unfold clone_world.
    rewrite fold_add_agents; [|reflexivity|intros k a Hin; exact (proj1 (world_ok_In _ _ _ Hok Hin))].
    set (w0 := set_agents _ _).
    assert (G : forall l (w' : world), (forall k o, In (k, o) l -> obj_id O (obj_clone O o) = k) ->
       w_objects (fold_left (fun w' p => add_object O w' (obj_clone O (snd p))) l w') =
       fold_left (fun m p => m_insert (fst p) (obj_clone O (snd p)) m) l (w_objects w')).
    { clear. induction l as [|[k o] r IH]; intros w' Hl; cbn [fold_left]; [reflexivity|].
      rewrite IH by (intros; apply Hl; now right). cbn. now rewrite (Hl k o) by now left. }
    rewrite G by exact Hid.
    replace (w_objects w0) with (@nil (N * tObj T)) by reflexivity.
    rewrite fold_insert_app; [reflexivity|]. cbn [app]. apply m_sorted_map. exact Hs.
  Qed.

  Lemma clone_world_ok w : world_ok w -> world_ok (clone_world O w).
  Proof.
    intros Hok. destruct (clone_world_spec w Hok) as (E1&_&_&_&_&E6&E7&_).
    destruct Hok as [Hs [Hk Hm]]. split; [rewrite E1; apply m_sorted_map, Hs|]. split.
    - intros k a. unfold get_agent. rewrite E1, m_find_map. destruct (m_find k (w_agents w)) as [b|] eqn:Eb; [|discriminate].
      cbn. intros H; inversion H; subst. destruct (Hk k b Eb) as [H1 [H2 H3]].
      split; [exact H1|]. split; [exact H2|exact H3].
    - rewrite E6, E7. exact Hm.
  Qed.

  (* ---- C05 ---- *)
  Lemma collect_spec w keep l acc :
    (forall b id, In (b, id) l -> exists a, get_agent w id = Some a /\ keep a <> None) ->
    exists m, collect_agents w keep l acc = Some m /\
      (m_sorted acc -> m_sorted m) /\
      forall k, m_find k m =
        match get_agent w k with
        | Some a => if existsb (fun e => N.eqb k (snd e)) l &&
                       match keep a with Some b => b | None => false end
                    then Some a else m_find k acc
        | None => m_find k acc
        end.
  Proof.
    revert acc; induction l as [|[b id] r IH]; intros acc H; cbn [collect_agents existsb].
    - exists acc. split; [reflexivity|]. split; [auto|]. intros k. cbn [andb]. destruct (get_agent w k); reflexivity.
    - destruct (H b id) as [a [Ha Hkeep]]; [now left|]. rewrite Ha.
      destruct (keep a) as [kb|] eqn:Ek; [|congruence].
      destruct (IH (if kb then m_insert id a acc else acc)) as [m [Hm [Hs Hf]]].
      { intros b' id' Hin; apply (H b' id'); now right. }
      exists m. split; [exact Hm|]. split.
      { intros Ha0; apply Hs. destruct kb; [apply m_insert_sorted|]; exact Ha0. }
      intros k. rewrite Hf. cbn [snd].
      destruct (N.eqb_spec k id) as [->|Hne].
      + rewrite Ha, Ek. destruct kb; cbn [orb andb].
        * rewrite m_find_insert_same. rewrite andb_true_r. destruct (existsb (fun e => N.eqb id (snd e)) r); reflexivity.
        * rewrite andb_false_r. reflexivity.
      + cbn [orb]. destruct (get_agent w k) as [a'|]; [|destruct kb; [now rewrite m_find_insert_other by exact Hne|reflexivity]].
        destruct (existsb (fun e => N.eqb k (snd e)) r && _); [reflexivity|].
        destruct kb; [now rewrite m_find_insert_other by exact Hne|reflexivity].
  Qed.

  Lemma existsb_snd_In (l : list (tBox T * AgentId)) k :
    existsb (fun e => N.eqb k (snd e)) l = true <-> exists b, In (b, k) l.
  Proof.
    rewrite existsb_exists. split.
    - intros [[b i] [Hin E]]; cbn in E. apply N.eqb_eq in E; subst. eauto.
    - intros [b Hin]. exists (b, k); split; [exact Hin|apply N.eqb_refl].
  Qed.

  Lemma fresh_entry w b id : m_sorted (w_agents w) -> index_fresh O w -> In (b, id) (w_rtree w) ->
    exists a s, get_agent w id = Some a /\ current_state a = Some s /\ b = envelope O (ag_shape a) s.
  Proof.
    intros Hs Hf Hin. apply (rtree_In O w w b id Hf) in Hin as [a [s [Ha [Hst ->]]]].
    exists a, s. split; [apply m_find_iff; auto|auto].
  Qed.

  Lemma fresh_agent_entry w id a : m_sorted (w_agents w) -> index_fresh O w -> get_agent w id = Some a ->
    exists s, current_state a = Some s /\ In (envelope O (ag_shape a) s, id) (w_rtree w).
  Proof.
    intros Hs Hf Ha. apply m_find_In in Ha. pose proof Hf as Hf'. unfold index_fresh, update_rtree in Hf'.
    destruct (mapM_kv _ _) as [l|] eqn:E; [|discriminate].
    destruct (mapM_In_conv _ _ _ _ _ E Ha) as [b [Hb _]].
    destruct (current_state a) as [s|] eqn:Es; [|discriminate].
    exists s. split; [reflexivity|]. apply (rtree_In O w w _ _ Hf). exists a, s; auto.
  Qed.

  (* box of an agent's current footprint *)
  Definition agent_box (a : agent) (b : tBox T) : Prop :=
    exists s, current_state a = Some s /\ b = envelope O (ag_shape a) s.

  Lemma live_keep w a : (is_valid (b_status O (ag_bm a)) && valid_at a (w_time w) = true) <-> live_at O w a.
  Proof. unfold live_at. rewrite andb_true_iff, is_valid_iff. reflexivity. Qed.

  Lemma nearest_spec w dist p k : m_sorted (w_agents w) -> index_fresh O w -> knn_contract O dist ->
    exists m considered,
      get_nearest_agents O w p k = Some m /\ m_sorted m /\
      (* the considered ids: exactly min k n of them, the nearest ones *)
      NoDup considered /\ length considered = Nat.min k (length (w_agents w)) /\
      (forall i, In i considered -> get_agent w i <> None) /\
      (forall i j a b ba bb, In i considered -> ~ In j considered ->
         get_agent w i = Some a -> get_agent w j = Some b ->
         agent_box a ba -> agent_box b bb -> dist ba p <= dist bb p) /\
      (* the result: the live ones among them *)
      (forall i a, m_find i m = Some a <-> (In i considered /\ get_agent w i = Some a /\ live_at O w a)).
  Proof.
    intros Hs Hf Hc. destruct (Hc (w_rtree w) p k) as (rest & Hperm & Hlen & Hdist).
    set (l := knn O (w_rtree w) p k) in *.
    assert (Hsub : forall e, In e l -> In e (w_rtree w)).
    { intros e He. eapply Permutation_in; [apply Permutation_sym, Hperm|]. apply in_or_app; now left. }
    destruct (collect_spec w (fun a => Some (is_valid (b_status O (ag_bm a)) && valid_at a (w_time w))) l [])
      as [m [Hm [Hms Hmf]]].
    { intros b id Hin. destruct (fresh_entry w b id Hs Hf (Hsub _ Hin)) as [a [s [Ha _]]].
      exists a; split; [exact Ha|discriminate]. }
    exists m, (map snd l).
    assert (Hids : Permutation (map fst (w_agents w)) (map snd l ++ map snd rest)).
    { rewrite <- map_app. rewrite <- (rtree_ids O w w Hf). apply Permutation_map, Hperm. }
    assert (Hnd : NoDup (map snd l ++ map snd rest)).
    { eapply Permutation_NoDup; [exact Hids|]. apply m_sorted_NoDup, Hs. }
    split; [exact Hm|]. split; [apply Hms; constructor|]. split.
    { clear - Hnd. induction (map snd l) as [|x r IH]; [constructor|].
      cbn in Hnd; inversion Hnd; subst. constructor; [|auto].
      intros Hin; match goal with H : ~ In _ _ |- _ => apply H end. apply in_or_app; now left. }
    split.
    { rewrite map_length, Hlen. f_equal.
      rewrite <- (map_length snd (w_rtree w)), (rtree_ids O w w Hf), map_length. reflexivity. }
    split.
    { intros i Hi. apply in_map_iff in Hi as [[b i'] [E Hin]]; cbn in E; subst i'.
      destruct (fresh_entry w b i Hs Hf (Hsub _ Hin)) as [a [s [Ha _]]]. congruence. }
    split.
    { intros i j a b ba bb Hi Hj Ha Hb [sa [Hsa ->]] [sb [Hsb ->]].
      apply in_map_iff in Hi as [[b1 i'] [E Hin]]; cbn in E; subst i'.
      destruct (fresh_entry w b1 i Hs Hf (Hsub _ Hin)) as [a' [s' [Ha' [Hs' ->]]]].
      rewrite Ha in Ha'; inversion Ha'; subst a'. rewrite Hsa in Hs'; inversion Hs'; subst s'.
      destruct (fresh_agent_entry w j b Hs Hf Hb) as [s2 [Hs2 Hin2]].
      rewrite Hsb in Hs2; inversion Hs2; subst s2.
      assert (Hr : In (envelope O (ag_shape b) sb, j) rest).
      { eapply Permutation_in in Hin2; [|exact Hperm]. apply in_app_or in Hin2 as [H|H]; [|exact H].
        exfalso; apply Hj. apply in_map_iff. exists (envelope O (ag_shape b) sb, j); auto. }
      exact (Hdist _ _ Hin Hr). }
    intros i a. rewrite Hmf. split.
    - destruct (get_agent w i) as [a'|] eqn:Ea; [|discriminate].
      destruct (existsb (fun e => N.eqb i (snd e)) l && _) eqn:G; [|discriminate]. intros H; inversion H; subst a'.
      apply andb_true_iff in G as [G1 G2]. apply existsb_snd_In in G1 as [b Hb].
      split; [apply in_map_iff; exists (b, i); auto|]. split; [reflexivity|]. apply live_keep, G2.
    - intros [Hi [Ha Hl]]. rewrite Ha. apply live_keep in Hl. rewrite Hl.
      apply in_map_iff in Hi as [[b i'] [E Hin]]; cbn in E; subst i'.
      assert (G : existsb (fun e => N.eqb i (snd e)) l = true) by (apply existsb_snd_In; eauto).
      rewrite G. reflexivity.
  Qed.

  Lemma intersect_spec w pg : m_sorted (w_agents w) -> index_fresh O w -> box_contract O ->
    exists m, get_agents_intersecting O w pg = Some m /\ m_sorted m /\
      forall i a, m_find i m = Some a <->
        (get_agent w i = Some a /\ live_at O w a /\
         exists s, current_state a = Some s /\ collide O (ag_shape a) s pg = true).
  Proof.
    intros Hs Hf Hc. unfold get_agents_intersecting.
    set (l := filter _ _). set (keep := fun a => _).
    destruct (collect_spec w keep l []) as [m [Hm [Hms Hmf]]].
    { intros b id Hin. apply filter_In in Hin as [Hin _].
      destruct (fresh_entry w b id Hs Hf Hin) as [a [s [Ha [Hst _]]]].
      exists a; split; [exact Ha|]. unfold keep; rewrite Hst; discriminate. }
    exists m. split; [exact Hm|]. split; [apply Hms; constructor|].
    intros i a. rewrite Hmf. split.
    - destruct (get_agent w i) as [a'|] eqn:Ea; [|discriminate].
      destruct (existsb (fun e => N.eqb i (snd e)) l && _) eqn:G; [|discriminate]. intros H; inversion H; subst a'.
      apply andb_true_iff in G as [_ G2]. unfold keep in G2.
      destruct (current_state a) as [s|]; [|discriminate].
      rewrite <- andb_assoc in G2. apply andb_true_iff in G2 as [G2 G3].
      split; [reflexivity|]. split; [apply live_keep, G3|]. exists s; auto.
    - intros [Ha [Hl [s [Hst Hcol]]]]. rewrite Ha.
      destruct (fresh_agent_entry w i a Hs Hf Ha) as [s' [Hs' Hin]].
      rewrite Hst in Hs'; inversion Hs'; subst s'.
      assert (G : existsb (fun e => N.eqb i (snd e)) l = true).
      { apply existsb_snd_In. exists (envelope O (ag_shape a) s). apply filter_In. split; [exact Hin|].
        cbn. apply Hc, Hcol. }
      rewrite G. unfold keep; rewrite Hst, Hcol. cbn [andb]. apply live_keep in Hl. rewrite Hl. reflexivity.
  Qed.

  Lemma collect_stale w keep l acc b id : In (b, id) l -> get_agent w id = None ->
    collect_agents w keep l acc = None.
  Proof.
    revert acc; induction l as [|[b' i'] r IH]; intros acc Hin Hn; cbn; [destruct Hin|destruct Hin as [E|Hin]].
    - inversion E; subst. now rewrite Hn.
    - destruct (get_agent w i'); [|reflexivity]. destruct (keep _); [|reflexivity]. apply IH; auto.
  Qed.

  Lemma stale_index_crash w dist p k id a : m_sorted (w_agents w) -> index_fresh O w ->
    knn_contract O dist -> get_agent w id = Some a -> (length (w_agents w) <= k)%nat ->
    get_nearest_agents O (remove_agent_by_id w id) p k = None.
  Proof.
    intros Hs Hf Hc Ha Hk. destruct (fresh_agent_entry w id a Hs Hf Ha) as [s [Hst Hin]].
    unfold get_nearest_agents. eapply collect_stale with (id := id).
    - cbn [w_rtree remove_agent_by_id set_agents].
      destruct (Hc (w_rtree w) p k) as (rest & Hperm & Hlen & _).
      assert (rest = []) as ->.
      { apply Permutation_length in Hperm. rewrite app_length, Hlen in Hperm.
        assert (length (w_rtree w) = length (w_agents w)) as E
          by (rewrite <- (map_length snd), (rtree_ids O w w Hf), map_length; reflexivity).
        rewrite E in *. destruct rest; [reflexivity|cbn in Hperm; lia]. }
      rewrite app_nil_r in Hperm. eapply Permutation_in; [exact Hperm|exact Hin].
    - unfold get_agent; cbn. apply m_find_erase_same.
  Qed.

  Lemma added_agent_invisible w a p k m : index_fresh O w -> get_agent w (ag_id a) = None ->
    (forall l q j e, In e (knn O l q j) -> In e l) ->
    get_nearest_agents O (add_agent w a) p k = Some m -> m_find (ag_id a) m = None.
  Proof.
    intros Hf Hn Hknn. unfold get_nearest_agents. cbn [w_rtree add_agent set_agents w_time].
    set (l := knn O (w_rtree w) p k).
    assert (Hni : forall b, ~ In (b, ag_id a) l).
    { intros b Hin. apply Hknn in Hin. apply (in_map snd) in Hin. cbn in Hin.
      rewrite (rtree_ids O w w Hf) in Hin. apply m_find_None_notin in Hn. auto. }
    assert (G : forall l' acc, (forall b, ~ In (b, ag_id a) l') -> m_find (ag_id a) acc = None ->
       collect_agents (add_agent w a)
         (fun a0 => Some (is_valid (b_status O (ag_bm a0)) && valid_at a0 (w_time w))) l' acc = Some m ->
       m_find (ag_id a) m = None).
    { induction l' as [|[b' i'] r IH]; intros acc Hl Hacc; cbn [collect_agents].
      - intros H; inversion H; subst; exact Hacc.
      - destruct (get_agent (add_agent w a) i') as [a0|]; [|discriminate]. apply IH.
        + intros b0 Hin; apply (Hl b0); now right.
        + destruct (_ && _); [|exact Hacc]. rewrite m_find_insert_other; [exact Hacc|].
          intros E; subst i'. apply (Hl b'); now left. }
    apply G; [exact Hni|reflexivity].
  Qed.

  (* ---- C06 ---- *)
  Lemma table_refines ops : forall w k,
    get_agent (fold_left apply_op ops w) k = fold_left spec_op ops (get_agent w) k.
  Proof.
    assert (G : forall ops f g, (forall k, f k = g k) -> forall k : AgentId,
               fold_left (@spec_op T) ops f k = fold_left spec_op ops g k).
    { induction ops0 as [|o r IH]; intros f g H k; cbn; [apply H|]. apply IH.
      intros k'. destruct o; cbn; destruct (N.eqb _ _); auto. }
    induction ops as [|o r IH]; intros w k; cbn [fold_left]; [reflexivity|].
    rewrite IH. apply G. intros k'. unfold get_agent. destruct o as [a|id]; cbn.
    - destruct (N.eqb_spec k' (ag_id a)) as [->|Hne]; [apply m_find_insert_same|apply m_find_insert_other; exact Hne].
    - destruct (N.eqb_spec k' id) as [->|Hne]; [apply m_find_erase_same|apply m_find_erase_other; exact Hne].
  Qed.

  Lemma table_invariant ops w :
    m_sorted (w_agents w) -> (forall k a, get_agent w k = Some a -> ag_id a = k) ->
    m_sorted (w_agents (fold_left apply_op ops w)) /\
    (forall k a, get_agent (fold_left apply_op ops w) k = Some a -> ag_id a = k).
  Proof.
    revert w; induction ops as [|o r IH]; intros w Hs Hk; cbn [fold_left]; [auto|].
    apply IH.
    - destruct o; cbn; [apply m_insert_sorted|apply m_filter_sorted]; exact Hs.
    - intros k a. destruct o as [b|id]; unfold get_agent; cbn.
      + destruct (N.eqb_spec k (ag_id b)) as [->|Hne].
        * rewrite m_find_insert_same. congruence.
        * rewrite m_find_insert_other by exact Hne. apply Hk.
      + destruct (N.eqb_spec k id) as [->|Hne].
        * rewrite m_find_erase_same. discriminate.
        * rewrite m_find_erase_other by exact Hne. apply Hk.
  Qed.

  (* ---- C07 ---- *)
  Lemma window_window {A} n (l : list A) x : (1 <= n)%nat ->
    window n (window n l ++ [x]) = window n (l ++ [x]).
  Proof.
    intros Hn. unfold window. rewrite !app_length, skipn_length; cbn [length].
    destruct (Nat.le_gt_cases (length l) n) as [L|L].
    - replace (length l - n)%nat with 0%nat by lia. cbn [skipn]. f_equal. lia.
    - replace (length l - (length l - n) + 1 - n)%nat with 1%nat by lia.
      rewrite !skipn_app. rewrite skipn_skipn'.
      replace (1 + (length l - n))%nat with (length l + 1 - n)%nat by lia.
      rewrite skipn_length. f_equal. f_equal. lia.
  Qed.

  Lemma agent_updates_hist a l : agent_ok a ->
    agent_ok (agent_updates O a l) /\
    ag_hist (agent_updates O a l) =
      window (kept a) (ag_hist a ++ map (fun p => (e_state O (snd p), b_last_action O (fst p))) l) /\
    kept (agent_updates O a l) = kept a.
  Proof.
    unfold agent_updates. revert a; induction l as [|p r IH]; intros a Hok; cbn [fold_left map].
    - split; [exact Hok|]. split; [|reflexivity]. rewrite app_nil_r. unfold window.
      replace (length (ag_hist a) - kept a)%nat with 0%nat; [reflexivity|]. destruct Hok; lia.
    - set (a0 := set_em (set_bm a (fst p)) (snd p)).
      assert (Hok0 : agent_ok a0) by exact Hok.
      destruct (IH (update_state_action O a0) (update_ok O a0 Hok0)) as [H1 [H2 H3]].
      split; [exact H1|]. split; [|rewrite H3; reflexivity].
      rewrite H2. change (kept (update_state_action O a0)) with (kept a).
      rewrite (update_hist_window O a0 Hok0). change (kept a0) with (kept a).
      change (ag_hist a0) with (ag_hist a). cbn [ag_em ag_bm a0 set_em set_bm].
      set (x := (e_state O (snd p), b_last_action O (fst p))).
      assert (Hk1 : (1 <= kept a)%nat) by (unfold kept; lia).
      generalize (map (fun p0 => (e_state O (snd p0), b_last_action O (fst p0))) r) as t.
      generalize (ag_hist a) as h. clear - Hk1. intros h t.
      replace (h ++ x :: t) with ((h ++ [x]) ++ t) by (rewrite <- app_assoc; reflexivity).
      generalize (h ++ [x]) as g; clear h. induction t as [|y t IHt] using rev_ind; intros g.
      + rewrite !app_nil_r. unfold window. rewrite skipn_length.
        replace (length g - (length g - kept a) - kept a)%nat with 0%nat by lia. reflexivity.
      + rewrite !app_assoc. rewrite <- (window_window _ (window (kept a) g ++ t) y Hk1).
        rewrite <- (window_window _ (g ++ t) y Hk1). rewrite IHt. reflexivity.
  Qed.

  Lemma new_agent_ok id sh init b d e g mx fi : agent_ok (new_agent O id sh init b d e g mx fi).
  Proof. unfold new_agent, agent_ok, kept; cbn [ag_hist ag_max length]. split; [discriminate|lia]. Qed.

  Lemma agent_updates_current a l : agent_ok a ->
    current_state (agent_updates O a l) =
    match last_opt l with
    | Some p => Some (e_state O (snd p))
    | None => current_state a
    end.
  Proof.
    intros Hok. destruct l as [|p0 l0] using rev_ind; [reflexivity|].
    rewrite last_opt_app. unfold agent_updates. rewrite fold_left_app; cbn [fold_left].
    rewrite update_current; [reflexivity|].
    exact (proj1 (agent_updates_hist a l0 Hok)).
  Qed.

  (* ---- C08 ---- *)
  Lemma valid_at_iff a t : valid_at a t = true <-> ag_first a <= t + dbl_epsilon.
  Proof. unfold valid_at. apply Qle_bool_iff. Qed.

  Lemma valid_at_mono a t t' : t <= t' -> valid_at a t = true -> valid_at a t' = true.
  Proof.
    rewrite !valid_at_iff. intros H1 H2. eapply Qle_trans; [exact H2|].
    apply Qplus_le_compat; [exact H1|apply Qle_refl].
  Qed.

  Lemma valid_agents_iff w k a : m_sorted (w_agents w) ->
    (m_find k (get_valid_agents O w) = Some a <-> (get_agent w k = Some a /\ live_at O w a)).
  Proof.
    intros Hs. unfold get_valid_agents, get_agent. rewrite m_find_filter by exact Hs.
    destruct (m_find k (w_agents w)) as [b|]; [|split; [discriminate|intros [H _]; discriminate]].
    cbn [snd]. destruct (_ && _) eqn:G.
    - split; [intros H; inversion H; subst; split; [auto|apply live_keep, G]|intros [H _]; exact H].
    - split; [discriminate|]. intros [H Hl]; inversion H; subst. apply live_keep in Hl. congruence.
  Qed.

  Lemma run_valid w dts w' k a a' : world_ok w -> Forall (fun d => 0 <= d) dts ->
    run O w dts = Some w' -> get_agent w k = Some a -> get_agent w' k = Some a' ->
    ag_first a' = ag_first a /\
    (valid_at a (w_time w) = true -> valid_at a' (w_time w') = true) /\
    (valid_at a (w_time w') = false -> a' = a).
  Proof.
    revert w a; induction dts as [|dt r IH]; intros w a Hok Hnn Hrun Ha Ha'; cbn [run] in Hrun.
    - inversion Hrun; subst w'. rewrite Ha in Ha'; inversion Ha'; subst. auto.
    - inversion Hnn as [|? ? Hd Hnn']; subst.
      destruct (step_spec O w dt Hok) as (w1 & Hs & Ht & Hok1 & _ & _ & Hnone & Hag).
      rewrite Hs in Hrun.
      assert (Hpers : get_agent w1 k <> None).
      { intros E. clear - E Hrun Ha' Hok1. revert w1 Hok1 E Hrun.
        induction r as [|d r IHr]; intros w1 Hok1 E Hrun; cbn [run] in Hrun.
        - inversion Hrun; subst; congruence.
        - destruct (step_spec O w1 d Hok1) as (w2 & Hs2 & _ & Hok2 & _ & _ & Hn2 & _).
          rewrite Hs2 in Hrun. eapply IHr; [exact Hok2|apply Hn2; exact E|exact Hrun]. }
      destruct (get_agent w1 k) as [a1|] eqn:Ea1; [|congruence].
      destruct (Hag k a Ha) as (ow & _ & _ & Hst). specialize (Hst a1 Ea1).
      destruct Hst as [(_&_&_&_&_&Hfirst) Hidle _ _ _ _].
      destruct (IH w1 a1 Hok1 Hnn' Hrun Ea1 Ha') as (I1 & I2 & I3).
      assert (Hle : w_time w <= w_time w1).
      { rewrite Ht. rewrite <- (Qplus_0_r (w_time w)) at 1. apply Qplus_le_compat; [apply Qle_refl|exact Hd]. }
      split; [congruence|]. split.
      + intros Hv. apply I2. rewrite (valid_at_first a1 a _ Hfirst). eapply valid_at_mono; eauto.
      + intros Hv.
        assert (Hle2 : w_time w1 <= w_time w').
        { destruct (run_ok O w1 r Hok1) as (w2 & Hr2 & _ & Ht2). rewrite Hrun in Hr2; inversion Hr2; subst w2.
          rewrite Ht2. rewrite <- (Qplus_0_r (w_time w1)) at 1. apply Qplus_le_compat; [apply Qle_refl|].
          clear - Hnn'. induction Hnn' as [|d r Hd Hr IH]; cbn; [apply Qle_refl|].
          change 0 with (0 + 0). apply Qplus_le_compat; [exact Hd|exact IH]. }
        assert (Hv0 : valid_at a (w_time w) = false).
        { destruct (valid_at a (w_time w)) eqn:E; [|reflexivity].
          rewrite (valid_at_mono a (w_time w) (w_time w')) in Hv; [discriminate| |exact E].
          eapply Qle_trans; eauto. }
        rewrite <- (Hidle Hv0). apply I3. rewrite (valid_at_first a1 a _ Hfirst). exact Hv.
  Qed.
End P.

Lemma object_ids_nth n c i : (c < 4294967296)%N -> (i < n)%nat ->
  nth_error (object_ids c n) i = Some ((c + N.of_nat i) mod 4294967296)%N.
Proof.
  revert c i; induction n as [|n IH]; intros c i Hc Hi; [lia|].
  destruct i as [|i]; cbn [object_ids nth_error].
  - cbn [fst next_object_id]. rewrite N.add_0_r, N.mod_small by exact Hc. reflexivity.
  - rewrite IH; [|cbn; apply N.mod_lt; discriminate|lia].
    cbn [snd next_object_id]. f_equal. rewrite N.add_mod_idemp_l by discriminate. f_equal. lia.
Qed.

Lemma object_ids_length n c : length (object_ids c n) = n.
Proof. revert c; induction n as [|n IH]; intros c; cbn [object_ids length]; [reflexivity|]. now rewrite IH. Qed.

Lemma object_ids_nodup n c : (c < 4294967296)%N -> (N.of_nat n <= 4294967296)%N -> NoDup (object_ids c n).
Proof.
  intros Hc Hn. apply NoDup_nth_error. intros i j Hi E. rewrite object_ids_length in Hi.
  destruct (Nat.lt_ge_cases j n) as [Hj|Hj].
  - rewrite !object_ids_nth in E by auto. inversion E as [Em].
    assert (Hm : forall k, (k < n)%nat -> ((c + N.of_nat k) mod 4294967296 =
        if (c + N.of_nat k <? 4294967296) then c + N.of_nat k else c + N.of_nat k - 4294967296)%N).
    { intros k Hk. destruct (N.ltb_spec (c + N.of_nat k) 4294967296)%N as [L|L].
      - apply N.mod_small; exact L.
      - symmetry. apply (N.mod_unique _ _ 1); lia. }
    rewrite !Hm in Em by auto.
    destruct (N.ltb_spec (c + N.of_nat i) 4294967296)%N, (N.ltb_spec (c + N.of_nat j) 4294967296)%N; lia.
  - rewrite (proj2 (nth_error_None _ j)) in E by (rewrite object_ids_length; lia).
    rewrite object_ids_nth in E by auto. discriminate.
Qed.

Lemma object_ids_wrap c : (c < 4294967296)%N ->
  exists (n i j : nat) (id : N), i <> j /\
    nth_error (object_ids c n) i = Some id /\ nth_error (object_ids c n) j = Some id.
Proof.
  intros Hc. remember (N.to_nat 4294967296) as j eqn:Hj.
  assert (Ej : N.of_nat j = 4294967296%N) by (rewrite Hj; apply N2Nat.id). clear Hj.
  exists (S j), 0%nat, j, c. split; [intros E; subst j; discriminate|].
  rewrite !object_ids_nth by (assumption || lia). split; f_equal.
  - rewrite N.add_0_r. apply N.mod_small, Hc.
  - rewrite Ej. symmetry. apply (N.mod_unique _ _ 1); lia.
Qed.
