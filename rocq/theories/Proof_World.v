From Coq Require Import List NArith QArith Bool Permutation Lia Sorted.
From Verif Require Import Model_Map Proof_Map Model_World Spec_World.
Import ListNotations.

(* ---- generic lemmas ---- *)
Lemma mapM_find {A B} (f : N -> A -> option B) l l' k :
  mapM_kv f l = Some l' ->
  m_find k l' = match m_find k l with Some a => f k a | None => None end.
Proof.
  revert l'; induction l as [|[k' a] r IH]; cbn; intros l' H; [inversion H; reflexivity|].
  destruct (f k' a) as [b|] eqn:Ef; [|discriminate].
  destruct (mapM_kv f r) as [r'|] eqn:Er; [|discriminate]. inversion H; subst; cbn.
  destruct (N.eqb_spec k k') as [->|]; [congruence|auto].
Qed.

Lemma mapM_keys {A B} (f : N -> A -> option B) l l' :
  mapM_kv f l = Some l' -> map fst l' = map fst l.
Proof.
  revert l'; induction l as [|[k' a] r IH]; cbn; intros l' H; [inversion H; reflexivity|].
  destruct (f k' a); [|discriminate]. destruct (mapM_kv f r) as [r'|]; [|discriminate].
  inversion H; subst; cbn; f_equal; auto.
Qed.

Lemma mapM_succeeds {A B} (f : N -> A -> option B) l :
  (forall k a, In (k, a) l -> f k a <> None) -> exists l', mapM_kv f l = Some l'.
Proof.
  induction l as [|[k a] r IH]; cbn; intros H; [eauto|].
  destruct (f k a) as [b|] eqn:E; [|exfalso; apply (H k a); auto].
  destruct IH as [r' Hr]; [intros k1 a1 Hin; apply H; auto|]. rewrite Hr; eauto.
Qed.

Lemma mapM_In {A B} (f : N -> A -> option B) l l' k b :
  mapM_kv f l = Some l' -> In (k, b) l' -> exists a, In (k, a) l /\ f k a = Some b.
Proof.
  revert l'; induction l as [|[k' a] r IH]; cbn; intros l' H Hin; [inversion H; subst; destruct Hin|].
  destruct (f k' a) as [b'|] eqn:Ef; [|discriminate].
  destruct (mapM_kv f r) as [r'|] eqn:Er; [|discriminate]. inversion H; subst.
  destruct Hin as [E|Hin]; [inversion E; subst; eauto|].
  destruct (IH r' eq_refl Hin) as [a' [? ?]]; eauto.
Qed.

Lemma mapM_In_conv {A B} (f : N -> A -> option B) l l' k a :
  mapM_kv f l = Some l' -> In (k, a) l -> exists b, f k a = Some b /\ In (k, b) l'.
Proof.
  revert l'; induction l as [|[k' a'] r IH]; cbn; intros l' H Hin; [destruct Hin|].
  destruct (f k' a') as [b'|] eqn:Ef; [|discriminate].
  destruct (mapM_kv f r) as [r'|] eqn:Er; [|discriminate]. inversion H; subst.
  destruct Hin as [E|Hin]; [inversion E; subst; exists b'; split; [auto|now left]|].
  destruct (IH r' eq_refl Hin) as [b [? ?]]; exists b; split; [auto|now right].
Qed.

Lemma sorted_by_keys {A B} (l : list (N * A)) (l' : list (N * B)) :
  map fst l' = map fst l -> m_sorted l -> m_sorted l'.
Proof.
  revert l'; induction l as [|p r IH]; intros [|p' r'] E H; try discriminate; [constructor|].
  cbn in E; inversion E as [[E1 E2]]. inversion H as [|? ? Hs HF]; subst.
  constructor; [apply IH; auto|].
  apply Forall_forall; intros q Hq. rewrite Forall_forall in HF.
  assert (Hin : In (fst q) (map fst r)) by (rewrite <- E2; apply in_map; exact Hq).
  apply in_map_iff in Hin as [q' [E' Hq']]. specialize (HF q' Hq'). cbn in *.
  rewrite <- E', E1; exact HF.
Qed.

Lemma last_opt_app {A} (l : list A) x : last_opt (l ++ [x]) = Some x.
Proof.
  induction l as [|a r IH]; [reflexivity|].
  cbn. destruct (r ++ [x]) eqn:E; [destruct r; discriminate|]. exact IH.
Qed.

Lemma last_opt_nonempty {A} (l : list A) : l <> [] -> exists x, last_opt l = Some x.
Proof.
  intros H. destruct (exists_last H) as [l' [x ->]]. exists x; apply last_opt_app.
Qed.

Lemma tl_app {A} (l : list A) x : l <> [] -> tl (l ++ [x]) = tl l ++ [x].
Proof. destruct l; [congruence|reflexivity]. Qed.

Section P.
  Context {T : Types} (O : Ops T).
  Notation agent := (agent T). Notation world := (world T). Notation observed := (observed T).
  Implicit Types (w : world) (a : agent).

  (* ---- history ---- *)
  Lemma update_hist_window a : agent_ok a ->
    ag_hist (update_state_action O a) =
    window (kept a) (ag_hist a ++ [(e_state O (ag_em a), b_last_action O (ag_bm a))]).
  Proof.
    intros [Hne Hlen]. unfold update_state_action, window, kept in *; cbn [ag_hist set_hist].
    set (x := (_, _)). rewrite app_length; cbn [length].
    assert (Hpos : (0 < length (ag_hist a))%nat) by (destruct (ag_hist a); [congruence|cbn; lia]).
    destruct (Nat.ltb_spec (ag_max a) (length (ag_hist a) + 1)) as [L|L].
    - replace (length (ag_hist a) + 1 - Nat.max 1 (ag_max a))%nat with 1%nat by lia.
      destruct (ag_hist a); reflexivity.
    - replace (length (ag_hist a) + 1 - Nat.max 1 (ag_max a))%nat with 0%nat by lia. reflexivity.
  Qed.

  Lemma update_ok a : agent_ok a -> agent_ok (update_state_action O a).
  Proof.
    intros Hok. pose proof Hok as [Hne Hlen]. split.
    - rewrite update_hist_window by exact Hok. unfold window, kept in *.
      rewrite app_length; cbn [length]. intros E.
      apply (f_equal (@length _)) in E. rewrite skipn_length, app_length in E; cbn [length] in E. lia.
    - rewrite update_hist_window by exact Hok.
      unfold window, kept in *; cbn [ag_max update_state_action set_hist].
      rewrite skipn_length. lia.
  Qed.

  Lemma update_current a : agent_ok a ->
    current_state (update_state_action O a) = Some (e_state O (ag_em a)).
  Proof.
    intros [Hne Hlen]. unfold current_state, update_state_action; cbn [ag_hist set_hist].
    destruct (Nat.ltb _ _).
    - rewrite tl_app by exact Hne. now rewrite last_opt_app.
    - now rewrite last_opt_app.
  Qed.

  Lemma agent_ok_current a : agent_ok a -> exists s, current_state a = Some s.
  Proof.
    intros [Hne _]. destruct (last_opt_nonempty _ Hne) as [x Hx].
    unfold current_state; rewrite Hx; cbn; eauto.
  Qed.

  (* ---- planning ---- *)
  Lemma plan_loop_keys o cw t dt l : map fst (snd (plan_loop O o cw t dt l)) = map fst l.
  Proof.
    revert o; induction l as [|[k a] r IH]; intros o; cbn; [reflexivity|].
    destruct (valid_at a t); cbn; f_equal; apply IH.
  Qed.

  Lemma plan_loop_find o cw t dt l k a :
    m_find k l = Some a ->
    exists o', m_find k (snd (plan_loop O o cw t dt l)) =
      Some (if valid_at a t then plan_agent O a t dt (snd (observe O o' cw k)) else a).
  Proof.
    revert o; induction l as [|[k' b] r IH]; intros o; cbn; [discriminate|].
    destruct (N.eqb_spec k k') as [->|Hne]; intros H.
    - inversion H; subst. destruct (valid_at a t); cbn; rewrite N.eqb_refl; eauto.
    - destruct (valid_at b t); cbn; rewrite (proj2 (N.eqb_neq k k') Hne); apply IH; exact H.
  Qed.

  Lemma plan_loop_find_None o cw t dt l k :
    m_find k l = None -> m_find k (snd (plan_loop O o cw t dt l)) = None.
  Proof. rewrite !m_find_None_notin, plan_loop_keys. auto. Qed.

  Lemma plan_agent_frame a t dt ow :
    ag_id (plan_agent O a t dt ow) = ag_id a /\ ag_shape (plan_agent O a t dt ow) = ag_shape a /\
    ag_dm (plan_agent O a t dt ow) = ag_dm a /\ ag_goal (plan_agent O a t dt ow) = ag_goal a /\
    ag_max (plan_agent O a t dt ow) = ag_max a /\ ag_first (plan_agent O a t dt ow) = ag_first a /\
    ag_hist (plan_agent O a t dt ow) = ag_hist a /\
    ag_bm (plan_agent O a t dt ow) = b_plan O (ag_bm a) dt ow /\
    ag_em (plan_agent O a t dt ow) =
      if is_valid (b_status O (b_plan O (ag_bm a) dt ow))
      then e_execute O (ag_em a) (t + dt) (b_last_traj O (b_plan O (ag_bm a) dt ow)) (ag_dm a)
      else ag_em a.
  Proof. unfold plan_agent; cbn. destruct (is_valid _); cbn; repeat split. Qed.

  (* ---- index ---- *)
  Lemma update_rtree_inv w w' : update_rtree O w = Some w' ->
    w_agents w' = w_agents w /\ w_time w' = w_time w /\ w_objects w' = w_objects w /\
    w_evals w' = w_evals w /\ w_observer w' = w_observer w /\ w_map w' = w_map w /\
    w_remove w' = w_remove w /\ w_latthr w' = w_latthr w /\ w_maxfr w' = w_maxfr w.
  Proof.
    unfold update_rtree. destruct (mapM_kv _ _); [|discriminate].
    intros H; inversion H; cbn; repeat split.
  Qed.

  Lemma update_rtree_idem w w' : update_rtree O w = Some w' -> index_fresh O w'.
  Proof.
    unfold index_fresh, update_rtree. destruct (mapM_kv _ _) as [l|] eqn:E; [|discriminate].
    intros H; inversion H; subst; cbn. rewrite E. reflexivity.
  Qed.

  Lemma fresh_set_time w t : index_fresh O w -> index_fresh O (set_time w t).
  Proof.
    unfold index_fresh, update_rtree. cbn [w_agents set_time].
    destruct (mapM_kv (fun _ a => option_map (envelope O (ag_shape a)) (current_state a)) (w_agents w))
      as [l|]; [|discriminate].
    intros H. injection H as H. f_equal.
    destruct w; unfold set_rtree in *; cbn in *. injection H as H. now rewrite H.
  Qed.

  Lemma update_rtree_ok w :
    (forall k a, In (k, a) (w_agents w) -> agent_ok a) -> exists w', update_rtree O w = Some w'.
  Proof.
    intros H. unfold update_rtree.
    destruct (mapM_succeeds (fun _ a => option_map (envelope O (ag_shape a)) (current_state a))
                (w_agents w)) as [l ->]; [|eauto].
    intros k a Hin. destruct (agent_ok_current _ (H k a Hin)) as [s ->]; cbn; discriminate.
  Qed.

  Lemma rtree_In w w' b id : update_rtree O w = Some w' ->
    (In (b, id) (w_rtree w') <->
     exists a s, In (id, a) (w_agents w) /\ current_state a = Some s /\ b = envelope O (ag_shape a) s).
  Proof.
    unfold update_rtree. destruct (mapM_kv _ _) as [l|] eqn:E; [|discriminate].
    intros H; inversion H; subst; cbn. rewrite in_map_iff. split.
    - intros [[k b'] [Heq Hin]]; cbn in Heq; inversion Heq; subst.
      destruct (mapM_In _ _ _ _ _ E Hin) as [a [Ha Hf]].
      destruct (current_state a) as [s|] eqn:Es; [|discriminate]. cbn in Hf; inversion Hf; subst.
      exists a, s; auto.
    - intros [a [s [Ha [Hs ->]]]].
      destruct (mapM_In_conv _ _ _ _ _ E Ha) as [b [Hf Hin]]. rewrite Hs in Hf; cbn in Hf; inversion Hf; subst.
      exists (id, envelope O (ag_shape a) s); auto.
  Qed.

  Lemma rtree_ids w w' : update_rtree O w = Some w' -> map snd (w_rtree w') = map fst (w_agents w).
  Proof.
    unfold update_rtree. destruct (mapM_kv _ _) as [l|] eqn:E; [|discriminate].
    intros H; inversion H; subst; cbn. rewrite map_map; cbn. exact (mapM_keys _ _ _ E).
  Qed.

  (* ---- removal ---- *)
  Lemma remove_outside_one_sorted t m k : m_sorted m -> m_sorted (remove_outside_one O t m k).
  Proof.
    unfold remove_outside_one. destruct (m_find k m) as [a|]; [|auto].
    destruct (_ && _); [apply m_filter_sorted|auto].
  Qed.

  Lemma remove_outside_find t ids m k : m_sorted m ->
    m_sorted (fold_left (remove_outside_one O t) ids m) /\
    m_find k (fold_left (remove_outside_one O t) ids m) =
    match m_find k m with
    | Some a => if existsb (N.eqb k) ids && (is_valid (b_status O (ag_bm a)) && valid_at a t)
                then None else Some a
    | None => None
    end.
  Proof.
    revert m; induction ids as [|i r IH]; intros m Hs; cbn [fold_left existsb].
    - split; [exact Hs|]. destruct (m_find k m); reflexivity.
    - destruct (IH (remove_outside_one O t m i)) as [Hs' Hf];
        [apply remove_outside_one_sorted; exact Hs|]. split; [exact Hs'|]. rewrite Hf. clear Hf Hs' IH.
      unfold remove_outside_one.
      destruct (N.eqb_spec k i) as [->|Hne].
      + destruct (m_find i m) as [a|] eqn:Ei; [|now rewrite Ei].
        destruct (is_valid _ && valid_at a t) eqn:Eg.
        * rewrite m_find_erase_same. reflexivity.
        * rewrite Ei, Eg. rewrite !andb_false_r. reflexivity.
      + cbn [orb]. destruct (m_find i m) as [b|] eqn:Ei; [|reflexivity].
        destruct (_ && _); [rewrite m_find_erase_other by exact Hne|]; reflexivity.
  Qed.

  Lemma existsb_eqb_In k l : existsb (N.eqb k) l = true <-> In k l.
  Proof.
    rewrite existsb_exists. split.
    - intros [x [Hx E]]. apply N.eqb_eq in E; subst; auto.
    - intros H; exists k; split; [auto|apply N.eqb_refl].
  Qed.

  Lemma execute_agent_frame t a a' : execute_agent O t a = Some a' ->
    ag_id a' = ag_id a /\ ag_shape a' = ag_shape a /\ ag_dm a' = ag_dm a /\
    ag_goal a' = ag_goal a /\ ag_max a' = ag_max a /\ ag_first a' = ag_first a /\
    ag_bm a' = ag_bm a /\ ag_em a' = ag_em a /\ ag_sensed a' = ag_sensed a.
  Proof.
    unfold execute_agent. destruct (_ && _).
    - destruct (current_state _); [|discriminate]. intros H; inversion H; subst; cbn; repeat split.
    - intros H; inversion H; subst; repeat split.
  Qed.

  Lemma execute_agent_ok t a : agent_ok a ->
    exists a', execute_agent O t a = Some a' /\ agent_ok a' /\
      ag_hist a' =
        if valid_at a t && is_valid (b_status O (ag_bm a)) && is_evalid (e_status O (ag_em a))
        then window (kept a) (ag_hist a ++ [(e_state O (ag_em a), b_last_action O (ag_bm a))])
        else ag_hist a.
  Proof.
    intros Hok. unfold execute_agent.
    destruct (valid_at a t && is_valid (b_status O (ag_bm a)) && is_evalid (e_status O (ag_em a))) eqn:G.
    - rewrite (update_current a Hok). exists (update_state_action O a).
      split; [reflexivity|]. split; [apply update_ok; exact Hok|]. apply update_hist_window; exact Hok.
    - exists a; auto.
  Qed.

  (* the agent after planning and execution, before removal *)
  Definition mid_agent (cw : world) (t dt : Q) (k : AgentId) (a a2 : agent) : Prop :=
    exists o', let a1 := if valid_at a t then plan_agent O a t dt (snd (observe O o' cw k)) else a in
               execute_agent O t a1 = Some a2.

  Lemma valid_at_first (a b : agent) t : ag_first a = ag_first b -> valid_at a t = valid_at b t.
  Proof. unfold valid_at; intros ->; reflexivity. Qed.

  Lemma agent_ok_frame (a b : agent) : ag_hist a = ag_hist b -> ag_max a = ag_max b -> agent_ok b -> agent_ok a.
  Proof. unfold agent_ok, kept; intros -> ->; auto. Qed.

  Lemma world_ok_In w k a : world_ok w -> In (k, a) (w_agents w) -> ag_id a = k /\ agent_ok a.
  Proof.
    intros [Hs [Hk _]] Hin. apply Hk. unfold get_agent. apply m_find_iff; auto.
  Qed.

  (* Master lemma: one step. *)
  Lemma step_master w dt : world_ok w ->
    exists w1 w', update_rtree O w = Some w1 /\ step O w dt = Some w' /\
      w_time w' = w_time w + dt /\
      (w_map w' = w_map w /\ w_remove w' = w_remove w /\ w_objects w' = w_objects w /\
       w_evals w' = w_evals w /\ w_latthr w' = w_latthr w /\ w_maxfr w' = w_maxfr w) /\
      update_rtree O w' = Some w' /\
      world_ok w' /\
      (forall k, get_agent w k = None -> get_agent w' k = None) /\
      (forall k a, get_agent w k = Some a ->
         exists o' a2,
           let a1 := if valid_at a (w_time w)
                     then plan_agent O a (w_time w) dt (snd (observe O o' (clone_world O w1) k)) else a in
           execute_agent O (w_time w) a1 = Some a2 /\
           (get_agent w' k = None \/ get_agent w' k = Some a2) /\
           (get_agent w' k = None <-> removed_by_step O w a (ag_bm a1))).
  Proof.
    intros Hok. pose proof Hok as [Hs [Hkeys Hmap]].
    destruct (update_rtree_ok w) as [w1 Hw1].
    { intros k a Hin. exact (proj2 (world_ok_In _ _ _ Hok Hin)). }
    pose proof (update_rtree_inv _ _ Hw1) as (Ea & Et & Eo & Ee & Eob & Em & Er & El & Ex).
    set (cw := clone_world O w1).
    set (m1 := snd (plan_loop O (w_observer w1) cw (w_time w1) dt (w_agents w1))).
    assert (Hpl : plan_agents O w dt =
       Some (set_observer (set_agents w1 m1)
               (fst (plan_loop O (w_observer w1) cw (w_time w1) dt (w_agents w1))))).
    { unfold plan_agents. rewrite Hw1. reflexivity. }
    set (wp := set_observer _ _) in Hpl.
    assert (Hm1k : map fst m1 = map fst (w_agents w)).
    { unfold m1. rewrite plan_loop_keys, Ea. reflexivity. }
    assert (Hm1s : m_sorted m1) by (eapply sorted_by_keys; eauto).
    assert (Hm1 : forall k a, m_find k (w_agents w) = Some a -> exists o',
              m_find k m1 = Some (if valid_at a (w_time w)
                then plan_agent O a (w_time w) dt (snd (observe O o' cw k)) else a)).
    { intros k a H. unfold m1. rewrite Ea, Et. apply plan_loop_find; exact H. }
    assert (Hm1ok : forall k a, In (k, a) m1 -> ag_id a = k /\ agent_ok a).
    { intros k a Hin. apply (m_find_iff k a m1 Hm1s) in Hin.
      destruct (m_find k (w_agents w)) as [b|] eqn:Eb.
      - destruct (Hm1 k b Eb) as [o' Ho']. rewrite Ho' in Hin; inversion Hin as [Heq]; clear Hin.
        destruct (Hkeys k b Eb) as [Hid Hbok].
        destruct (valid_at b (w_time w)); [|auto].
        destruct (plan_agent_frame b (w_time w) dt (snd (observe O o' cw k))) as
          (F1 & _ & _ & _ & F5 & _ & F7 & _ & _).
        split; [congruence|]. eapply agent_ok_frame; eauto.
      - apply m_find_None_notin in Eb. rewrite <- Hm1k in Eb.
        apply m_find_None_notin in Eb. congruence. }
    destruct (mapM_succeeds (fun _ a => execute_agent O (w_time w) a) m1) as [m2 Hm2].
    { intros k a Hin. destruct (execute_agent_ok (w_time w) a (proj2 (Hm1ok k a Hin))) as [a' [-> _]].
      discriminate. }
    assert (Hm2s : m_sorted m2).
    { eapply sorted_by_keys; [|exact Hm1s]. eapply mapM_keys; eauto. }
    assert (Hm2ok : forall k a, In (k, a) m2 -> ag_id a = k /\ agent_ok a).
    { intros k a Hin. destruct (mapM_In _ _ _ _ _ Hm2 Hin) as [b [Hb Hf]].
      destruct (Hm1ok k b Hb) as [Hid Hbok].
      destruct (execute_agent_ok (w_time w) b Hbok) as [a' [Ha' [Hok' _]]].
      rewrite Hf in Ha'; inversion Ha'; subst a'.
      pose proof (execute_agent_frame _ _ _ Hf) as [F _]. split; [congruence|exact Hok']. }
    (* removal *)
    set (hits := match w_map w with
                 | Some mb => map snd (filter (fun p => negb (box_within O (fst p) mb)) (w_rtree w1))
                 | None => [] end).
    set (m3 := if w_remove w then fold_left (remove_outside_one O (w_time w)) hits m2 else m2).
    set (m4 := filter (fun p => negb (is_expired (b_status O (ag_bm (snd p))))) m3).
    assert (Hm3s : m_sorted m3).
    { unfold m3. destruct (w_remove w); [|exact Hm2s].
      exact (proj1 (remove_outside_find (w_time w) hits m2 0%N Hm2s)). }
    assert (Hm4s : m_sorted m4) by (apply m_filter_sorted; exact Hm3s).
    assert (Hm3in : forall k a, m_find k m3 = Some a -> m_find k m2 = Some a).
    { intros k a. unfold m3. destruct (w_remove w); [|auto].
      rewrite (proj2 (remove_outside_find (w_time w) hits m2 k Hm2s)).
      destruct (m_find k m2) as [b|]; [|discriminate]. destruct (_ && _); [discriminate|auto]. }
    assert (Hm4ok : forall k a, In (k, a) m4 -> ag_id a = k /\ agent_ok a).
    { intros k a Hin. apply filter_In in Hin as [Hin _].
      apply (m_find_iff k a m3 Hm3s) in Hin. apply Hm3in in Hin.
      apply Hm2ok. apply m_find_In; exact Hin. }
    set (wr := set_agents (set_agents wp m2) m4).
    destruct (update_rtree_ok wr) as [w4 Hw4].
    { intros k a Hin. exact (proj2 (Hm4ok k a Hin)). }
    pose proof (update_rtree_inv _ _ Hw4) as (Ra & Rt & Ro & Re & Rob & Rm & Rr & Rl & Rx).
    assert (Hrem : remove_invalid O (set_agents wp m2) = Some w4).
    { unfold remove_invalid. cbn [w_remove w_map w_rtree w_time w_agents set_agents set_observer wp].
      rewrite Er, Em, Et. fold wr in Hw4. unfold wr, m4, m3, hits in Hw4.
      destruct (w_remove w) eqn:Erm.
      - destruct (w_map w) as [mb|] eqn:Emp; [exact Hw4|]. exfalso; apply (Hmap eq_refl); reflexivity.
      - exact Hw4. }
    assert (Hstep : step O w dt = Some (set_time w4 (w_time w + dt))).
    { unfold step. rewrite Hpl. unfold execute.
      assert (Etp : w_time wp = w_time w) by (cbn; exact Et).
      assert (Eap : w_agents wp = m1) by reflexivity.
      rewrite Etp, Eap, Hm2, Hrem. reflexivity. }
    exists w1, (set_time w4 (w_time w + dt)).
    split; [exact Hw1|]. split; [exact Hstep|]. split; [reflexivity|].
    split.
    { cbn. cbn in Rm, Rr, Ro, Re, Rl, Rx. repeat split; congruence. }
    split.
    { exact (fresh_set_time _ _ (update_rtree_idem _ _ Hw4)). }
    assert (Hag : w_agents (set_time w4 (w_time w + dt)) = m4) by (cbn; exact Ra).
    split.
    { split; [rewrite Hag; exact Hm4s|]. split.
      - intros k a Hk. unfold get_agent in Hk. rewrite Hag in Hk. apply Hm4ok, m_find_In; exact Hk.
      - cbn. intros Hrm. cbn in Rr, Rm. rewrite Rm, Em. apply Hmap. congruence. }
    split.
    { intros k Hnone. unfold get_agent in *. rewrite Hag.
      destruct (m_find k m4) as [a|] eqn:E4; [|reflexivity]. exfalso.
      apply m_find_In in E4. apply filter_In in E4 as [E4 _].
      apply (m_find_iff k a m3 Hm3s) in E4. apply Hm3in, m_find_In in E4.
      apply (in_map fst) in E4. rewrite (mapM_keys _ _ _ Hm2), Hm1k in E4.
      apply m_find_None_notin in Hnone. auto. }
    intros k a Hka. unfold get_agent in *.
    destruct (Hm1 k a Hka) as [o' Ho'].
    set (a1 := if valid_at a (w_time w) then _ else _) in Ho'.
    destruct (Hkeys k a Hka) as [Hid Haok].
    assert (Ha1in : In (k, a1) m1) by (apply m_find_In; exact Ho').
    destruct (execute_agent_ok (w_time w) a1 (proj2 (Hm1ok _ _ Ha1in))) as [a2 [Ha2 _]].
    pose proof (execute_agent_frame _ _ _ Ha2) as (_ & _ & _ & _ & _ & G6 & G7 & _ & _).
    assert (F6 : ag_first a1 = ag_first a).
    { unfold a1. destruct (valid_at a (w_time w)); [|reflexivity].
      exact (proj1 (proj2 (proj2 (proj2 (proj2 (proj2 (plan_agent_frame a (w_time w) dt (snd (observe O o' cw k))))))))). }
    assert (Hv2 : valid_at a2 (w_time w) = valid_at a (w_time w)) by (apply valid_at_first; congruence).
    assert (Hf2 : m_find k m2 = Some a2).
    { rewrite (mapM_find _ _ _ k Hm2), Ho'. exact Ha2. }
    exists o', a2. cbn zeta. fold cw. fold a1. split; [exact Ha2|]. rewrite Hag.
    assert (Hf4 : m_find k m4 =
      if (w_remove w && (existsb (N.eqb k) hits && (is_valid (b_status O (ag_bm a1)) && valid_at a (w_time w))))
         || is_expired (b_status O (ag_bm a1)) then None else Some a2).
    { unfold m4. rewrite m_find_filter by exact Hm3s. unfold m3.
      destruct (w_remove w); cbn [andb].
      - rewrite (proj2 (remove_outside_find (w_time w) hits m2 k Hm2s)), Hf2, G7, Hv2.
        destruct (existsb (N.eqb k) hits && _); [reflexivity|]. cbn [snd orb]. rewrite G7.
        destruct (is_expired _); reflexivity.
      - rewrite Hf2. cbn [snd orb]. rewrite G7. destruct (is_expired _); reflexivity. }
    split; [rewrite Hf4; destruct (_ || _); auto|].
    rewrite Hf4.
    assert (Hhit : existsb (N.eqb k) hits = true <-> leaves_map O w a).
    { rewrite existsb_eqb_In. unfold hits, leaves_map. destruct (w_map w) as [mb|].
      - rewrite in_map_iff. split.
        + intros [[b i] [Ei Hin]]; cbn in Ei; subst i. apply filter_In in Hin as [Hin Hb]; cbn in Hb.
          apply (rtree_In _ _ _ _ Hw1) in Hin as [a' [s [Ha' [Hs' ->]]]].
          apply (m_find_iff k a' _ Hs) in Ha'. rewrite Hka in Ha'; inversion Ha'; subst a'.
          exists mb, s. split; [reflexivity|]. split; [exact Hs'|]. now apply negb_true_iff in Hb.
        + intros [mb' [s [Emb [Hs' Hb]]]]. inversion Emb; subst mb'.
          exists (envelope O (ag_shape a) s, k). split; [reflexivity|]. apply filter_In. split.
          * apply (rtree_In _ _ _ _ Hw1). exists a, s. split; [|auto]. apply m_find_In; exact Hka.
          * cbn. now rewrite Hb.
      - split; [intros []|]. intros [mb [s [E _]]]; discriminate. }
    unfold removed_by_step.
    destruct (b_status O (ag_bm a1)) eqn:Eb; cbn [is_valid is_expired andb orb].
    - rewrite !andb_false_r; cbn [orb]. split; [discriminate|].
      intros [H|(_ & H & _)]; discriminate.
    - rewrite orb_false_r. split.
      + destruct (w_remove w); cbn [andb]; [|discriminate].
        destruct (existsb (N.eqb k) hits) eqn:Ex2; cbn [andb]; [|discriminate].
        destruct (valid_at a (w_time w)); [|discriminate]. intros _. right. tauto.
      + intros [H|(H1 & _ & H3 & H4)]; [discriminate|]. rewrite H1, H3.
        apply Hhit in H4. rewrite H4. reflexivity.
    - rewrite orb_true_r. split; auto.
  Qed.

  Lemma is_valid_iff s : is_valid s = true <-> s = VALID.
  Proof. destruct s; cbn; split; congruence. Qed.
  Lemma is_evalid_iff s : is_evalid s = true <-> s = E_VALID.
  Proof. destruct s; cbn; split; congruence. Qed.

  Lemma mid_stepped w t dt k a a2 o' cw :
    agent_ok a ->
    let ow := snd (observe O o' cw k) in
    let a1 := if valid_at a t then plan_agent O a t dt ow else a in
    execute_agent O t a1 = Some a2 ->
    agent_stepped O t dt ow a a2 /\ ag_bm a1 = planned_bm O a t dt ow.
  Proof.
    intros Hok ow a1 Hex.
    pose proof (execute_agent_frame _ _ _ Hex) as (G1 & G2 & G3 & G4 & G5 & G6 & G7 & G8 & _).
    destruct (plan_agent_frame a t dt ow) as (F1 & F2 & F3 & F4 & F5 & F6 & F7 & F8 & F9).
    assert (Hok1 : agent_ok a1).
    { unfold a1. destruct (valid_at a t); [|exact Hok]. eapply agent_ok_frame; eauto. }
    destruct (execute_agent_ok t a1 Hok1) as [a2' [E2 [_ Hh]]]. rewrite Hex in E2; inversion E2; subst a2'.
    assert (Hv1 : valid_at a1 t = valid_at a t).
    { unfold a1. destruct (valid_at a t) eqn:E; [|exact E]. rewrite <- E. apply valid_at_first; exact F6. }
    split.
    2:{ unfold planned_bm, a1. destruct (valid_at a t); [exact F8|reflexivity]. }
    assert (Hidle : valid_at a t = false -> a2 = a).
    { intros E. unfold a1 in Hex. rewrite E in Hex. unfold execute_agent in Hex. rewrite E in Hex.
      cbn [andb] in Hex. congruence. }
    unfold a1 in *; clear a1. destruct (valid_at a t) eqn:Ev.
    - rewrite Hv1 in Hh. cbn [andb] in Hh.
      constructor.
      + repeat split; congruence.
      + intros E; congruence.
      + intros _. congruence.
      + intros _ Hb. rewrite G8, F9, G7, F8.
        rewrite G7, F8 in Hb. rewrite Hb. cbn. reflexivity.
      + intros _ Hb He. rewrite Hh, <- G7, <- G8, Hb, He. cbn [is_valid is_evalid andb].
        unfold kept; rewrite F5, F7. reflexivity.
      + split.
        * intros Hb. assert (Hbf : is_valid (b_status O (ag_bm a2)) = false).
          { destruct (is_valid (b_status O (ag_bm a2))) eqn:E; [|reflexivity].
            exfalso; apply Hb, is_valid_iff, E. }
          rewrite G7 in Hbf. rewrite Hbf in Hh. cbn [andb] in Hh. split; [|congruence].
          rewrite G8, F9. rewrite F8 in Hbf. rewrite Hbf. reflexivity.
        * intros He. assert (Hef : is_evalid (e_status O (ag_em a2)) = false).
          { destruct (is_evalid (e_status O (ag_em a2))) eqn:E; [|reflexivity].
            exfalso; apply He, is_evalid_iff, E. }
          rewrite G8 in Hef. rewrite Hef, andb_false_r in Hh. congruence.
    - specialize (Hidle eq_refl); subst a2. constructor; try (intros E; congruence); auto.
      repeat split.
  Qed.

  Lemma step_spec w dt : world_ok w ->
    exists w', step O w dt = Some w' /\
      w_time w' = w_time w + dt /\ world_ok w' /\ index_fresh O w' /\
      (w_map w' = w_map w /\ w_remove w' = w_remove w /\ w_objects w' = w_objects w /\
       w_evals w' = w_evals w /\ w_latthr w' = w_latthr w /\ w_maxfr w' = w_maxfr w) /\
      (forall id, get_agent w id = None -> get_agent w' id = None) /\
      (forall id a, get_agent w id = Some a ->
         exists ow, observation_of O w id ow /\
           (get_agent w' id = None <-> removed_by_step O w a (planned_bm O a (w_time w) dt ow)) /\
           (forall a', get_agent w' id = Some a' -> agent_stepped O (w_time w) dt ow a a')).
  Proof.
    intros Hok. destruct (step_master w dt Hok) as (w1 & w' & Hw1 & Hst & Ht & Hfr & Hidx & Hok' & Hnone & Hag).
    exists w'. repeat (split; [assumption|]).
    intros k a Hka. destruct (Hag k a Hka) as (o' & a2 & Hex & Hcase & Hrem).
    pose proof Hok as [_ [Hkeys _]]. destruct (Hkeys k a Hka) as [_ Haok].
    pose proof (mid_stepped w (w_time w) dt k a a2 o' (clone_world O w1) Haok Hex) as [Hstp Hbm].
    exists (snd (observe O o' (clone_world O w1) k)). split.
    { exists (clone_world O w1), o'. split; [exists w1; auto|reflexivity]. }
    split; [rewrite <- Hbm; exact Hrem|].
    intros a' Ha'. destruct Hcase as [E|E]; [congruence|]. rewrite E in Ha'; inversion Ha'; subst; exact Hstp.
  Qed.

  (* runs *)
  Lemma run_ok w dts : world_ok w ->
    exists w', run O w dts = Some w' /\ world_ok w' /\ w_time w' == w_time w + sumQ dts.
  Proof.
    revert w; induction dts as [|dt r IH]; intros w Hok; cbn [run sumQ fold_right].
    - exists w. split; [reflexivity|]. split; [exact Hok|]. ring.
    - destruct (step_spec w dt Hok) as (w1 & Hs & Ht & Hok1 & _). rewrite Hs.
      destruct (IH w1 Hok1) as (w' & Hr & Hok' & Ht'). exists w'. split; [exact Hr|].
      split; [exact Hok'|]. rewrite Ht', Ht. unfold sumQ. ring.
  Qed.

  Lemma sumQ_repeat n dt : sumQ (repeat dt n) == inject_Z (Z.of_nat n) * dt.
  Proof.
    induction n as [|n IH]; [cbn; ring|].
    cbn [repeat sumQ fold_right]. fold (sumQ (repeat dt n)). rewrite IH, Nat2Z.inj_succ.
    unfold Z.succ. rewrite inject_Z_plus. ring.
  Qed.
End P.
