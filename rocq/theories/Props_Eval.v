(** C31: scenario evaluators. *)
From Coq Require Import List NArith ZArith QArith Bool Lia Permutation.
From Verif Require Import Model_Map Proof_Map Model_World Spec_World Proof_World Proof_World2
  Model_Eval Spec_Eval Proof_Eval Toy_Eval.
Import ListNotations.

(** EvaluatorCollisionAgents: true iff two different valid agents collide. [hit] need not be symmetric. *)
Theorem C31_collision_agents :
  forall (T : Types) (O : Ops T) hit (w : world T), world_ok w ->
  exists b, eval_collision_agents O hit w = Some b /\
            (b = true <-> exists i j, colliding_pair O hit w i j).
Proof. intros. apply collision_agents_spec; assumption. Qed.
Print Assumptions C31_collision_agents.

(** EvaluatorCollisionEgoAgent never reports a collision that is not there. *)
Theorem C31_collision_ego_sound :
  forall (T : Types) (O : Ops T) pos hit dist (w : world T) ego,
  world_ok w -> index_fresh O w -> knn_contract O dist ->
  exists b, eval_collision_ego O pos hit w ego = Some b /\ (b = true -> ego_collides O hit w ego).
Proof.
  intros T O pos hit dist w ego H1 H2 H3.
  destruct (collision_ego_spec O pos hit w ego dist H1 H2 H3) as (b & Hb & Hs & _). eauto.
Qed.
Print Assumptions C31_collision_ego_sound.

(** Missing: with five or more agents in the world a collision can be overlooked (next theorem), so the
    full "iff" only holds for worlds of at most four agents. *)
Theorem C31_collision_ego_iff_partial :
  forall (T : Types) (O : Ops T) pos hit dist (w : world T) ego,
  world_ok w -> index_fresh O w -> knn_contract O dist -> (length (w_agents w) <= 4)%nat ->
  exists b, eval_collision_ego O pos hit w ego = Some b /\ (b = true <-> ego_collides O hit w ego).
Proof.
  intros T O pos hit dist w ego H1 H2 H3 Hn.
  destruct (collision_ego_spec O pos hit w ego dist H1 H2 H3) as (b & Hb & Hs & Hc).
  exists b. split; [exact Hb|]. split; [exact Hs|exact (Hc Hn)].
Qed.
Print Assumptions C31_collision_ego_iff_partial.

Theorem C31_collision_ego_complete_refuted :
  exists (T : Types) (O : Ops T) pos hit dist (w : world T) ego,
  world_ok w /\ index_fresh O w /\ knn_contract O dist /\ length (w_agents w) = 5%nat /\
  ego_collides O hit w ego /\ eval_collision_ego O pos hit w ego = Some false.
Proof.
  exists PT, PO, (fun s => s), p_hit, (fun b p => inject_Z (dist2 b p)), long_ego, 1%N.
  split; [apply long_ego_ok|]. split; [apply long_ego_fresh|]. split; [apply PO_knn|].
  split; [reflexivity|]. split; [|vm_compute; reflexivity].
  exists 5%N. do 4 eexists. split; [discriminate|]. split; [reflexivity|]. split; [reflexivity|].
  split; [split; reflexivity|]. split; [reflexivity|]. split; reflexivity.
Qed.
Print Assumptions C31_collision_ego_complete_refuted.

Example C31_collision_nonvacuous :
  (exists i j, colliding_pair PO p_hit short_list i j) /\
  eval_collision_agents PO p_hit short_list = Some true /\
  eval_collision_ego PO (fun s => s) p_hit short_list 1%N = Some true /\
  eval_collision_ego PO (fun s => s) p_hit short_list 3%N = Some false.
Proof.
  split; [|vm_compute; auto]. exists 1%N, 5%N. do 4 eexists. split; [discriminate|].
  split; [reflexivity|]. split; [reflexivity|]. split; [split; reflexivity|]. split; [split; reflexivity|].
  split; [reflexivity|]. split; reflexivity.
Qed.

(** EvaluatorGoalReached. *)
Definition at_goal_now {T : Types} (goal_step : tGD T -> agent T -> bool * tGD T) (a : agent T) : Prop :=
  exists g, ag_goal a = Some g /\ fst (goal_step g a) = true.

Lemma count_goals_le {T} goal_step (l : kmap (agent T)) n m :
  count_goals goal_step l = Some (n, m) -> (n <= length l)%nat.
Proof.
  revert n m; induction l as [|[k a] r IH]; intros n m; cbn [count_goals].
  - intros H; injection H as <- <-. cbn. lia.
  - destruct (agent_at_goal goal_step a) as [[b a']|]; [|discriminate].
    destruct (count_goals goal_step r) as [[n' r']|]; [|discriminate].
    intros H; injection H as <- <-. specialize (IH _ _ eq_refl). destruct b; cbn [length]; lia.
Qed.

Lemma count_goals_spec {T} goal_step (l : kmap (agent T)) :
  (forall k a, In (k, a) l -> ag_goal a <> None) ->
  exists n m, count_goals goal_step l = Some (n, m) /\
    (n = length l <-> forall k a, In (k, a) l -> at_goal_now goal_step a).
Proof.
  induction l as [|[k a] r IH]; intros Hg; cbn [count_goals].
  - exists 0%nat, []. split; [reflexivity|]. split; [intros _ k a []|reflexivity].
  - destruct IH as (n & m & Hc & Hi). { intros k' a' H. apply (Hg k' a'). now right. }
    unfold agent_at_goal. destruct (ag_goal a) as [g|] eqn:Eg; [|exfalso; apply (Hg k a); [now left|exact Eg]].
    rewrite Hc. do 2 eexists. split; [reflexivity|].
    pose proof (count_goals_le _ _ _ _ Hc). destruct (fst (goal_step g a)) eqn:Eb; cbn [length].
    + split.
      * intros H1. assert (n = length r) by lia. intros k' a' [E|Hin].
        -- injection E as <- <-. exists g; auto.
        -- apply Hi with k'; auto.
      * intros H1. f_equal. apply Hi. intros k' a' Hin. apply (H1 k' a'). now right.
    + split; [lia|]. intros H1. exfalso. destruct (H1 k a) as (g' & E1 & E2); [now left|]. congruence.
Qed.

Theorem C31_goal_reached_all :
  forall (T : Types) goal_step (w : world T), world_ok w ->
  (forall k a, get_agent w k = Some a -> ag_goal a <> None) ->
  exists b w', eval_goal_reached goal_step w max_agent_id = Some (b, w') /\
    (b = true <-> forall k a, get_agent w k = Some a -> at_goal_now goal_step a).
Proof.
  intros T gs w Hok Hg. unfold eval_goal_reached. rewrite N.eqb_refl.
  destruct (count_goals_spec gs (w_agents w)) as (n & m & Hc & Hi).
  { intros k a Hin. apply (Hg k a). apply m_find_iff; [apply Hok|exact Hin]. }
  rewrite Hc. do 2 eexists. split; [reflexivity|]. rewrite Nat.eqb_eq, Hi. unfold get_agent.
  split; intros H k a Hk; apply (H k a); apply m_find_iff; auto; apply Hok.
Qed.
Print Assumptions C31_goal_reached_all.

Theorem C31_goal_reached_one :
  forall (T : Types) goal_step (w : world T) id, id <> max_agent_id ->
  (forall a, get_agent w id = Some a -> ag_goal a <> None) ->
  exists b w', eval_goal_reached goal_step w id = Some (b, w') /\
    (b = true <-> exists a, get_agent w id = Some a /\ at_goal_now goal_step a).
Proof.
  intros T gs w id Hne Hg. unfold eval_goal_reached. apply N.eqb_neq in Hne. rewrite Hne.
  destruct (get_agent w id) as [a|] eqn:Ea.
  - unfold agent_at_goal. specialize (Hg a eq_refl). destruct (ag_goal a) as [g|] eqn:Eg; [|congruence].
    do 2 eexists. split; [reflexivity|]. split.
    + intros H. exists a. split; [reflexivity|]. exists g; auto.
    + intros (a' & E & g' & E1 & E2). injection E as <-. congruence.
  - do 2 eexists. split; [reflexivity|]. split; [discriminate|]. intros (a & E & _); discriminate.
Qed.
Print Assumptions C31_goal_reached_one.

(** A world without agents counts as "all agents at their goal"; an evaluated agent without a goal
    definition is a null dereference. *)
Theorem C31_goal_reached_corner_cases :
  (forall (T : Types) gs (w : world T), w_agents w = [] ->
     exists w', eval_goal_reached gs w max_agent_id = Some (true, w')) /\
  (forall (T : Types) gs (w : world T) id a, id <> max_agent_id -> get_agent w id = Some a ->
     ag_goal a = None -> eval_goal_reached gs w id = None).
Proof.
  split.
  - intros T gs w E. unfold eval_goal_reached. rewrite N.eqb_refl, E. cbn. eauto.
  - intros T gs w id a Hne Ha Hg. unfold eval_goal_reached. apply N.eqb_neq in Hne. rewrite Hne, Ha.
    unfold agent_at_goal. rewrite Hg. reflexivity.
Qed.
Print Assumptions C31_goal_reached_corner_cases.

Example C31_goal_nonvacuous :
  let gs := (fun (g : bool) (_ : agent PT) => (g, g)) in
  option_map fst (@eval_goal_reached PT gs long_ego max_agent_id) = Some false /\
  option_map fst (@eval_goal_reached PT gs long_ego 1%N) = Some true /\
  option_map fst (@eval_goal_reached PT gs long_ego 9%N) = Some false.
Proof. vm_compute. auto. Qed.

(** EvaluatorDrivableArea: a violation is reported iff the evaluated agent (for "all agents": some valid
    agent) is not within its road corridor; a missing agent is a violation. [inside] answers for every
    valid agent that has a road corridor. *)
Theorem C31_drivable_area :
  forall (T : Types) (O : Ops T) inside (w : world T) id, world_ok w ->
  (forall a s, inside a s <> None) ->
  exists b, eval_drivable_area O inside w id = Some b /\
   (id <> max_agent_id ->
      (b = true <-> (get_agent w id = None \/
         exists a s, get_agent w id = Some a /\ current_state a = Some s /\ inside a s = Some false))) /\
   (id = max_agent_id ->
      (b = true <-> exists k a s, get_agent w k = Some a /\ live_at O w a /\ current_state a = Some s /\
                                  inside a s = Some false)).
Proof.
  intros T O inside w id Hok Hin. unfold eval_drivable_area.
  destruct (N.eqb_spec id max_agent_id) as [E|E]; cbn [negb].
  - assert (G : forall l, all_cur l -> exists b, off_road_loop inside l = Some b /\
       (b = true <-> exists p s, In p l /\ current_state (snd p) = Some s /\ inside (snd p) s = Some false)).
    { induction l as [|[k a] r IH]; intros C; cbn [off_road_loop].
      - exists false. split; [reflexivity|]. split; [discriminate|]. intros (p & s & [] & _).
      - destruct (C (k, a)) as [s Es]; [now left|]. cbn [snd] in Es. unfold off_road. rewrite Es.
        destruct (inside a s) as [i|] eqn:Ei; [|exfalso; apply (Hin a s Ei)].
        destruct i; cbn [option_map negb].
        + destruct IH as (b & Hb & Hi); [intros p Hp; apply C; now right|].
          exists b. split; [exact Hb|]. rewrite Hi. split; intros (p & s' & Hp & H1 & H2).
          * exists p, s'. split; [now right|auto].
          * destruct Hp as [<-|Hp]; [cbn [snd] in *; congruence|]. exists p, s'; auto.
        + exists true. split; [reflexivity|]. split; [|reflexivity]. intros _. exists (k, a), s.
          split; [now left|auto]. }
    destruct (G _ (valid_all_cur O w Hok)) as (b & Hb & Hi). exists b. split; [exact Hb|].
    split; [congruence|]. intros _. rewrite Hi. split.
    + intros ([k a] & s & Hp & H1 & H2). apply valid_In in Hp as [Ha Hl]; [|exact Hok].
      exists k, a, s. auto.
    + intros (k & a & s & Ha & Hl & H1 & H2). exists (k, a), s. split; [apply valid_In; auto|auto].
  - destruct (get_agent w id) as [a|] eqn:Ea.
    + destruct Hok as (_ & Hk & _). destruct (Hk id a Ea) as [_ Hao].
      destruct (agent_ok_current _ Hao) as [s Es]. unfold off_road. rewrite Es.
      destruct (inside a s) as [i|] eqn:Ei; [|exfalso; apply (Hin a s Ei)].
      exists (negb i). split; [reflexivity|]. split; [|congruence]. intros _. split.
      * intros H. apply negb_true_iff in H. subst i. right. exists a, s; auto.
      * intros [H|(a' & s' & E1 & E2 & E3)]; [congruence|]. injection E1 as <-. rewrite Es in E2. injection E2 as <-.
        rewrite Ei in E3. injection E3 as ->. reflexivity.
    + exists true. split; [reflexivity|]. split; [|congruence]. intros _. split; auto.
Qed.
Print Assumptions C31_drivable_area.

Example C31_drivable_nonvacuous :
  let inside := (fun (_ : agent PT) (s : pt) => Some (Z.abs (snd s) <=? 3)%Z) in
  eval_drivable_area PO inside long_ego max_agent_id = Some true /\
  eval_drivable_area PO inside long_ego 2%N = Some false /\
  eval_drivable_area PO inside long_ego 4%N = Some true /\
  eval_drivable_area PO inside long_ego 9%N = Some true.
Proof. vm_compute. auto. Qed.

(** EvaluatorBehaviorExpired. *)
Theorem C31_behavior_expired :
  forall (T : Types) (O : Ops T) (w : world T) id,
  eval_behavior_expired O w id = true <->
  (get_agent w id = None \/ exists a, get_agent w id = Some a /\ b_status O (ag_bm a) = EXPIRED).
Proof.
  intros T O w id. unfold eval_behavior_expired. destruct (get_agent w id) as [a|].
  - split.
    + intros H. right. exists a. split; [reflexivity|]. destruct (b_status O (ag_bm a)); cbn in H; congruence.
    + intros [H|(a' & H1 & H2)]; [discriminate|]. injection H1 as <-. rewrite H2. reflexivity.
  - split; auto.
Qed.
Print Assumptions C31_behavior_expired.

(** EvaluatorStepCount: the n-th call reports n. *)
Theorem C31_step_count :
  forall n i, (i < n)%nat -> nth_error (step_counts 0 n) i = Some (Z.of_nat (S i)).
Proof.
  assert (G : forall n s i, (i < n)%nat -> nth_error (step_counts s n) i = Some (s + Z.of_nat (S i))%Z).
  { induction n as [|n IH]; intros s i Hi; [lia|]. destruct i as [|i]; cbn [step_counts nth_error eval_step_count fst snd].
    - reflexivity.
    - rewrite IH by lia. f_equal. lia. }
  intros n i Hi. rewrite (G n 0%Z i Hi). reflexivity.
Qed.
Print Assumptions C31_step_count.
Example C31_step_count_nonvacuous : step_counts 0 4 = [1; 2; 3; 4]%Z. Proof. reflexivity. Qed.

(** EvaluatorNumberOfAgents: after every call it reports the number of different ids present in one of
    the worlds evaluated so far in which the evaluated agent itself was present. *)
Theorem C31_number_of_agents :
  forall (T : Types) (O : Ops T) id (ws : list (world T)) i, transparent_observer O ->
  Forall (@world_ok T) ws -> (i < length ws)%nat ->
  exists n, nth_error (number_evals O id [] ws) i = Some n /\
    how_many (fun k => exists w, In w (firstn (S i) ws) /\ get_agent w id <> None /\ get_agent w k <> None) n.
Proof.
  intros T O id ws i Ht Hok Hi.
  assert (D : forall (w : world T) k, get_agent w k <> None <-> In k (map fst (w_agents w))).
  { intros w k. unfold get_agent. destruct (m_find k (w_agents w)) as [a|] eqn:E.
    - split; [|discriminate]. intros _. apply m_find_In in E. apply in_map_iff. exists (k, a); auto.
    - apply m_find_None_notin in E. split; [congruence|tauto]. }
  assert (G : forall ws i (s : kmap unit), m_sorted s -> Forall (@world_ok T) ws -> (i < length ws)%nat ->
    exists n, nth_error (number_evals O id s ws) i = Some n /\
      how_many (fun k => In k (map fst s) \/
         exists w, In w (firstn (S i) ws) /\ get_agent w id <> None /\ get_agent w k <> None) n).
  { clear i ws Hok Hi. induction ws as [|w r IH]; intros i s Hs Hok Hi; [cbn in Hi; lia|].
    inversion Hok as [|? ? Hw Hr]; subst.
    assert (S1 : m_sorted (fst (number_eval O id s w)) /\
      snd (number_eval O id s w) = length (fst (number_eval O id s w)) /\
      forall k, In k (map fst (fst (number_eval O id s w))) <->
        (In k (map fst s) \/ (get_agent w id <> None /\ get_agent w k <> None))).
    { destruct (view_transparent O w id Hw Ht) as [V0 V1]. unfold number_eval.
      destruct (get_agent w id) as [a|] eqn:Ea.
      - destruct (V1 a eq_refl) as (ow & -> & _ & _ & E & _). cbn [fst snd]. unfold number_observe.
        split; [apply number_fold_sorted, Hs|]. split; [reflexivity|]. intros k.
        rewrite number_fold_keys, D, E. split; intros [H|H]; auto; [right; split; [discriminate|exact H]|tauto].
      - rewrite V0 by reflexivity. cbn [fst snd]. split; [exact Hs|]. split; [reflexivity|]. intros k. intuition congruence. }
    destruct S1 as (S1 & S2 & S3). destruct i as [|i]; cbn [number_evals nth_error].
    - eexists. split; [reflexivity|]. rewrite S2. exists (map fst (fst (number_eval O id s w))).
      split; [apply m_sorted_NoDup, S1|]. split; [apply map_length|]. intros k. rewrite S3.
      split; (intros [H|H]; [now left|right]).
      + exists w. split; [now left|exact H].
      + destruct H as (w' & Hw' & H). cbn in Hw'. destruct Hw' as [<-|[]]. exact H.
    - destruct (IH i (fst (number_eval O id s w)) S1 Hr) as (n & Hn & l & L1 & L2 & L3); [cbn in Hi; lia|].
      exists n. split; [exact Hn|]. exists l. split; [exact L1|]. split; [exact L2|]. intros k. rewrite L3, S3.
      change (firstn (S (S i)) (w :: r)) with (w :: firstn (S i) r).
      split.
      + intros [[H|H]|(w' & H1 & H2)]; [now left| |].
        * right. exists w. split; [now left|exact H].
        * right. exists w'. split; [now right|exact H2].
      + intros [H|(w' & [<-|H1] & H2)]; [auto|auto|]. right. exists w'; auto. }
  destruct (G ws i [] ltac:(constructor) Hok Hi) as (n & Hn & l & L1 & L2 & L3). exists n. split; [exact Hn|].
  exists l. split; [exact L1|]. split; [exact L2|]. intros k. rewrite L3. cbn [map In]. tauto.
Qed.
Print Assumptions C31_number_of_agents.

(** It never decreases, whatever the observer model does. *)
Theorem C31_number_of_agents_monotone :
  forall (T : Types) (O : Ops T) id (ws : list (world T)) i n n',
  nth_error (number_evals O id [] ws) i = Some n -> nth_error (number_evals O id [] ws) (S i) = Some n' ->
  (n <= n')%nat.
Proof.
  intros T O id.
  assert (K : forall (s : kmap unit) (k : N), (length s <= length (m_insert k tt s))%nat).
  { induction s as [|[k' u] r IH]; intros k; cbn [m_insert length]; [lia|].
    destruct (N.ltb k k'); [cbn; lia|]. destruct (N.eqb k k'); cbn [length]; [lia|]. specialize (IH k). lia. }
  assert (K2 : forall (l : kmap (agent T)) (s : kmap unit),
    (length s <= length (fold_left (fun s p => m_insert (fst p) tt s) l s))%nat).
  { induction l as [|p r IH]; intros s; cbn [fold_left]; [lia|]. specialize (IH (m_insert (fst p) tt s)).
    specialize (K s (fst p)). lia. }
  assert (K3 : forall s w, (length s <= length (fst (number_eval O id s w)))%nat /\
     snd (number_eval O id s w) = length (fst (number_eval O id s w))).
  { intros s w. unfold number_eval. destruct (eval_view O w id); cbn [fst snd]; [|lia].
    split; [apply K2|reflexivity]. }
  assert (G : forall ws s i n n', nth_error (number_evals O id s ws) i = Some n ->
     nth_error (number_evals O id s ws) (S i) = Some n' -> (n <= n')%nat).
  { induction ws as [|w r IH]; intros s i n n'; [destruct i; discriminate|].
    destruct i as [|i]; cbn [number_evals nth_error].
    - destruct r as [|w2 r]; [discriminate|]. cbn [number_evals nth_error]. intros H1 H2.
      injection H1 as <-. injection H2 as <-. destruct (K3 s w) as [_ E1]. rewrite E1.
      destruct (K3 (fst (number_eval O id s w)) w2) as [E2 E3]. lia.
    - intros H1 H2. exact (IH _ i n n' H1 H2). }
  intros ws i n n'. apply G.
Qed.
Print Assumptions C31_number_of_agents_monotone.

Example C31_number_nonvacuous :
  transparent_observer PO /\ Forall (@world_ok PT) [short_list; long_ego; short_list] /\
  number_evals PO 1%N [] [short_list; long_ego; short_list] = [3; 5; 5]%nat /\
  number_evals PO 2%N [] [short_list; long_ego; short_list] = [0; 5; 5]%nat.
Proof.
  split; [intros o w id; destruct o; reflexivity|].
  split; [apply Forall_cons; [apply short_list_ok|apply Forall_cons; [apply long_ego_ok|
    apply Forall_cons; [apply short_list_ok|apply Forall_nil]]]|]. vm_compute. auto.
Qed.

(** Velocity, front-gap and planning-time evaluators: every call reports the mean of all measurements
    taken so far, and NaN as long as there is none. *)
Theorem C31_mean_evaluators :
  forall ms i, (i < length ms)%nat ->
  exists r, nth_error (mean_evals [] ms) i = Some r /\
    match r with
    | Some m => is_mean (taken (firstn (S i) ms)) m
    | None => taken (firstn (S i) ms) = []
    end.
Proof.
  assert (A : forall l a, fold_left Qplus l a == a + sumQ l).
  { induction l as [|x l IH]; intros a; cbn [fold_left sumQ fold_right]; [ring|].
    rewrite IH. unfold sumQ. cbn. ring. }
  assert (M : forall v, v <> [] -> is_mean v (calculate_mean v)).
  { intros v Hv. split; [exact Hv|]. destruct v as [|x v]; [congruence|]. unfold calculate_mean. rewrite A.
    field. intros E. apply (Qeq_bool_neq (inject_Z (Z.of_nat (length (x :: v)))) 0); [|exact E].
    reflexivity. }
  assert (G : forall ms vec i, (i < length ms)%nat -> exists r, nth_error (mean_evals vec ms) i = Some r /\
    match r with
    | Some m => is_mean (vec ++ taken (firstn (S i) ms)) m
    | None => vec ++ taken (firstn (S i) ms) = []
    end).
  { induction ms as [|m ms IH]; intros vec i Hi; [cbn in Hi; lia|].
    assert (E : forall k, vec ++ taken (m :: k) = fst (mean_eval vec m) ++ taken k).
    { intros k. unfold mean_eval, taken. cbn [flat_map fst]. destruct m; [|reflexivity].
      now rewrite <- app_assoc. }
    destruct i as [|i]; cbn [mean_evals nth_error].
    - eexists. split; [reflexivity|]. change (firstn 1 (m :: ms)) with [m]. rewrite E. unfold mean_eval.
      cbn [fst snd taken flat_map]. rewrite app_nil_r. destruct m as [x|].
      + destruct (vec ++ [x]) as [|y l] eqn:El; [destruct vec; discriminate|]. apply M. congruence.
      + destruct vec as [|y l]; [reflexivity|]. apply M. congruence.
    - destruct (IH (fst (mean_eval vec m)) i) as (r & Hr & Hm); [cbn in Hi; lia|]. exists r. split; [exact Hr|].
      change (firstn (S (S i)) (m :: ms)) with (m :: firstn (S i) ms). rewrite E. exact Hm. }
  intros ms i Hi. exact (G ms [] i Hi).
Qed.
Print Assumptions C31_mean_evaluators.
Example C31_mean_nonvacuous :
  map (option_map Qred) (mean_evals [] [None; Some 2; None; Some 5; Some (1 # 2)]) =
    [None; Some 2; Some 2; Some (7 # 2); Some (5 # 2)].
Proof. vm_compute. reflexivity. Qed.
