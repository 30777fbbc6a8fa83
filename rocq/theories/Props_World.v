(* Property theorems C01-C08 (simulation core). Vocabulary: Spec_World.v. *)
From Coq Require Import List NArith ZArith QArith Bool Permutation.
From Verif Require Import Model_Map Model_World Spec_World Proof_Map Proof_World Proof_World2 Toy_World.
Import ListNotations.

(* C01: a step advances time by exactly dt, keeps the rest of the world, invents no agent, and
   treats every surviving agent as [agent_stepped] says. *)
Theorem C01_step :
  forall (T : Types) (O : Ops T) (w : world T) (dt : Q), world_ok w ->
  exists w', step O w dt = Some w' /\ w_time w' = w_time w + dt /\ world_ok w' /\
    (w_map w' = w_map w /\ w_remove w' = w_remove w /\ w_objects w' = w_objects w /\
     w_evals w' = w_evals w /\ w_latthr w' = w_latthr w /\ w_maxfr w' = w_maxfr w) /\
    (forall id, get_agent w id = None -> get_agent w' id = None) /\
    (forall id a a', get_agent w id = Some a -> get_agent w' id = Some a' ->
       exists ow, observation_of O w id ow /\ agent_stepped O (w_time w) dt ow a a').
Proof.
  intros T O w dt Hok.
  destruct (step_spec O w dt Hok) as (w' & H1 & H2 & H3 & _ & H5 & H6 & H7).
  exists w'. repeat (split; [assumption|]).
  intros id a a' Ha Ha'. destruct (H7 id a Ha) as (ow & Ho & _ & Hs). exists ow; auto.
Qed.
Print Assumptions C01_step.

(* C01: any number of steps; n equal steps end at t + n*dt. *)
Theorem C01_run_time :
  forall (T : Types) (O : Ops T) (w : world T) (dts : list Q), world_ok w ->
  exists w', run O w dts = Some w' /\ world_ok w' /\ w_time w' == w_time w + sumQ dts.
Proof. intros T O; exact (run_ok O). Qed.
Print Assumptions C01_run_time.

Theorem C01_n_steps :
  forall (T : Types) (O : Ops T) (w : world T) (n : nat) (dt : Q), world_ok w ->
  exists w', run O w (repeat dt n) = Some w' /\ w_time w' == w_time w + inject_Z (Z.of_nat n) * dt.
Proof.
  intros T O w n dt Hok. destruct (run_ok O w (repeat dt n) Hok) as (w' & H1 & _ & H3).
  exists w'. split; [exact H1|]. rewrite H3, sumQ_repeat. reflexivity.
Qed.
Print Assumptions C01_n_steps.

Example C01_nonvacuous : world_ok toy3.
Proof. exact toy3_ok. Qed.
(* the running agent 1 moved, agent 2 (starts at time 3) did not, expired agent 7 is gone *)
Example C01_toy_run :
  option_map (fun w : world TT => (w_time w, map (fun p => (fst p, map fst (ag_hist (snd p)))) (w_agents w)))
    (step TO toy3 1) = Some (1, [(1%N, [0%Z; 3%Z]); (2%N, [5%Z])]).
Proof. vm_compute. reflexivity. Qed.

(* C02: the table after planning is the one obtained by planning the agents one after the other,
   in place, in ANY order against the pre-step snapshot. *)
Theorem C02_order_irrelevant :
  forall (T : Types) (O : Ops T) (w : world T) (dt : Q) (w' cw : world T) (ids : list AgentId),
  world_ok w -> stateless_observer O -> pre_step_snapshot O w cw ->
  Permutation ids (map fst (w_agents w)) -> plan_agents O w dt = Some w' ->
  w_agents w' = plan_in_order O (w_observer w) cw (w_time w) dt ids (w_agents w).
Proof. intros T O; exact (plan_order_irrelevant O). Qed.
Print Assumptions C02_order_irrelevant.

(* C02: what the other agents plan in a step does not influence an agent's own plan: replacing all
   planning functions but the one of agent id's model leaves its result unchanged. *)
Theorem C02_no_interference :
  forall (T : Types) (O : Ops T) (f : tBM T -> Q -> observed T -> tBM T) (w : world T) (dt : Q)
         (id : AgentId) (a : agent T),
  world_ok w -> get_agent w id = Some a ->
  (forall dt' ow, f (ag_bm a) dt' ow = b_plan O (ag_bm a) dt' ow) ->
  exists w1 w2, plan_agents O w dt = Some w1 /\ plan_agents (with_plan O f) w dt = Some w2 /\
    get_agent w1 id = get_agent w2 id.
Proof. intros T O; exact (plan_agents_noninterf O). Qed.
Print Assumptions C02_no_interference.

Example C02_nonvacuous :
  world_ok toy3 /\ stateless_observer TO /\ (exists cw, pre_step_snapshot TO toy3 cw) /\
  Permutation [7; 1; 2]%N (map fst (w_agents toy3)) /\ (exists w', plan_agents TO toy3 1 = Some w').
Proof.
  split; [exact toy3_ok|]. split; [exact toy_stateless|]. split.
  - eexists. eexists. split; reflexivity.
  - split; [|eexists; reflexivity].
    cbn. apply Permutation_trans with [1; 7; 2]%N; [apply perm_swap|].
    apply perm_skip, perm_swap.
Qed.

(* C03 (value part; aliasing is in Props_Heap.v): a clone has the same time, settings and index, and
   under every id the clone of the original agent: same id, shape, history, start time and bound. *)
Theorem C03_clone_faithful :
  forall (T : Types) (O : Ops T) (w : world T), world_ok w ->
  let c := clone_world O w in
  world_ok c /\ w_time c = w_time w /\ w_rtree c = w_rtree w /\ w_map c = w_map w /\
  w_evals c = w_evals w /\ w_remove c = w_remove w /\ w_latthr c = w_latthr w /\ w_maxfr c = w_maxfr w /\
  map fst (w_agents c) = map fst (w_agents w) /\
  (forall id a, get_agent w id = Some a ->
     exists a', get_agent c id = Some a' /\ ag_id a' = ag_id a /\ ag_shape a' = ag_shape a /\
       ag_hist a' = ag_hist a /\ ag_max a' = ag_max a /\ ag_first a' = ag_first a /\
       ag_bm a' = b_clone O (ag_bm a) /\ ag_em a' = e_clone O (ag_em a) /\
       ag_dm a' = d_clone O (ag_dm a) /\ ag_goal a' = option_map (g_clone O) (ag_goal a)).
Proof.
  intros T O w Hok c. destruct (clone_world_spec O w Hok) as (E1&E2&E3&E4&E5&E6&E7&E8&E9).
  split; [exact (clone_world_ok O w Hok)|]. repeat (split; [assumption|]).
  split; [unfold c; rewrite E1, map_map; reflexivity|].
  intros id a Ha. exists (clone_agent O a). split; [|repeat split].
  unfold get_agent, c in *. rewrite E1.
  pose proof (m_find_map (agent T) (fun p => clone_agent O (snd p)) id (w_agents w)) as E.
  cbn [snd] in E. rewrite E, Ha. reflexivity.
Qed.
Print Assumptions C03_clone_faithful.

(* C04: exactly which agents a step removes. *)
Theorem C04_removal_exact :
  forall (T : Types) (O : Ops T) (w : world T) (dt : Q), world_ok w ->
  exists w', step O w dt = Some w' /\
    forall id a, get_agent w id = Some a ->
      exists ow, observation_of O w id ow /\
        (get_agent w' id = None <-> removed_by_step O w a (planned_bm O a (w_time w) dt ow)).
Proof.
  intros T O w dt Hok. destruct (step_spec O w dt Hok) as (w' & H1 & _ & _ & _ & _ & _ & H7).
  exists w'. split; [exact H1|]. intros id a Ha. destruct (H7 id a Ha) as (ow & Ho & Hr & _).
  exists ow; auto.
Qed.
Print Assumptions C04_removal_exact.

(* C04: with removal disabled only EXPIRED agents disappear. *)
Theorem C04_disabled_only_expired :
  forall (T : Types) (O : Ops T) (w : world T) (dt : Q), world_ok w -> w_remove w = false ->
  exists w', step O w dt = Some w' /\
    forall id a, get_agent w id = Some a ->
      exists ow, observation_of O w id ow /\
        (get_agent w' id = None <-> b_status O (planned_bm O a (w_time w) dt ow) = EXPIRED).
Proof.
  intros T O w dt Hok Hr. destruct (C04_removal_exact T O w dt Hok) as (w' & H1 & H2).
  exists w'. split; [exact H1|]. intros id a Ha. destruct (H2 id a Ha) as (ow & Ho & Hiff).
  exists ow. split; [exact Ho|]. rewrite Hiff. unfold removed_by_step. rewrite Hr.
  split; [intros [H|[H _]]; [exact H|discriminate]|auto].
Qed.
Print Assumptions C04_disabled_only_expired.

(* C04 refuted expectation: after a step with removal enabled a VALID, started agent can be outside
   the map (the index used for the check predates the move). *)
Theorem C04_valid_agent_outside_refuted :
  exists (T : Types) (O : Ops T) (w w' : world T) id a s mb,
    world_ok w /\ w_remove w = true /\ step O w 1 = Some w' /\ w_map w' = Some mb /\
    get_agent w' id = Some a /\ b_status O (ag_bm a) = VALID /\ valid_at a (w_time w) = true /\
    current_state a = Some s /\ box_within O (envelope O (ag_shape a) s) mb = false.
Proof.
  pose (w := toy_world [(1%N, toy_agent 1 9 5 VALID 50 0)] true).
  assert (Hok : world_ok w).
  { split; [repeat constructor|]. split; [|intros _; discriminate].
    intros k a H. apply m_find_In in H. destruct H as [H|[]]; inversion H; subst.
    split; [reflexivity|]. apply new_agent_ok. }
  exists TT, TO, w. eexists. exists 1%N. eexists. exists 14%Z, (-10, 10)%Z.
  split; [exact Hok|]. split; [reflexivity|].
  split; [vm_compute; reflexivity|]. split; [reflexivity|]. split; [vm_compute; reflexivity|].
  repeat split.
Qed.
Print Assumptions C04_valid_agent_outside_refuted.

(* C05: the index is fresh after every step. *)
Theorem C05_fresh_after_step :
  forall (T : Types) (O : Ops T) (w : world T) (dt : Q), world_ok w ->
  exists w', step O w dt = Some w' /\ index_fresh O w' /\ m_sorted (w_agents w') /\
    forall b id, In (b, id) (w_rtree w') <->
      exists a s, get_agent w' id = Some a /\ current_state a = Some s /\ b = envelope O (ag_shape a) s.
Proof.
  intros T O w dt Hok. destruct (step_spec O w dt Hok) as (w' & H1 & _ & H3 & H4 & _).
  exists w'. split; [exact H1|]. split; [exact H4|]. split; [exact (proj1 H3)|].
  intros b id. rewrite (rtree_In O w' w' b id H4). unfold get_agent.
  split; intros (a & s & H & H' & H''); exists a, s;
    (split; [apply (m_find_iff id a _ (proj1 H3)); exact H|auto]).
Qed.
Print Assumptions C05_fresh_after_step.

(* C05: with a fresh index GetNearestAgents never fails; it considers exactly the min(k,n) nearest
   agents and returns the live ones among them. *)
Theorem C05_nearest :
  forall (T : Types) (O : Ops T) (w : world T) (dist : tBox T -> tPoint T -> Q) (p : tPoint T) (k : nat),
  m_sorted (w_agents w) -> index_fresh O w -> knn_contract O dist ->
  exists m considered,
    get_nearest_agents O w p k = Some m /\ m_sorted m /\
    NoDup considered /\ length considered = Nat.min k (length (w_agents w)) /\
    (forall i, In i considered -> get_agent w i <> None) /\
    (forall i j a b ba bb, In i considered -> ~ In j considered ->
       get_agent w i = Some a -> get_agent w j = Some b ->
       agent_box O a ba -> agent_box O b bb -> dist ba p <= dist bb p) /\
    (forall i a, m_find i m = Some a <-> (In i considered /\ get_agent w i = Some a /\ live_at O w a)).
Proof. intros T O; exact (nearest_spec O). Qed.
Print Assumptions C05_nearest.

(* C05: GetAgentsIntersectingPolygon returns exactly the live agents whose footprint collides. *)
Theorem C05_intersecting :
  forall (T : Types) (O : Ops T) (w : world T) (pg : tPoly T),
  m_sorted (w_agents w) -> index_fresh O w -> box_contract O ->
  exists m, get_agents_intersecting O w pg = Some m /\ m_sorted m /\
    forall i a, m_find i m = Some a <->
      (get_agent w i = Some a /\ live_at O w a /\
       exists s, current_state a = Some s /\ collide O (ag_shape a) s pg = true).
Proof. intros T O; exact (intersect_spec O). Qed.
Print Assumptions C05_intersecting.

(* C05: removing an agent without refreshing the index makes the query dereference null. *)
Theorem C05_stale_index_crash :
  forall (T : Types) (O : Ops T) (w : world T) dist p k id a,
  m_sorted (w_agents w) -> index_fresh O w -> knn_contract O dist ->
  get_agent w id = Some a -> (length (w_agents w) <= k)%nat ->
  get_nearest_agents O (remove_agent_by_id w id) p k = None.
Proof. intros T O; exact (stale_index_crash O). Qed.
Print Assumptions C05_stale_index_crash.

(* C05: an agent added without refresh is not reported. *)
Theorem C05_added_agent_invisible :
  forall (T : Types) (O : Ops T) (w : world T) (a : agent T) p k m,
  index_fresh O w -> get_agent w (ag_id a) = None ->
  (forall l q j e, In e (knn O l q j) -> In e l) ->
  get_nearest_agents O (add_agent w a) p k = Some m -> m_find (ag_id a) m = None.
Proof. intros T O; exact (added_agent_invisible O). Qed.
Print Assumptions C05_added_agent_invisible.

(* C05 refuted expectation: "the k nearest live agents" - agents that are not live use up slots, so a
   live agent may be missing although fewer than k are returned. *)
Theorem C05_k_nearest_live_refuted :
  exists (T : Types) (O : Ops T) (w : world T) dist p m id a,
    m_sorted (w_agents w) /\ index_fresh O w /\ knn_contract O dist /\
    get_nearest_agents O w p 1 = Some m /\ m = [] /\
    get_agent w id = Some a /\ live_at O w a.
Proof.
  pose (w0 := toy_world [(1%N, toy_agent 1 0 5 NOT_STARTED_YET 50 0); (2%N, toy_agent 2 3 5 VALID 50 0)] true).
  pose (w := set_rtree w0 [(0%Z, 1%N); (3%Z, 2%N)]).
  exists TT, TO, w, (fun b p => inject_Z (Z.abs (b - p))), 0%Z, [], 2%N, (toy_agent 2 3 5 VALID 50 0).
  split; [repeat constructor|]. split; [reflexivity|]. split; [exact toy_knn|].
  repeat split.
Qed.
Print Assumptions C05_k_nearest_live_refuted.

Example C05_nonvacuous :
  exists w, step TO toy3 1 = Some w /\ m_sorted (w_agents w) /\ index_fresh TO w /\
    knn_contract TO (fun b p => inject_Z (Z.abs (b - p))) /\ box_contract TO /\
    get_agent w 1%N <> None /\ (length (w_agents w) <= 4)%nat /\
    (exists m, get_nearest_agents TO w 2%Z 1 = Some m /\ map fst m = [1%N]).
Proof.
  destruct (C05_fresh_after_step TT TO toy3 1 toy3_ok) as (w & H1 & H2 & H3 & _).
  exists w. split; [exact H1|]. split; [exact H3|]. split; [exact H2|]. split; [exact toy_knn|].
  split; [exact toy_box|]. vm_compute in H1. injection H1 as <-. split; [discriminate|].
  split; [cbn; repeat constructor|]. eexists. split; vm_compute; reflexivity.
Qed.

(* C06: the agent table behaves as a finite map under any sequence of additions and removals. *)
Theorem C06_table_refines_map :
  forall (T : Types) (ops : list table_op) (w : world T) (k : AgentId),
  get_agent (fold_left apply_op ops w) k = fold_left spec_op ops (get_agent w) k.
Proof. intros T; exact table_refines. Qed.
Print Assumptions C06_table_refines_map.

(* C06: no id occurs twice and every agent is filed under its own id. *)
Theorem C06_unique_ids :
  forall (T : Types) (ops : list table_op) (w : world T),
  m_sorted (w_agents w) -> (forall k a, get_agent w k = Some a -> ag_id a = k) ->
  NoDup (map fst (w_agents (fold_left apply_op ops w))) /\
  (forall k a, In (k, a) (w_agents (fold_left apply_op ops w)) -> ag_id a = k).
Proof.
  intros T ops w Hs Hk. destruct (table_invariant ops w Hs Hk) as [H1 H2].
  split; [apply m_sorted_NoDup, H1|]. intros k a Hin. apply H2. apply m_find_iff; auto.
Qed.
Print Assumptions C06_unique_ids.

(* C06: up to 2^32 objects get pairwise distinct ids... *)
Theorem C06_fresh_ids :
  forall (n : nat) (c : N), (c < 4294967296)%N -> (N.of_nat n <= 4294967296)%N -> NoDup (object_ids c n).
Proof. exact object_ids_nodup. Qed.
Print Assumptions C06_fresh_ids.

(* ...after which the counter wraps and ids are reused. *)
Theorem C06_ids_never_reused_refuted :
  forall c : N, (c < 4294967296)%N ->
  exists (n i j : nat) (id : N), i <> j /\
    nth_error (object_ids c n) i = Some id /\ nth_error (object_ids c n) j = Some id.
Proof. exact object_ids_wrap. Qed.
Print Assumptions C06_ids_never_reused_refuted.

(* C07: history after any sequence of updates is the window of the newest max(1,max) entries of the
   whole sequence, oldest first; the current state is the newest one. *)
Theorem C07_history_window :
  forall (T : Types) (O : Ops T) id sh init b d e g maxh first (l : list (tBM T * tEM T)),
  let a0 := new_agent O id sh init b d e g maxh first in
  let a := agent_updates O a0 l in
  ag_hist a = window (Nat.max 1 maxh)
    ((init, b_last_action O b) :: map (fun p => (e_state O (snd p), b_last_action O (fst p))) l) /\
  (1 <= length (ag_hist a) <= Nat.max 1 maxh)%nat /\
  current_state a = Some (last (init :: map (fun p => e_state O (snd p)) l) init).
Proof.
  intros T O id sh init b d e g maxh first l a0 a.
  assert (Hok : agent_ok a0) by apply new_agent_ok.
  destruct (agent_updates_hist O a0 l Hok) as (H1 & H2 & H3).
  split; [exact H2|]. split.
  - destruct H1 as [Hne Hlen]. split; [|].
    + unfold a. destruct (ag_hist (agent_updates O a0 l)); [congruence|cbn; apply le_n_S, Nat.le_0_l].
    + unfold a. rewrite H3 in Hlen. exact Hlen.
  - unfold a. rewrite (agent_updates_current O a0 l Hok).
    destruct l as [|p l] using rev_ind; [reflexivity|].
    rewrite last_opt_app. f_equal. rewrite map_app; cbn [map].
    rewrite app_comm_cons. symmetry; apply last_last.
Qed.
Print Assumptions C07_history_window.

Example C07_bound_is_tight :
  ag_hist (agent_updates TO (toy_agent 1 0 3 VALID 2 0)
             [(mkBM VALID 1 1, (E_VALID, 1%Z)); (mkBM VALID 2 3, (E_VALID, 3%Z))])
  = [(1%Z, 1%Z); (3%Z, 2%Z)].
Proof. reflexivity. Qed.
(* a maximum of 0 still keeps one entry *)
Example C07_zero_keeps_one :
  ag_hist (agent_updates TO (toy_agent 1 0 3 VALID 0 0) [(mkBM VALID 1 1, (E_VALID, 1%Z))]) = [(1%Z, 1%Z)].
Proof. reflexivity. Qed.

(* C08: validity is a closed lower bound on time (up to machine epsilon), monotone in time. *)
Theorem C08_valid_from_first_timestamp :
  forall (T : Types) (a : agent T) (t : Q),
  (valid_at a t = true <-> ag_first a <= t + (1 # 4503599627370496)) /\
  (forall t', t <= t' -> valid_at a t = true -> valid_at a t' = true).
Proof. intros T a t. split; [apply valid_at_iff|intros t'; apply valid_at_mono]. Qed.
Print Assumptions C08_valid_from_first_timestamp.

(* C08: in a run with non-negative step sizes a valid agent stays valid, and an agent that is not
   valid at the end was never planned or moved: it is bit for bit the one of the start. *)
Theorem C08_enters_once :
  forall (T : Types) (O : Ops T) (w : world T) dts w' id a a',
  world_ok w -> Forall (fun d => 0 <= d) dts -> run O w dts = Some w' ->
  get_agent w id = Some a -> get_agent w' id = Some a' ->
  ag_first a' = ag_first a /\
  (valid_at a (w_time w) = true -> valid_at a' (w_time w') = true) /\
  (valid_at a (w_time w') = false -> a' = a).
Proof. intros T O; exact (run_valid O). Qed.
Print Assumptions C08_enters_once.

Theorem C08_get_valid_agents :
  forall (T : Types) (O : Ops T) (w : world T) k a, m_sorted (w_agents w) ->
  (m_find k (get_valid_agents O w) = Some a <->
   (get_agent w k = Some a /\ b_status O (ag_bm a) = VALID /\ valid_at a (w_time w) = true)).
Proof. intros T O; exact (valid_agents_iff O). Qed.
Print Assumptions C08_get_valid_agents.

Example C08_nonvacuous :
  exists w', run TO toy3 [1; 1] = Some w' /\ Forall (fun d => 0 <= d) [1; 1] /\
    get_agent w' 2%N = get_agent toy3 2%N /\
    (exists w'' a, run TO toy3 [1; 1; 1; 1] = Some w'' /\ get_agent w'' 2%N = Some a /\ length (ag_hist a) = 2%nat).
Proof.
  eexists. split; [vm_compute; reflexivity|]. split; [repeat constructor; discriminate|].
  split; [reflexivity|]. eexists. eexists. split; [vm_compute; reflexivity|].
  split; vm_compute; reflexivity.
Qed.
