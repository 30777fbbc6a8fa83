(* C44, C45, C57: prediction settings, parametric observation, views of observed worlds. *)
From Coq Require Import List NArith ZArith QArith Bool Lia Reals Lra.
From Verif Require Import Model_Map Model_World Spec_World Proof_Map Proof_World Proof_World2 Props_World Toy_World Model_Prediction Spec_Prediction.
Import ListNotations.

Section Proofs.
  Context {T : Types} (O : Ops T).

  Lemma mem_iff id l : mem id l = true <-> In id l.
  Proof.
    unfold mem. rewrite existsb_exists. split.
    - intros (x & H & E). apply N.eqb_eq in E. now subst.
    - intros H. exists id. split; auto. apply N.eqb_refl.
  Qed.
  Lemma set_bm_same (a : agent T) : set_bm a (ag_bm a) = a.
  Proof. now destruct a. Qed.
  Lemma set_agents_same (w : world T) : set_agents w (w_agents w) = w.
  Proof. now destruct w. Qed.
  Lemma live_iff w (a : agent T) : is_valid (b_status O (ag_bm a)) && valid_at a (w_time w) = true <-> live_at O w a.
  Proof.
    unfold live_at. destruct (b_status O (ag_bm a)); cbn; intuition; try discriminate.
  Qed.
  Lemma keys_in {V} k (m : kmap V) : In k (map fst m) <-> m_find k m <> None.
  Proof.
    pose proof (m_find_None_notin k m) as H. destruct (m_find k m) eqn:E; split; intros X; try discriminate; try congruence.
    - destruct (in_dec N.eq_dec k (map fst m)); auto. apply H in n. discriminate.
    - exfalso. apply H; auto.
  Qed.

  Lemma set_behavior_spec (w : world T) id (b : tBM T) : m_sorted (w_agents w) ->
    match get_agent w id with
    | None => set_behavior w id b = None
    | Some a => exists m, set_behavior w id b = Some (set_agents w m) /\ m_sorted m /\ map fst m = map fst (w_agents w) /\
        forall k, m_find k m = if N.eqb k id then Some (set_bm a b) else get_agent w k
    end.
  Proof.
    intros Hs. unfold set_behavior. destruct (get_agent w id) as [a|] eqn:E; [|reflexivity].
    eexists. split; [reflexivity|]. split; [apply m_insert_sorted, Hs|]. split.
    - apply m_insert_keys_same; auto. apply keys_in. unfold get_agent in E. congruence.
    - intros k. destruct (N.eqb_spec k id) as [->|N]; [apply m_find_insert_same|]. apply m_find_insert_other, N.
  Qed.

  Definition dchoice (ns d : tBM T) (spec : list AgentId) (t : Q) (id : AgentId) (a : agent T) : tBM T :=
    if is_valid (b_status O (ag_bm a)) && valid_at a t then if mem id spec then ag_bm a else b_clone O d else ns.
  Lemma default_loop_spec ns d spec t others : forall w : world T, NoDup (map fst others) ->
    (forall id a, In (id, a) others -> get_agent w id = Some a) -> m_sorted (w_agents w) ->
    exists m, default_loop O ns d spec t others w = Some (set_agents w m) /\ m_sorted m /\ map fst m = map fst (w_agents w) /\
      forall k, m_find k m = match m_find k others with Some a => Some (set_bm a (dchoice ns d spec t k a)) | None => get_agent w k end.
  Proof.
    induction others as [|[id a] r IH]; intros w ND HI Hs.
    - exists (w_agents w). cbn. rewrite set_agents_same. auto.
    - cbn in ND. inversion ND as [|? ? N1 N2]; subst. cbn [default_loop].
      assert (Ea : get_agent w id = Some a) by (apply HI; now left).
      assert (X : exists w', (if is_valid (b_status O (ag_bm a)) && valid_at a t then
            if mem id spec then Some w else set_behavior w id (b_clone O d) else set_behavior w id ns) = Some w' /\
          (exists m, w' = set_agents w m) /\ m_sorted (w_agents w') /\ map fst (w_agents w') = map fst (w_agents w) /\
          forall k, get_agent w' k = if N.eqb k id then Some (set_bm a (dchoice ns d spec t id a)) else get_agent w k).
      { pose proof (fun b => set_behavior_spec w id b Hs) as SB. rewrite Ea in SB. unfold dchoice.
        destruct (is_valid (b_status O (ag_bm a)) && valid_at a t); [destruct (mem id spec)|].
        - exists w. split; [reflexivity|]. split; [exists (w_agents w); now rewrite set_agents_same|]. repeat split; auto.
          intros k. destruct (N.eqb_spec k id) as [->|]; auto. now rewrite set_bm_same.
        - destruct (SB (b_clone O d)) as (m & E & S1 & K & F). eexists. split; [exact E|]. split; [eauto|]. auto.
        - destruct (SB ns) as (m & E & S1 & K & F). eexists. split; [exact E|]. split; [eauto|]. auto. }
      destruct X as (w' & E & (m0 & Em0) & S1 & K1 & F1). rewrite E.
      destruct (IH w' N2) as (m & E2 & S2 & K2 & F2); auto.
      { intros id' a' Hin. rewrite F1. destruct (N.eqb_spec id' id) as [->|].
        - exfalso. apply N1. apply in_map_iff. exists (id, a'). auto.
        - apply HI. now right. }
      exists m. rewrite E2. split; [subst w'; reflexivity|]. split; [exact S2|]. split; [congruence|].
      intros k. rewrite F2. cbn [m_find]. rewrite F1. destruct (N.eqb_spec k id) as [->|NE]; [|reflexivity].
      destruct (m_find id r) eqn:Er; [|reflexivity]. exfalso. apply N1, keys_in. congruence.
  Qed.
  Lemma specific_loop_spec s ids : forall w : world T, m_sorted (w_agents w) ->
    (forall id, In id ids -> get_agent w id <> None) ->
    exists m, specific_loop O s ids w = Some (set_agents w m) /\ m_sorted m /\ map fst m = map fst (w_agents w) /\
      forall k, m_find k m = if mem k ids then option_map (fun a => set_bm a (b_clone O s)) (get_agent w k) else get_agent w k.
  Proof.
    induction ids as [|id r IH]; intros w Hs HI.
    - exists (w_agents w). cbn. rewrite set_agents_same. auto.
    - cbn [specific_loop]. pose proof (set_behavior_spec w id (b_clone O s) Hs) as SB.
      destruct (get_agent w id) as [a|] eqn:Ea; [|exfalso; apply (HI id); [now left|auto]].
      destruct SB as (m & E & S1 & K & F). rewrite E.
      destruct (IH (set_agents w m)) as (m2 & E2 & S2 & K2 & F2); auto.
      { intros k Hk. unfold get_agent. cbn. rewrite F. destruct (N.eqb k id); [discriminate|]. apply HI. now right. }
      exists m2. rewrite E2. split; [reflexivity|]. split; [exact S2|]. split; [cbn in K2; congruence|].
      intros k. rewrite F2. unfold get_agent at 1 2. cbn [w_agents set_agents]. rewrite F. unfold mem. cbn [existsb].
      destruct (N.eqb_spec k id) as [->|NE]; cbn [orb]; [|reflexivity]. rewrite Ea. destruct (existsb (N.eqb id) r); reflexivity.
  Qed.
  Lemma specific_loop_fails s ids : forall (w : world T) id, m_sorted (w_agents w) -> In id ids -> get_agent w id = None ->
    specific_loop O s ids w = None.
  Proof.
    induction ids as [|i r IH]; intros w id Hs Hin Hn; [destruct Hin|]. cbn [specific_loop].
    pose proof (set_behavior_spec w i (b_clone O s) Hs) as SB. destruct (get_agent w i) as [a|] eqn:Ea; [|now rewrite SB].
    destruct SB as (m & E & S1 & K & F). rewrite E. destruct Hin as [->|Hin]; [congruence|].
    apply (IH _ id); auto. unfold get_agent. cbn. rewrite F. destruct (N.eqb_spec id i) as [->|]; [congruence|exact Hn].
  Qed.
End Proofs.

(* C44: who gets which model. Everything else in the world, and everything else about each agent, stays. *)
Theorem C44_assignment : forall (T : Types) (O : Ops T) (ns : tBM T) (s : settings) (ow ow' : observed T),
  m_sorted (w_agents (ow_world ow)) -> apply_settings O ns s ow = Some ow' ->
  ow_ego ow' = ow_ego ow /\ only_agents_changed (ow_world ow) (ow_world ow') /\ m_sorted (w_agents (ow_world ow')) /\
  forall id a, get_agent (ow_world ow) id = Some a ->
    exists b, get_agent (ow_world ow') id = Some (set_bm a b) /\ assigned O ns s ow id a b.
Proof.
  intros T O ns s ow ow' Hs H. unfold apply_settings in H. set (w := ow_world ow) in *.
  destruct (ps_ego s) as [e|] eqn:Ee; [|discriminate].
  pose proof (set_behavior_spec w (ow_ego ow) (b_clone O e) Hs) as SB. destruct (get_agent w (ow_ego ow)) as [ea|] eqn:Ea; [|now rewrite SB in H].
  destruct SB as (m1 & E1 & S1 & K1 & F1). rewrite E1 in H. set (w1 := set_agents w m1) in *.
  assert (D : exists m2, match ps_default s with None => Some w1 | Some d => default_loop O ns d (ps_agents s) (w_time w1) (get_other_agents (mkObserved w1 (ow_ego ow))) w1 end = Some (set_agents w m2) /\
     m_sorted m2 /\ map fst m2 = map fst (w_agents w) /\
     forall k, m_find k m2 = if N.eqb k (ow_ego ow) then Some (set_bm ea (b_clone O e)) else
        match ps_default s with None => get_agent w k | Some d => option_map (fun a => set_bm a (dchoice O ns d (ps_agents s) (w_time w) k a)) (get_agent w k) end).
  { destruct (ps_default s) as [d|].
    - destruct (default_loop_spec O ns d (ps_agents s) (w_time w1) (get_other_agents (mkObserved w1 (ow_ego ow))) w1) as (m2 & E2 & S2 & K2 & F2).
      + apply m_sorted_NoDup. apply m_filter_sorted. exact S1.
      + intros id a Hin. unfold get_agent. apply In_m_find; cbn [w_agents set_agents w1].
        * apply m_sorted_NoDup, S1. * apply filter_In in Hin. apply Hin.
      + exact S1.
      + exists m2. split; [exact E2|]. split; [exact S2|]. split; [cbn in K2; congruence|]. intros k. rewrite F2.
        unfold get_other_agents. cbn [ow_world ow_ego w_agents set_agents w1]. destruct (N.eqb_spec k (ow_ego ow)) as [->|NE].
        * rewrite m_find_erase_same. unfold get_agent. cbn. rewrite F1, N.eqb_refl. reflexivity.
        * rewrite m_find_erase_other by auto. rewrite F1. destruct (N.eqb_spec k (ow_ego ow)); [tauto|].
          unfold get_agent at 2. cbn [w_agents set_agents]. 
          destruct (get_agent w k) eqn:Ek; [reflexivity|]. unfold get_agent. cbn. rewrite F1. destruct (N.eqb_spec k (ow_ego ow)); [tauto|]. cbn. exact Ek.
    - exists m1. repeat split; auto. }
  destruct D as (m2 & E2 & S2 & K2 & F2). rewrite E2 in H.
  assert (Z : exists m3, match ps_specific s with None => Some (set_agents w m2) | Some m => specific_loop O m (ps_agents s) (set_agents w m2) end = Some (set_agents w m3) /\
     m_sorted m3 /\ map fst m3 = map fst (w_agents w) /\
     forall k, m_find k m3 = match ps_specific s with Some m => if mem k (ps_agents s) then option_map (fun a => set_bm a (b_clone O m)) (m_find k m2) else m_find k m2 | None => m_find k m2 end).
  { destruct (ps_specific s) as [m|].
    - destruct (existsb (fun id => match get_agent (set_agents w m2) id with None => true | _ => false end) (ps_agents s)) eqn:X.
      + apply existsb_exists in X as (id & Hin & Q). destruct (get_agent (set_agents w m2) id) eqn:Y; [discriminate|].
        rewrite (specific_loop_fails O m (ps_agents s) (set_agents w m2) id S2 Hin Y) in H. discriminate.
      + destruct (specific_loop_spec O m (ps_agents s) (set_agents w m2)) as (m3 & E3 & S3 & K3 & F3); [exact S2| |].
        * intros id Hin Y. assert (Q : existsb (fun id => match get_agent (set_agents w m2) id with None => true | _ => false end) (ps_agents s) = true).
          { apply existsb_exists. exists id. rewrite Y. auto. } congruence.
        * exists m3. split; [exact E3|]. split; [exact S3|]. split; [cbn in K3; congruence|]. exact F3.
    - exists m2. repeat split; auto. }
  destruct Z as (m3 & E3 & S3 & K3 & F3). rewrite E3 in H. inversion H; subst ow'; clear H. cbn [ow_ego ow_world].
  split; [reflexivity|]. split; [split; [eauto|exact K3]|]. split; [exact S3|].
  intros id a Ha.
  set (bd := if N.eqb id (ow_ego ow) then b_clone O e else match ps_default s with None => ag_bm a | Some d => dchoice O ns d (ps_agents s) (w_time w) id a end).
  assert (Fd : m_find id m2 = Some (set_bm a bd)).
  { rewrite F2. unfold bd. destruct (N.eqb_spec id (ow_ego ow)) as [->|NE]; [congruence|].
    destruct (ps_default s); rewrite Ha; cbn; [reflexivity|]. now rewrite set_bm_same. }
  exists (match ps_specific s with Some m => if mem id (ps_agents s) then b_clone O m else bd | None => bd end). split.
  - unfold get_agent. cbn. rewrite F3, Fd. destruct (ps_specific s); [destruct (mem id (ps_agents s))|]; reflexivity.
  - unfold specific.
    assert (LV : live_at O w a <-> is_valid (b_status O (ag_bm a)) && valid_at a (w_time w) = true) by (symmetry; apply live_iff).
    pose proof (mem_iff id (ps_agents s)) as MI.
    constructor; fold w; unfold bd, dchoice.
    + intros m Em Hin. rewrite Em. apply MI in Hin. now rewrite Hin.
    + intros e' -> NS Ee'. rewrite Ee in Ee'; inversion Ee'; subst e'. rewrite N.eqb_refl.
      destruct (ps_specific s) eqn:Esp; [|reflexivity]. destruct (mem (ow_ego ow) (ps_agents s)) eqn:Emm; [|reflexivity]. exfalso. apply NS. split; [congruence|now apply MI].
    + intros d NE Ed L NI. rewrite Ed. destruct (N.eqb_spec id (ow_ego ow)); [tauto|]. apply LV in L. rewrite L.
      destruct (mem id (ps_agents s)) eqn:Emm; [exfalso; apply NI; now apply MI|]. destruct (ps_specific s); reflexivity.
    + intros d NE Ed L NS. rewrite Ed. destruct (N.eqb_spec id (ow_ego ow)); [tauto|].
      destruct (is_valid (b_status O (ag_bm a)) && valid_at a (w_time w)) eqn:Elv; [exfalso; apply L, LV; auto|].
      destruct (ps_specific s) eqn:Esp; [|reflexivity]. destruct (mem id (ps_agents s)) eqn:Emm; [|reflexivity]. exfalso. apply NS. split; [congruence|now apply MI].
    + intros NE NS Q. destruct (N.eqb_spec id (ow_ego ow)); [tauto|].
      assert (Q' : match ps_default s with None => ag_bm a | Some d => if is_valid (b_status O (ag_bm a)) && valid_at a (w_time w) then if mem id (ps_agents s) then ag_bm a else b_clone O d else ns end = ag_bm a).
      { destruct (ps_default s) eqn:Ed; [|reflexivity]. destruct Q as [Q|[L Hin]]; [congruence|]. apply LV in L. rewrite L. apply MI in Hin. now rewrite Hin. }
      rewrite Q'. destruct (ps_specific s) eqn:Esp; [|reflexivity]. destruct (mem id (ps_agents s)) eqn:Emm; [|reflexivity]. exfalso. apply NS. split; [congruence|now apply MI].
Qed.
Print Assumptions C44_assignment.


(* C44: SetupPrediction succeeds exactly when there is an ego model, the ego is in the world and, if there is
   a specific model, every agent listed for it is too. *)
Theorem C44_defined : forall (T : Types) (O : Ops T) (ns : tBM T) (s : settings) (ow : observed T),
  m_sorted (w_agents (ow_world ow)) ->
  ((exists ow', apply_settings O ns s ow = Some ow') <->
   ps_ego s <> None /\ get_agent (ow_world ow) (ow_ego ow) <> None /\
   (ps_specific s <> None -> forall id, In id (ps_agents s) -> get_agent (ow_world ow) id <> None)).
Proof.
  intros T O ns s ow Hs. split.
  - intros (ow' & H). pose proof (C44_assignment T O ns s ow ow' Hs H) as (_ & (_ & K) & _ & A).
    unfold apply_settings in H. destruct (ps_ego s) as [e|]; [|discriminate]. split; [discriminate|].
    pose proof (set_behavior_spec (ow_world ow) (ow_ego ow) (b_clone O e) Hs) as SB.
    destruct (get_agent (ow_world ow) (ow_ego ow)) as [ea|] eqn:Ea; [|rewrite SB in H; discriminate]. split; [discriminate|].
    intros NS id Hin N. destruct SB as (m1 & E1 & S1 & K1 & F1). rewrite E1 in H.
    destruct (match ps_default s with Some d => _ | None => _ end) as [w2|] eqn:D; [|discriminate].
    assert (m_sorted (w_agents w2) /\ map fst (w_agents w2) = map fst (w_agents (ow_world ow))) as [S2 K2].
    { destruct (ps_default s) as [d|]; [|inversion D; subst; auto].
      destruct (default_loop_spec O ns d (ps_agents s) (w_time (set_agents (ow_world ow) m1))
         (get_other_agents (mkObserved (set_agents (ow_world ow) m1) (ow_ego ow))) (set_agents (ow_world ow) m1)) as (m2 & E2 & S2 & K2 & _).
      + apply m_sorted_NoDup. apply m_filter_sorted. exact S1.
      + intros i a Hi. unfold get_agent. apply In_m_find; [apply m_sorted_NoDup, S1|]. apply filter_In in Hi. apply Hi.
      + exact S1.
      + rewrite E2 in D. inversion D; subst w2. split; [exact S2|]. cbn in *. congruence. }
    destruct (ps_specific s) as [m|]; [|congruence].
    rewrite (specific_loop_fails O m (ps_agents s) w2 id S2 Hin) in H; [discriminate|].
    unfold get_agent in *. apply m_find_None_notin. rewrite K2. now apply m_find_None_notin.
  - intros (He & Hg & Hsp). unfold apply_settings. destruct (ps_ego s) as [e|]; [|congruence].
    pose proof (set_behavior_spec (ow_world ow) (ow_ego ow) (b_clone O e) Hs) as SB.
    destruct (get_agent (ow_world ow) (ow_ego ow)) as [ea|] eqn:Ea; [|congruence].
    destruct SB as (m1 & E1 & S1 & K1 & F1). rewrite E1.
    assert (D : exists w2, match ps_default s with None => Some (set_agents (ow_world ow) m1) | Some d => default_loop O ns d (ps_agents s) (w_time (set_agents (ow_world ow) m1))
         (get_other_agents (mkObserved (set_agents (ow_world ow) m1) (ow_ego ow))) (set_agents (ow_world ow) m1) end = Some w2 /\
       m_sorted (w_agents w2) /\ map fst (w_agents w2) = map fst (w_agents (ow_world ow))).
    { destruct (ps_default s) as [d|]; [|eexists; split; [reflexivity|]; auto].
      destruct (default_loop_spec O ns d (ps_agents s) (w_time (set_agents (ow_world ow) m1))
         (get_other_agents (mkObserved (set_agents (ow_world ow) m1) (ow_ego ow))) (set_agents (ow_world ow) m1)) as (m2 & E2 & S2 & K2 & _).
      + apply m_sorted_NoDup. apply m_filter_sorted. exact S1.
      + intros i a Hi. unfold get_agent. apply In_m_find; [apply m_sorted_NoDup, S1|]. apply filter_In in Hi. apply Hi.
      + exact S1.
      + eexists; split; [exact E2|]. split; [exact S2|]. cbn in *. congruence. }
    destruct D as (w2 & -> & S2 & K2). destruct (ps_specific s) as [m|]; [|eexists; reflexivity].
    destruct (specific_loop_spec O m (ps_agents s) w2 S2) as (m3 & E3 & _).
    { intros id Hin. specialize (Hsp ltac:(discriminate) id Hin). unfold get_agent in *. apply keys_in. rewrite K2. now apply keys_in. }
    rewrite E3. eexists; reflexivity.
Qed.
Print Assumptions C44_defined.

Lemma assigned_world_ok : forall (T : Types) (O : Ops T) (ns : tBM T) (s : settings) (ow ow' : observed T),
  world_ok (ow_world ow) -> apply_settings O ns s ow = Some ow' -> world_ok (ow_world ow').
Proof.
  intros T O ns s ow ow' Hok H. pose proof Hok as (Hs & Hk & Hm).
  destruct (C44_assignment T O ns s ow ow' Hs H) as (_ & ((m & Em) & K) & S & A). split; [exact S|]. split.
  - intros k a' Hka. destruct (get_agent (ow_world ow) k) as [a|] eqn:Ea.
    + destruct (A k a Ea) as (b & Eb & _). rewrite Eb in Hka. inversion Hka; subst a'. exact (Hk k a Ea).
    + exfalso. assert (m_find k (w_agents (ow_world ow')) <> None) as X by (unfold get_agent in Hka; congruence).
      apply keys_in in X. rewrite K in X. apply keys_in in X. apply X. exact Ea.
  - rewrite Em. exact Hm.
Qed.

Section NeverStart.
  Context {T : Types} (O : Ops T).
  Lemma never_starts_step w dt w' id (a : agent T) : world_ok w -> get_agent w id = Some a -> never_starts O (ag_bm a) ->
    step O w dt = Some w' -> exists a', get_agent w' id = Some a' /\ ag_hist a' = ag_hist a /\ ag_em a' = ag_em a /\ never_starts O (ag_bm a').
  Proof.
    intros Hok Ha (P & PB & HP) Hst. destruct (step_spec O w dt Hok) as (w2 & E & _ & _ & _ & _ & _ & H7).
    rewrite E in Hst; inversion Hst; subst w2. destruct (H7 id a Ha) as (ow & _ & Hr & Hs).
    assert (PP : P (planned_bm O a (w_time w) dt ow)).
    { unfold planned_bm. destruct (valid_at a (w_time w)); [apply HP, PB|exact PB]. }
    destruct (HP _ PP) as (NSt & _).
    destruct (get_agent w' id) as [a'|] eqn:Ea'.
    - exists a'. split; [reflexivity|]. specialize (Hs a' eq_refl).
      assert (Eb : ag_bm a' = planned_bm O a (w_time w) dt ow).
      { unfold planned_bm. destruct (valid_at a (w_time w)) eqn:V; [exact (st_planned _ _ _ _ _ _ Hs V)|]. now rewrite (st_idle _ _ _ _ _ _ Hs V). }
      destruct (st_frozen _ _ _ _ _ _ Hs) as (F & _). rewrite Eb in *. destruct F as [F1 F2]; [congruence|].
      repeat split; auto. exists P. auto.
    - exfalso. destruct (proj1 Hr eq_refl) as [X|(_ & X & _)]; congruence.
  Qed.
  Lemma never_starts_clone w id (a : agent T) : world_ok w -> get_agent w id = Some a -> never_starts O (ag_bm a) ->
    exists a', get_agent (clone_world O w) id = Some a' /\ ag_hist a' = ag_hist a /\ never_starts O (ag_bm a').
  Proof.
    intros Hok Ha (P & PB & HP). destruct (clone_world_spec O w Hok) as (E & _).
    exists (clone_agent O a). split.
    - unfold get_agent. rewrite E, (m_find_map (agent T) (fun p => clone_agent O (snd p))). unfold get_agent in Ha. now rewrite Ha.
    - split; [reflexivity|]. exists P. split; [apply (HP _ PB)|exact HP].
  Qed.
End NeverStart.

(* C44: an agent that was not live when the settings were applied stays where it is through every later
   sequence of predictions (and of steps), whatever their lengths. *)
Theorem C44_hidden_agents_stay_hidden : forall (T : Types) (O : Ops T) (ns : tBM T) (s : settings) (ow ow' : observed T) d id a,
  world_ok (ow_world ow) -> never_starts O ns -> apply_settings O ns s ow = Some ow' ->
  ps_default s = Some d -> id <> ow_ego ow -> ~ specific s id ->
  get_agent (ow_world ow) id = Some a -> ~ live_at O (ow_world ow) a ->
  forall dts, exists ow2 a2, predictions O ow' dts = Some ow2 /\ get_agent (ow_world ow2) id = Some a2 /\ ag_hist a2 = ag_hist a /\ b_status O (ag_bm a2) = NOT_STARTED_YET.
Proof.
  intros T O ns s ow ow' d id a Hok NS H Hd Hne Hsp Ha NL dts.
  destruct (C44_assignment T O ns s ow ow' (proj1 Hok) H) as (_ & _ & _ & A).
  destruct (A id a Ha) as (b & Eb & AB). rewrite (as_not_started _ _ _ _ _ _ _ AB d Hne Hd NL Hsp) in Eb.
  pose proof (assigned_world_ok T O ns s ow ow' Hok H) as Hok'.
  assert (G : forall dts (w1 : observed T) a1, world_ok (ow_world w1) -> get_agent (ow_world w1) id = Some a1 -> ag_hist a1 = ag_hist a -> never_starts O (ag_bm a1) ->
     exists ow2 a2, predictions O w1 dts = Some ow2 /\ get_agent (ow_world ow2) id = Some a2 /\ ag_hist a2 = ag_hist a /\ b_status O (ag_bm a2) = NOT_STARTED_YET).
  { clear - O. induction dts as [|dt r IH]; intros w1 a1 Ok1 E1 H1 N1; cbn [predictions].
    - exists w1, a1. split; [reflexivity|]. split; [exact E1|]. split; [exact H1|]. destruct N1 as (P & PB & PC). apply PC, PB.
    - unfold predict, clone_observed. cbn [ow_world ow_ego].
      destruct (step_spec O _ dt (clone_world_ok O _ Ok1)) as (w3 & ES & _). rewrite ES. cbn [option_map].
      destruct (never_starts_clone O _ id a1 Ok1 E1 N1) as (a2 & E2 & H2 & N2).
      pose proof (clone_world_ok O _ Ok1) as Ok2.
      destruct (never_starts_step O _ dt w3 id a2 Ok2 E2 N2 ES) as (a3 & E3 & H3 & _ & N3).
      destruct (step_spec O _ dt Ok2) as (w3' & E3' & _ & Ok3 & _). rewrite ES in E3'; inversion E3'; subst w3'.
      apply (IH (mkObserved w3 (ow_ego w1)) a3 Ok3 E3); [congruence|exact N3]. }
  apply (G dts ow' _ Hok' Eb); [reflexivity|exact NS].
Qed.
Print Assumptions C44_hidden_agents_stay_hidden.

(* hypotheses met: toy3 observed by agent 1; agent 2 starts later, agent 7 is expired and listed *)
Definition toy_settings : @settings TT :=
  @mkSettings TT (Some (mkBM VALID 9 0)) (Some (mkBM VALID 4 0)) (Some (mkBM VALID 5 0)) [7%N].
Example C44_toy :
  option_map (fun ow : observed TT => map (fun p : N * agent TT => (fst p, @b_status TT TO (ag_bm (snd p)), @b_last_action TT TO (ag_bm (snd p)))) (w_agents (ow_world ow)))
    (apply_settings TO (mkBM NOT_STARTED_YET 0 0) toy_settings (@mkObserved TT toy3 1%N)) =
  Some [(1%N, VALID, 9%Z); (2%N, NOT_STARTED_YET, 0%Z); (7%N, VALID, 5%Z)].
Proof. vm_compute. reflexivity. Qed.
Example C44_toy_never : never_starts TO (mkBM NOT_STARTED_YET 0 0).
Proof.
  exists (fun b => tb_status b = NOT_STARTED_YET). split; [reflexivity|]. intros b H. split; [exact H|]. split; [|exact H].
  intros dt ow. cbn. unfold toy_plan. destruct (get_agent _ _) as [a|]; [|exact H]. destruct (current_state a); exact H.
Qed.
Example C44_toy_not_live : ~ live_at TO toy3 (toy_agent 2 5 1 VALID 50 (3#1)).
Proof. intros [_ H]. vm_compute in H. discriminate. Qed.

(* * C45: the parametric observer *)
Section Observer.
  Context {T : Types} (O : Ops T) {DS Dev : Type} (sample_ego sample_others : DS -> DS * Dev)
          (perturb : tState T -> Dev -> option (tState T)).
  Lemma iter_succ_r {A} n (f : A -> A) x : Nat.iter (S n) f x = Nat.iter n f (f x).
  Proof. induction n as [|n IH]; [reflexivity|]. change (f (Nat.iter (S n) f x) = f (Nat.iter n f (f x))). now rewrite IH. Qed.
  Lemma set_last_app {A} (l : list A) x f : set_last (l ++ [x]) f = l ++ [f x].
  Proof. induction l as [|y r IH]; [reflexivity|]. cbn [app set_last]. rewrite IH. destruct r; reflexivity. Qed.
  Lemma last_split {A} (l : list A) x : last_opt l = Some x -> exists h, l = h ++ [x].
  Proof.
    induction l as [|y r IH]; [discriminate|]. cbn [last_opt]. destruct r as [|z r].
    - intros H; inversion H. exists []. reflexivity.
    - intros H. destruct (IH H) as (h & E). exists (y :: h). cbn. now rewrite <- E.
  Qed.
  Lemma add_deviation_spec (a a' : agent T) d : add_deviation perturb a d = Some a' ->
    exists s s' h act, current_state a = Some s /\ perturb s d = Some s' /\ ag_hist a = h ++ [(s, act)] /\ a' = set_hist a (h ++ [(s', act)]).
  Proof.
    unfold add_deviation, current_state. destruct (last_opt (ag_hist a)) as [[s act]|] eqn:L; cbn; [|discriminate].
    destruct (perturb s d) as [s'|] eqn:P; [|discriminate]. intros H; inversion H; subst a'.
    destruct (last_split _ _ L) as (h & Eh). exists s, s', h, act. split; [reflexivity|]. split; [exact P|]. split; [exact Eh|].
    unfold set_current_state. rewrite Eh, set_last_app. reflexivity.
  Qed.
  Lemma deviate_others_spec others : forall (g : DS) (w : world T) g' w', m_sorted others -> m_sorted (w_agents w) ->
    (forall id a, In (id, a) others -> get_agent w id = Some a) ->
    deviate_others sample_others perturb g others w = Some (g', w') ->
    g' = after sample_others (length others) g /\ only_agents_changed w w' /\ m_sorted (w_agents w') /\
    forall k, match m_find k others with
      | Some a => exists a', get_agent w' k = Some a' /\
          add_deviation perturb a (snd (sample_others (after sample_others (length (filter (fun p => (fst p <? k)%N) others)) g))) = Some a'
      | None => get_agent w' k = get_agent w k end.
  Proof.
    induction others as [|[id a] r IH]; intros g w g' w' So Sw HI H; cbn [deviate_others] in H.
    - inversion H; subst. cbn. split; [reflexivity|]. split; [split; [exists (w_agents w'); now rewrite set_agents_same|reflexivity]|]. auto.
    - destruct (add_deviation perturb a (snd (sample_others g))) as [a'|] eqn:EA; [|discriminate].
      assert (Ea : get_agent w id = Some a) by (apply HI; now left).
      assert (ND : NoDup (map fst ((id, a) :: r))) by (apply m_sorted_NoDup, So). cbn in ND. inversion ND as [|? ? N1 N2]; subst.
      pose proof (sorted_head_lt _ _ _ So) as HL.
      assert (HI2 : forall k b, In (k, b) r -> get_agent (set_agents w (m_insert id a' (w_agents w))) k = Some b).
      { intros k b Hin. unfold get_agent. cbn [w_agents set_agents].
        rewrite m_find_insert_other; [apply HI; now right|intros ->; apply N1; apply in_map_iff; exists (id, b); auto]. }
      destruct (IH (fst (sample_others g)) (set_agents w (m_insert id a' (w_agents w))) g' w' (sorted_tail _ _ So) (m_insert_sorted id a' _ Sw) HI2 H) as (E1 & ((m & Em) & K) & S' & F).
      split; [rewrite E1; unfold after; cbn [length]; now rewrite iter_succ_r|].
      split; [split; [exists m; rewrite Em; reflexivity|]|].
      { rewrite K. cbn [w_agents set_agents]. apply m_insert_keys_same; auto. apply keys_in. unfold get_agent in Ea. congruence. }
      split; [exact S'|]. intros k. specialize (F k). cbn [m_find]. destruct (N.eqb_spec k id) as [->|NE].
      + assert (Nf : m_find id r = None) by (apply m_find_None_notin; exact N1). rewrite Nf in F.
        exists a'. split; [rewrite F; unfold get_agent; cbn; apply m_find_insert_same|].
        replace (length (filter (fun p => (fst p <? id)%N) ((id, a) :: r))) with 0%nat; [exact EA|].
        symmetry. cbn [filter fst]. rewrite N.ltb_irrefl.
        assert (X : filter (fun p : N * agent T => (fst p <? id)%N) r = []); [|now rewrite X].
        clear - HL. induction r as [|q r IH]; [reflexivity|]. cbn [filter]. assert (L : (id < fst q)%N) by (apply HL; now left).
        destruct (N.ltb_spec (fst q) id); [lia|]. apply IH. intros q' Hq. apply HL. now right.
      + destruct (m_find k r) as [b|] eqn:Er.
        * destruct F as (b' & E2 & E3). exists b'. split; [exact E2|]. cbn [filter fst].
          assert (L : (id < k)%N) by (apply m_find_In in Er; apply (HL (k, b) Er)).
          destruct (N.ltb_spec id k); [|lia]. cbn [length]. unfold after in *. now rewrite iter_succ_r.
        * rewrite F. unfold get_agent. cbn. apply m_find_insert_other, NE.
  Qed.
End Observer.

(* C45: for an agent the observer is not active for, the observation is an exact clone of the world. *)
Theorem C45_not_selected_exact : forall (T : Types) (O : Ops T) DS Dev (se so : DS -> DS * Dev) (pt : tState T -> Dev -> option (tState T))
  (only : list AgentId) ge go w id,
  only <> [] -> ~ In id only ->
  observe_parametric O se so pt only ge go w id = Some (ge, go, mkObserved (clone_world O w) id).
Proof.
  intros. unfold observe_parametric. destruct only as [|o r]; [congruence|].
  destruct (mem id (o :: r)) eqn:M; [|reflexivity]. exfalso. now apply mem_iff in M.
Qed.
Print Assumptions C45_not_selected_exact.

(* C45: otherwise the observation has the same time, agents, map and settings as the world; every agent,
   the ego included, is its clone except that its current state is perturbed; the ego's deviation is one
   draw of the ego distribution, the k-th other agent's (in id order) the k-th draw of the other one. *)
Theorem C45_observation : forall (T : Types) (O : Ops T) DS Dev (se so : DS -> DS * Dev) (pt : tState T -> Dev -> option (tState T))
  (only : list AgentId) ge go w id ge' go' ow,
  world_ok w -> only = [] \/ In id only ->
  observe_parametric O se so pt only ge go w id = Some (ge', go', ow) ->
  ow_ego ow = id /\ only_agents_changed (clone_world O w) (ow_world ow) /\
  ge' = fst (se ge) /\ go' = after so (length (w_agents w) - 1) go /\
  forall k a, get_agent w k = Some a -> exists a' s s' d,
    get_agent (ow_world ow) k = Some a' /\ clone_with_state O a a' s s' /\ pt s d = Some s' /\
    d = (if N.eqb k id then snd (se ge) else snd (so (after so (others_before w id k) go))).
Proof.
  intros T O DS Dev se so pt only ge go w id ge' go' ow Hok Hact H. unfold observe_parametric in H.
  replace (match only with [] => true | _ => mem id only end) with true in H
    by (destruct Hact as [->|Hin]; [reflexivity|]; destruct only; [reflexivity|]; symmetry; now apply mem_iff).
  destruct (clone_world_spec O w Hok) as (EC & _). pose proof (clone_world_ok O w Hok) as (SC & _).
  set (c := clone_world O w) in *.
  assert (FC : forall k, get_agent c k = option_map (clone_agent O) (get_agent w k)).
  { intros k. unfold get_agent. rewrite EC. apply (m_find_map (agent T) (fun p => clone_agent O (snd p))). }
  destruct (get_agent w id) as [e0|] eqn:E0; [|discriminate].
  destruct (get_agent c id) as [e|] eqn:Ee; [|discriminate].
  destruct (add_deviation pt e (snd (se ge))) as [e'|] eqn:De; [|discriminate].
  set (c1 := set_agents c (m_insert id e' (w_agents c))) in *.
  destruct (deviate_others so pt go (get_other_agents (mkObserved c1 id)) c1) as [[g2 c2]|] eqn:DO; [|discriminate].
  inversion H; subst ge' go' ow; clear H. cbn [ow_ego ow_world].
  assert (S1 : m_sorted (w_agents c1)) by (apply m_insert_sorted, SC).
  assert (K1 : map fst (w_agents c1) = map fst (w_agents c)).
  { apply m_insert_keys_same; auto. apply keys_in. unfold get_agent in Ee. congruence. }
  destruct (deviate_others_spec so pt (get_other_agents (mkObserved c1 id)) go c1 g2 c2) as (G & ((m & Em) & K) & S2 & F).
  { apply m_filter_sorted, S1. } { exact S1. }
  { intros k a Hin. unfold get_agent. apply In_m_find; [apply m_sorted_NoDup, S1|]. apply filter_In in Hin. apply Hin. }
  { exact DO. }
  assert (KC : map fst (w_agents c) = map fst (w_agents w)) by (rewrite EC, map_map; reflexivity).
  (* counting through the ids *)
  assert (CNT : forall (f : N -> bool) (l1 l2 : kmap (agent T)), map fst l1 = map fst l2 ->
     length (filter (fun p => f (fst p)) l1) = length (filter (fun p => f (fst p)) l2)).
  { clear. intros f l1. induction l1 as [|p r IH]; intros [|q r2] E; try discriminate; [reflexivity|]. cbn in E. inversion E as [[E1 E2]].
    cbn [filter]. rewrite E1. destruct (f (fst q)); cbn [length]; rewrite (IH r2 E2); reflexivity. }
  split; [reflexivity|]. split; [split; [exists m; rewrite Em; reflexivity|congruence]|]. split; [reflexivity|]. split.
  - rewrite G. f_equal. unfold get_other_agents. cbn [ow_world ow_ego]. unfold m_erase.
    pose proof (CNT (fun i => negb (N.eqb i id)) (w_agents c1) (w_agents w) ltac:(congruence)) as X. cbn beta in X.
    transitivity (length (filter (fun p : N * agent T => negb (N.eqb (fst p) id)) (w_agents w))).
    { rewrite <- X. reflexivity. }
    assert (NDw : NoDup (map fst (w_agents w))) by (apply m_sorted_NoDup, (proj1 Hok)).
    assert (Iw : In id (map fst (w_agents w))) by (apply keys_in; unfold get_agent in E0; congruence).
    clear - NDw Iw. induction (w_agents w) as [|[i x] r IH]; [destruct Iw|]. cbn [map fst] in *. inversion NDw as [|? ? N1 N2]; subst.
    cbn [filter fst length]. destruct (N.eqb_spec i id) as [->|NE]; cbn [negb].
    + rewrite Nat.sub_succ, Nat.sub_0_r. f_equal. clear - N1. induction r as [|q r IH]; [reflexivity|]. cbn [filter].
      destruct (N.eqb_spec (fst q) id) as [E|E]; cbn [negb]; [exfalso; apply N1; left; exact E|]. f_equal. apply IH. intros Q. apply N1. now right.
    + destruct Iw as [Q|Iw]; [congruence|]. cbn [length]. rewrite IH by assumption. destruct r; [destruct Iw|]. cbn. lia.
  - intros k a Ha. specialize (F k). unfold get_other_agents in F. cbn [ow_world ow_ego] in F.
    destruct (N.eqb_spec k id) as [->|NE].
    + rewrite m_find_erase_same in F. rewrite E0 in Ha; inversion Ha; subst e0.
      rewrite FC, E0 in Ee. cbn in Ee. inversion Ee; subst e. apply add_deviation_spec in De as (s & s' & h & act & _ & P & Hh & Ea').
      exists e', s, s', (snd (se ge)). split; [rewrite F; unfold get_agent, c1; cbn; apply m_find_insert_same|].
      split; [|auto]. exists h, act. split; [exact Hh|]. exact Ea'.
    + rewrite m_find_erase_other in F by exact NE. unfold c1 in F at 1. cbn [w_agents set_agents] in F.
      rewrite m_find_insert_other in F by exact NE. fold (get_agent c k) in F. rewrite FC, Ha in F. cbn [option_map] in F.
      destruct F as (a' & E2 & AD). apply add_deviation_spec in AD as (s & s' & h & act & _ & P & Hh & Ea').
      exists a', s, s'. eexists. split; [exact E2|]. split; [exists h, act; auto|]. split; [exact P|]. do 3 f_equal.
      unfold others_before, m_erase.
      pose proof (CNT (fun i => negb (N.eqb i id) && (i <? k)%N) (w_agents c1) (w_agents w) ltac:(congruence)) as X. cbn beta in X.
      rewrite <- X. clear. induction (w_agents c1) as [|q r IH]; [reflexivity|]. cbn [filter].
      destruct (N.eqb_spec (fst q) id) as [E|E]; cbn [negb andb filter]; [exact IH|].
      destruct (fst q <? k)%N; cbn [length]; congruence.
Qed.
Print Assumptions C45_observation.

(* C45: an active observation of an agent that is not in the world throws; one of an agent in the world
   succeeds whenever the drawn deviations have at least the needed components. *)
Theorem C45_missing_agent : forall (T : Types) (O : Ops T) DS Dev (se so : DS -> DS * Dev) (pt : tState T -> Dev -> option (tState T))
  (only : list AgentId) ge go w id,
  only = [] \/ In id only -> get_agent w id = None -> observe_parametric O se so pt only ge go w id = None.
Proof.
  intros T O DS Dev se so pt only ge go w id Hact E. unfold observe_parametric.
  replace (match only with [] => true | _ => mem id only end) with true
    by (destruct Hact as [->|Hin]; [reflexivity|]; destruct only; [reflexivity|]; symmetry; now apply mem_iff).
  now rewrite E.
Qed.
Print Assumptions C45_missing_agent.

Theorem C45_succeeds : forall (T : Types) (O : Ops T) DS Dev (se so : DS -> DS * Dev) (pt : tState T -> Dev -> option (tState T))
  (only : list AgentId) ge go w id,
  world_ok w -> get_agent w id <> None -> (forall s d, pt s d <> None) ->
  exists r, observe_parametric O se so pt only ge go w id = Some r.
Proof.
  intros T O DS Dev se so pt only ge go w id Hok Hid Hpt. unfold observe_parametric.
  destruct (match only with [] => true | _ => mem id only end); [|eexists; reflexivity].
  destruct (clone_world_spec O w Hok) as (EC & _). pose proof (clone_world_ok O w Hok) as Okc.
  destruct (get_agent w id) as [e0|] eqn:E0; [|congruence].
  assert (Ee : get_agent (clone_world O w) id = Some (clone_agent O e0)).
  { unfold get_agent in *. rewrite EC, (m_find_map (agent T) (fun p => clone_agent O (snd p))), E0. reflexivity. }
  rewrite Ee.
  assert (AD : forall a d, agent_ok a -> exists a', add_deviation pt a d = Some a').
  { intros a d Ha. destruct (agent_ok_current a Ha) as (s & Es). unfold add_deviation. rewrite Es.
    destruct (pt s d) eqn:P; [eexists; reflexivity|]. now apply Hpt in P. }
  destruct (AD (clone_agent O e0) (snd (se ge))) as (e' & De); [exact (proj2 (proj1 (proj2 Okc) id _ Ee))|]. rewrite De.
  assert (L : forall others (g : DS) (w' : world T), Forall (fun p => agent_ok (snd p)) others -> exists r, deviate_others so pt g others w' = Some r).
  { induction others as [|[i a] r IH]; intros g w' HF; cbn; [eexists; reflexivity|]. inversion HF as [|? ? H1 H2]; subst.
    destruct (AD a (snd (so g)) H1) as (a' & ->). apply IH, H2. }
  set (c1 := set_agents _ _).
  destruct (L (get_other_agents (mkObserved c1 id)) go c1) as ([g2 c2] & ->); [|eexists; reflexivity].
  apply Forall_forall. intros [k a] Hin. cbn. apply filter_In in Hin as [Hin NE]. cbn in NE, Hin.
  apply m_insert_In_keys in Hin as [E|Hin].
  - inversion E; subst. rewrite N.eqb_refl in NE. discriminate.
  - apply (In_m_find k a) in Hin; [|apply m_sorted_NoDup, (proj1 Okc)]. exact (proj2 (proj1 (proj2 Okc) k a Hin)).
Qed.
Print Assumptions C45_succeeds.

Definition toy_perturb (s : Z) (d : Z) : option Z := Some (s + d)%Z.
Definition toy_sample (g : Z) : Z * Z := ((g + 1)%Z, (10 * g)%Z).
Example C45_toy :
  option_map (fun r : Z * Z * observed TT => (fst r, map (fun p => (fst p, map fst (ag_hist (snd p)))) (w_agents (ow_world (snd r)))))
    (observe_parametric TO (DS := Z) (Dev := Z) toy_sample toy_sample toy_perturb [] 1%Z 5%Z toy3 2%N)
  = Some ((2%Z, 7%Z), [(1%N, [50%Z]); (2%N, [15%Z]); (7%N, [56%Z])]).
Proof. vm_compute. reflexivity. Qed.

(* C45: the state deviation on (time, x, y, theta, v): the time is kept, heading and speed get the third
   and fourth component, the first component moves the position along the heading. *)
Theorem C45_deviation : forall s d0 d1 d2 d3 rest, exists s',
  deviate s (d0 :: d1 :: d2 :: d3 :: rest) = Some s' /\
  rs_time s' = rs_time s /\ (rs_theta s' = rs_theta s + d2)%R /\ (rs_v s' = rs_v s + d3)%R /\
  (* along the heading *)
  ((rs_x s' - rs_x s) * cos (rs_theta s) + (rs_y s' - rs_y s) * sin (rs_theta s) = d0 + d1 * sin (2 * rs_theta s))%R /\
  (* to the left of the heading *)
  ((rs_y s' - rs_y s) * cos (rs_theta s) - (rs_x s' - rs_x s) * sin (rs_theta s) = d1 * cos (2 * rs_theta s))%R.
Proof.
  intros s d0 d1 d2 d3 rest. eexists. split; [reflexivity|]. cbn [rs_time rs_theta rs_v rs_x rs_y].
  repeat (split; [reflexivity|]). pose proof (sin2_cos2 (rs_theta s)) as S. unfold Rsqr in S.
  rewrite sin_2a, cos_2a. split.
  - transitivity (d0 * (sin (rs_theta s) * sin (rs_theta s) + cos (rs_theta s) * cos (rs_theta s)) + 2 * d1 * (sin (rs_theta s) * cos (rs_theta s)))%R; [ring|]. rewrite S. ring.
  - ring.
Qed.
Print Assumptions C45_deviation.
Theorem C45_too_few_components : forall s d, (length d < 4)%nat -> deviate s d = None.
Proof. intros s [|a [|b [|c [|e r]]]] H; cbn in *; try reflexivity; lia. Qed.
Print Assumptions C45_too_few_components.

(* C45, refuted: the second component is meant as a deviation orthogonal to the heading; at heading 45
   degrees it moves the vehicle exactly along its heading and not sideways at all. *)
Theorem C45_orthogonal_refuted :
  exists s d1 s', deviate s [0%R; d1; 0%R; 0%R] = Some s' /\ (d1 <> 0)%R /\
    ((rs_x s' - rs_x s) * cos (rs_theta s) + (rs_y s' - rs_y s) * sin (rs_theta s) = d1)%R /\
    ((rs_y s' - rs_y s) * cos (rs_theta s) - (rs_x s' - rs_x s) * sin (rs_theta s) = 0)%R.
Proof.
  destruct (C45_deviation (mkRS 0 0 0 (PI / 4) 0) 0 1 0 0 []) as (s' & E & _ & _ & _ & L & Ort).
  exists (mkRS 0 0 0 (PI / 4) 0), 1%R, s'. split; [exact E|]. split; [lra|].
  cbn [rs_theta rs_x rs_y rs_time rs_v] in L, Ort |- *.
  replace (2 * (PI / 4))%R with (PI / 2)%R in * by field. rewrite sin_PI2 in L. rewrite cos_PI2 in Ort. split; lra.
Qed.
Print Assumptions C45_orthogonal_refuted.
(* the exact condition under which it is orthogonal *)
Theorem C45_orthogonal_iff : forall s d1 s', deviate s [0%R; d1; 0%R; 0%R] = Some s' -> (d1 <> 0)%R ->
  (((rs_x s' - rs_x s) * cos (rs_theta s) + (rs_y s' - rs_y s) * sin (rs_theta s) = 0)%R <-> sin (2 * rs_theta s) = 0%R).
Proof.
  intros s d1 s' H Hd. destruct (C45_deviation s 0 d1 0 0 []) as (s2 & E & _ & _ & _ & L & _).
  rewrite E in H; inversion H; subst s2. rewrite L. split; intros X.
  - assert (d1 * sin (2 * rs_theta s) = 0)%R as Y by lra. apply Rmult_integral in Y as [Y|Y]; [contradiction|exact Y].
  - rewrite X. lra.
Qed.
Print Assumptions C45_orthogonal_iff.

(* * C57: the views an observed world offers *)
Theorem C57_other_agents : forall (T : Types) (O : Ops T) (ow : observed T), m_sorted (w_agents (ow_world ow)) ->
  forall k a,
  (m_find k (get_other_agents ow) = Some a <-> k <> ow_ego ow /\ get_agent (ow_world ow) k = Some a) /\
  (m_find k (get_valid_other_agents O ow) = Some a <->
     k <> ow_ego ow /\ get_agent (ow_world ow) k = Some a /\ live_at O (ow_world ow) a).
Proof.
  intros T O ow Hs k a. unfold get_other_agents, get_valid_other_agents. destruct (N.eq_dec k (ow_ego ow)) as [->|NE].
  - rewrite !m_find_erase_same. split; (split; [discriminate|]); intros [X _]; congruence.
  - rewrite !m_find_erase_other by exact NE. split; [unfold get_agent; intuition|].
    rewrite (valid_agents_iff O (ow_world ow) k a Hs). intuition.
Qed.
Print Assumptions C57_other_agents.

(* C57: ObserveForOtherAgent is the same world seen from the other agent. *)
Theorem C57_observe_for_other : forall (T : Types) (O : Ops T) (ow : observed T) other, world_ok (ow_world ow) ->
  ow_ego (observe_for_other O ow other) = other /\
  w_time (ow_world (observe_for_other O ow other)) = w_time (ow_world ow) /\
  forall k, get_agent (ow_world (observe_for_other O ow other)) k = option_map (clone_agent O) (get_agent (ow_world ow) k).
Proof.
  intros T O ow other Hok. destruct (clone_world_spec O _ Hok) as (E & Et & _). cbn. split; [reflexivity|]. split; [exact Et|].
  intros k. unfold get_agent. rewrite E. apply (m_find_map (agent T) (fun p => clone_agent O (snd p))).
Qed.
Print Assumptions C57_observe_for_other.

(* C57: Predict keeps the ego, advances the time by the time span and treats each agent as one step of the
   simulation treats its clone. *)
Theorem C57_predict : forall (T : Types) (O : Ops T) (ow : observed T) dt, world_ok (ow_world ow) ->
  exists ow', predict O ow dt = Some ow' /\ ow_ego ow' = ow_ego ow /\ world_ok (ow_world ow') /\
    w_time (ow_world ow') = w_time (ow_world ow) + dt /\
    (forall id, get_agent (ow_world ow) id = None -> get_agent (ow_world ow') id = None) /\
    (forall id a, get_agent (ow_world ow) id = Some a ->
      exists o, observation_of O (clone_world O (ow_world ow)) id o /\
        forall a', get_agent (ow_world ow') id = Some a' -> agent_stepped O (w_time (ow_world ow)) dt o (clone_agent O a) a').
Proof.
  intros T O ow dt Hok. pose proof (clone_world_ok O _ Hok) as Okc. destruct (clone_world_spec O _ Hok) as (E & Et & _).
  assert (FC : forall k, get_agent (clone_world O (ow_world ow)) k = option_map (clone_agent O) (get_agent (ow_world ow) k)).
  { intros k. unfold get_agent. rewrite E. apply (m_find_map (agent T) (fun p => clone_agent O (snd p))). }
  destruct (step_spec O _ dt Okc) as (w' & Es & Tm & Ok' & _ & _ & Hn & Ha).
  exists (mkObserved w' (ow_ego ow)). unfold predict, clone_observed. cbn [ow_world ow_ego]. rewrite Es. cbn [option_map].
  split; [reflexivity|]. split; [reflexivity|]. split; [exact Ok'|]. split; [rewrite Tm, Et; reflexivity|]. split.
  - intros id N. apply Hn. now rewrite FC, N.
  - intros id a A. destruct (Ha id (clone_agent O a)) as (o & Ho & _ & Hs); [now rewrite FC, A|]. exists o. split; [exact Ho|].
    rewrite Et in Hs. exact Hs.
Qed.
Print Assumptions C57_predict.

(* C57: GetWorldAtTime: a clone in which every agent's execution is evaluated at the given time (if its
   behaviour is VALID) and one entry is appended to every history; the world time itself is NOT changed. *)
Theorem C57_world_at_time : forall (T : Types) (O : Ops T) (w : world T) t, world_ok w ->
  w_time (get_world_at_time O w t) = w_time w /\
  (forall k, get_agent w k = None -> get_agent (get_world_at_time O w t) k = None) /\
  forall k a, get_agent w k = Some a -> exists a',
    get_agent (get_world_at_time O w t) k = Some a' /\
    ag_bm a' = b_clone O (ag_bm a) /\
    ag_em a' = (match b_status O (b_clone O (ag_bm a)) with
                | VALID => e_execute O (e_clone O (ag_em a)) t (b_last_traj O (b_clone O (ag_bm a))) (d_clone O (ag_dm a))
                | _ => e_clone O (ag_em a) end) /\
    ag_hist a' = window (kept a) (ag_hist a ++ [(e_state O (ag_em a'), b_last_action O (ag_bm a'))]).
Proof.
  intros T O w t Hok. destruct (clone_world_spec O w Hok) as (E & Et & _). unfold get_world_at_time. cbn [w_time set_agents].
  split; [exact Et|].
  assert (FC : forall k, get_agent (set_agents (clone_world O w) (map (fun p => (fst p, update_state_action O
       (if is_valid (b_status O (ag_bm (snd p))) then plan_execution O (snd p) t else snd p))) (w_agents (clone_world O w)))) k =
     option_map (fun a => update_state_action O (if is_valid (b_status O (b_clone O (ag_bm a))) then plan_execution O (clone_agent O a) t else clone_agent O a)) (get_agent w k)).
  { intros k. unfold get_agent. cbn [w_agents set_agents]. rewrite E.
    rewrite (m_find_map (agent T) (fun p => update_state_action O (if is_valid (b_status O (ag_bm (snd p))) then plan_execution O (snd p) t else snd p))).
    rewrite (m_find_map (agent T) (fun p => clone_agent O (snd p))). destruct (m_find k (w_agents w)); reflexivity. }
  split; [intros k N; now rewrite FC, N|]. intros k a Ha.
  destruct (proj1 (proj2 Hok) k a Ha) as [_ Hao].
  rewrite FC, Ha. cbn [option_map]. eexists. split; [reflexivity|].
  set (a1 := if is_valid (b_status O (b_clone O (ag_bm a))) then plan_execution O (clone_agent O a) t else clone_agent O a).
  assert (Ha1 : agent_ok a1 /\ kept a1 = kept a /\ ag_hist a1 = ag_hist a /\ ag_bm a1 = b_clone O (ag_bm a) /\ ag_em a1 = match b_status O (b_clone O (ag_bm a)) with
                | VALID => e_execute O (e_clone O (ag_em a)) t (b_last_traj O (b_clone O (ag_bm a))) (d_clone O (ag_dm a))
                | _ => e_clone O (ag_em a) end).
  { unfold a1. destruct (b_status O (b_clone O (ag_bm a))); cbn; (split; [exact Hao|]); auto. }
  destruct Ha1 as (A1 & A2 & A3 & A4 & A5). rewrite (update_hist_window O a1 A1). cbn [ag_bm ag_em update_state_action set_hist].
  rewrite A2, A3, A4, A5. auto.
Qed.
Print Assumptions C57_world_at_time.
Example C57_toy :
  map fst (get_other_agents (@mkObserved TT toy3 1%N)) = [2%N; 7%N] /\
  map fst (get_valid_other_agents TO (@mkObserved TT toy3 2%N)) = [1%N] /\
  map (fun p => (fst p, map fst (ag_hist (snd p)))) (w_agents (get_world_at_time TO toy3 1)) = [(1%N, [0%Z; 0%Z]); (2%N, [5%Z; 0%Z]); (7%N, [(-4)%Z; 0%Z])].
Proof. vm_compute. repeat split. Qed.
