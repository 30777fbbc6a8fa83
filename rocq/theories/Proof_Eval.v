From Coq Require Import List NArith ZArith QArith Bool Lia Permutation.
From Verif Require Import Model_Map Proof_Map Model_World Spec_World Proof_World Proof_World2
  Model_Eval Spec_Eval.
Import ListNotations.

Section P.
  Context {T : Types} (O : Ops T).
  Variable pos : tState T -> tPoint T.
  Variable hit : tShape T -> tState T -> tShape T -> tState T -> bool.
  Notation agent := (agent T). Notation world := (world T).
  Implicit Types (w : world).

  Definition hits (id1 : AgentId) sh1 s1 (p : N * agent) : Prop :=
    fst p <> id1 /\ exists s2, current_state (snd p) = Some s2 /\ hit sh1 s1 (ag_shape (snd p)) s2 = true.

  Definition all_cur (l : kmap agent) : Prop := forall p, In p l -> exists s, current_state (snd p) = Some s.

  Lemma inner_false id1 sh1 s1 l : all_cur l ->
    exists b, inner_loop hit id1 sh1 s1 l false = Some b /\
      (b = true <-> exists p, In p l /\ hits id1 sh1 s1 p).
  Proof.
    induction l as [|[id2 a2] r IH]; intros C; cbn [inner_loop].
    - exists false. split; [reflexivity|]. split; [discriminate|intros (p & [] & _)].
    - destruct (C (id2, a2)) as [s2 E]; [now left|]. cbn [snd] in E. rewrite E.
      destruct IH as (b & Hb & Hi); [intros p Hp; apply C; now right|].
      destruct (negb (N.eqb id2 id1) && hit sh1 s1 (ag_shape a2) s2) eqn:G.
      + exists true. split; [reflexivity|]. split; [|reflexivity]. intros _.
        apply andb_true_iff in G as [G1 G2]. exists (id2, a2). split; [now left|].
        split; [apply negb_true_iff, N.eqb_neq in G1; exact G1|]. exists s2; auto.
      + exists b. split; [exact Hb|]. rewrite Hi. split; intros (p & Hp & Hh).
        * exists p; split; [now right|exact Hh].
        * destruct Hp as [<-|Hp]; [|exists p; auto]. exfalso.
          destruct Hh as [H1 (s' & H2 & H3)]. cbn [fst snd] in *. rewrite E in H2. injection H2 as <-.
          apply N.eqb_neq in H1. rewrite H1, H3 in G. discriminate.
  Qed.

  Lemma inner_true id1 sh1 s1 l : all_cur l -> inner_loop hit id1 sh1 s1 l true = Some true.
  Proof.
    destruct l as [|[id2 a2] r]; intros C; cbn [inner_loop]; [reflexivity|].
    destruct (C (id2, a2)) as [s2 E]; [now left|]. cbn [snd] in E. rewrite E.
    destruct (negb _ && _); reflexivity.
  Qed.

  Lemma outer_spec all l c : all_cur all -> all_cur l ->
    exists b, outer_loop hit all l c = Some b /\
      (b = true <-> (c = true \/ exists q s1, In q l /\ current_state (snd q) = Some s1 /\
                     exists p, In p all /\ hits (fst q) (ag_shape (snd q)) s1 p)).
  Proof.
    intros CA; revert c; induction l as [|[id1 a1] r IH]; intros c C; cbn [outer_loop].
    - exists c. split; [reflexivity|]. split; [auto|]. intros [H|(q & s1 & [] & _)]. exact H.
    - destruct (C (id1, a1)) as [s1 E]; [now left|]. cbn [snd] in E. rewrite E.
      assert (C' : all_cur r) by (intros p Hp; apply C; now right).
      destruct c.
      + rewrite inner_true by exact CA. destruct (IH true C') as (b & Hb & Hi).
        exists b. split; [exact Hb|]. split; [auto|]. intros _. apply Hi; auto.
      + destruct (inner_false id1 (ag_shape a1) s1 all CA) as (b1 & Hb1 & Hi1). rewrite Hb1.
        destruct (IH b1 C') as (b & Hb & Hi). exists b. split; [exact Hb|]. rewrite Hi, Hi1. split.
        * intros [H|(q & s & Hq & H)].
          -- right. exists (id1, a1), s1. split; [now left|]. split; [exact E|exact H].
          -- right. exists q, s. split; [now right|exact H].
        * intros [H|(q & s & [<-|Hq] & Hs & H)]; [discriminate| |].
          -- left. cbn [snd fst] in *. rewrite E in Hs; injection Hs as <-. exact H.
          -- right. exists q, s; auto.
  Qed.

  Lemma valid_all_cur w : world_ok w -> all_cur (get_valid_agents O w).
  Proof.
    intros Hok [k a] Hin. unfold get_valid_agents in Hin. apply filter_In in Hin as [Hin _].
    destruct (world_ok_In _ _ _ Hok Hin) as [_ H]. apply agent_ok_current, H.
  Qed.

  Lemma valid_In w k a : world_ok w ->
    (In (k, a) (get_valid_agents O w) <-> (get_agent w k = Some a /\ live_at O w a)).
  Proof.
    intros Hok. rewrite <- (valid_agents_iff O w k a (proj1 Hok)). symmetry. apply m_find_iff.
    apply m_filter_sorted, (proj1 Hok).
  Qed.

  Lemma collision_agents_spec w : world_ok w ->
    exists b, eval_collision_agents O hit w = Some b /\
      (b = true <-> exists i j, colliding_pair O hit w i j).
  Proof.
    intros Hok. destruct (outer_spec _ _ false (valid_all_cur w Hok) (valid_all_cur w Hok)) as (b & Hb & Hi).
    exists b. split; [exact Hb|]. rewrite Hi. split.
    - intros [H|([i a] & sa & Hq & Hs & [j b'] & Hp & Hne & sb & Hsb & Hh)]; [discriminate|].
      cbn [fst snd] in *. apply valid_In in Hq as [Ha La]; [|exact Hok]. apply valid_In in Hp as [Hb' Lb]; [|exact Hok].
      exists i, j. exists a, b', sa, sb. repeat (split; auto).
    - intros (i & j & a & b' & sa & sb & Hne & Ha & Hb' & La & Lb & Hsa & Hsb & Hh). right.
      exists (i, a), sa. split; [apply valid_In; auto|]. split; [exact Hsa|].
      exists (j, b'). split; [apply valid_In; auto|]. split; [cbn; congruence|]. exists sb; auto.
  Qed.

  Lemma ego_loop_spec ego sh s l : all_cur l ->
    exists b, ego_loop hit ego sh s l = Some b /\
      (b = true <-> exists p s2, In p l /\ ag_id (snd p) <> ego /\ current_state (snd p) = Some s2 /\
                      hit sh s (ag_shape (snd p)) s2 = true).
  Proof.
    induction l as [|[k a] r IH]; intros C; cbn [ego_loop].
    - exists false. split; [reflexivity|]. split; [discriminate|]. intros (p & s2 & [] & _).
    - destruct IH as (b & Hb & Hi); [intros p Hp; apply C; now right|].
      destruct (N.eqb_spec ego (ag_id a)) as [E|E].
      + exists b. split; [exact Hb|]. rewrite Hi. split; intros (p & s2 & Hp & H).
        * exists p, s2; split; [now right|exact H].
        * destruct Hp as [<-|Hp]; [cbn in H; destruct H as [H _]; congruence|]. exists p, s2; auto.
      + destruct (C (k, a)) as [s2 E2]; [now left|]. cbn [snd] in E2. rewrite E2.
        destruct (hit sh s (ag_shape a) s2) eqn:G.
        * exists true. split; [reflexivity|]. split; [|reflexivity]. intros _. exists (k, a), s2.
          split; [now left|]. cbn [snd]. auto.
        * exists b. split; [exact Hb|]. rewrite Hi. split; intros (p & s3 & Hp & H).
          -- exists p, s3; split; [now right|exact H].
          -- destruct Hp as [<-|Hp]; [|exists p, s3; auto]. cbn [snd] in H. destruct H as (_ & H1 & H2).
             rewrite E2 in H1; injection H1 as <-. congruence.
  Qed.

  Lemma nodup_incl_full (l : list N) (m : list N) : NoDup l -> length l = length m -> incl l m -> incl m l.
  Proof. intros. apply NoDup_length_incl; auto. lia. Qed.

  Lemma collision_ego_spec w ego dist : world_ok w -> index_fresh O w -> knn_contract O dist ->
    exists b, eval_collision_ego O pos hit w ego = Some b /\
      (b = true -> ego_collides O hit w ego) /\
      ((length (w_agents w) <= 4)%nat -> ego_collides O hit w ego -> b = true).
  Proof.
    intros Hok Hf Hc. unfold eval_collision_ego. destruct (get_agent w ego) as [a|] eqn:Ea.
    2:{ exists false. split; [reflexivity|]. split; [discriminate|].
        intros _ (j & a & b & sa & sb & _ & H & _). congruence. }
    pose proof Hok as (Hs & Hk & _). destruct (Hk ego a Ea) as [Hid Hao].
    destruct (agent_ok_current _ Hao) as [s Es]. rewrite Es.
    destruct (nearest_spec O w dist (pos s) 4 Hs Hf Hc) as (m & cs & Hm & Hms & Hnd & Hlen & Hin & _ & Hfind).
    rewrite Hm. assert (Cm : all_cur m).
    { intros [k b] Hb. apply m_find_iff in Hb; [|exact Hms]. apply Hfind in Hb as (_ & Hb & _).
      destruct (Hk k b Hb) as [_ H]. apply agent_ok_current, H. }
    destruct (ego_loop_spec ego (ag_shape a) s m Cm) as (b & Hb & Hi). exists b. split; [exact Hb|].
    split.
    - intros Ht. apply Hi in Ht as ([j b'] & s2 & Hp & Hne & Hs2 & Hh). cbn [snd] in *.
      apply m_find_iff in Hp; [|exact Hms]. apply Hfind in Hp as (_ & Hp & Hl).
      destruct (Hk j b' Hp) as [Hj _]. exists j, a, b', s, s2. split; [congruence|]. auto 10.
    - intros Hle (j & a' & b' & sa & sb & Hne & Ha & Hb' & Hl & Hsa & Hsb & Hh). rewrite Ea in Ha. injection Ha as <-.
      rewrite Es in Hsa; injection Hsa as <-. apply Hi. exists (j, b'), sb. cbn [snd].
      split; [|repeat split; auto; destruct (Hk j b' Hb') as [-> _]; congruence].
      apply m_find_iff; [exact Hms|]. apply Hfind. split; [|auto].
      assert (Hfull : incl (map fst (w_agents w)) cs).
      { apply (nodup_incl_full cs); [exact Hnd| |].
        - etransitivity; [exact Hlen|]. rewrite map_length. apply Nat.min_r. exact Hle.
        - intros i Hi'. apply Hin in Hi'. destruct (get_agent w i) as [x|] eqn:Ex; [|congruence].
          apply m_find_In in Ex. apply in_map_iff. exists (i, x); auto. }
      apply Hfull. apply m_find_In in Hb'. apply in_map_iff. exists (j, b'); auto.
  Qed.

  (* the number-of-agents set *)
  Lemma number_fold_sorted (l : kmap agent) (s : kmap unit) : m_sorted s ->
    m_sorted (fold_left (fun s p => m_insert (fst p) tt s) l s).
  Proof. revert s; induction l as [|p r IH]; intros s H; cbn; [exact H|]. apply IH, m_insert_sorted, H. Qed.

  Lemma keys_insert (k i : N) (s : kmap unit) : In i (map fst (m_insert k tt s)) <-> i = k \/ In i (map fst s).
  Proof.
    assert (D : forall m : kmap unit, In i (map fst m) <-> m_find i m <> None).
    { intros m. destruct (m_find i m) eqn:E.
      - split; [discriminate|]. intros _. apply m_find_In in E. apply in_map_iff. exists (i, u); auto.
      - apply m_find_None_notin in E. split; [tauto|congruence]. }
    rewrite !D. destruct (N.eq_dec i k) as [->|Hne].
    - rewrite m_find_insert_same. split; [auto|discriminate].
    - rewrite m_find_insert_other by exact Hne. tauto.
  Qed.

  Lemma number_fold_keys (l : kmap agent) : forall (s : kmap unit) i,
    In i (map fst (fold_left (fun s p => m_insert (fst p) tt s) l s)) <->
    In i (map fst s) \/ In i (map fst l).
  Proof.
    induction l as [|p r IH]; intros s i; cbn [fold_left map]; [cbn; tauto|].
    rewrite IH, keys_insert. cbn [In]. intuition congruence.
  Qed.

  Lemma view_transparent w id : world_ok w -> transparent_observer O ->
    (get_agent w id = None -> eval_view O w id = None) /\
    (forall a, get_agent w id = Some a -> exists ow, eval_view O w id = Some ow /\
        ow_ego ow = id /\ world_ok (ow_world ow) /\
        map fst (w_agents (ow_world ow)) = map fst (w_agents w) /\
        (forall k, get_agent (ow_world ow) k =
                   option_map (fun a => clone_agent O (clone_agent O a)) (get_agent w k))).
  Proof.
    intros Hok Ht. unfold eval_view. split; [intros ->; reflexivity|].
    intros a Ha. rewrite Ha. unfold observe_world. cbn [observe_ids].
    pose proof (clone_world_ok O w Hok) as Hok1. pose proof (clone_world_ok O _ Hok1) as Hok2.
    destruct (clone_world_spec O w Hok) as (E1 & _). destruct (clone_world_spec O _ Hok1) as (E2 & _).
    assert (G : get_agent (clone_world O w) id = Some (clone_agent O a)).
    { unfold get_agent. rewrite E1, m_find_map. unfold get_agent in Ha. rewrite Ha. reflexivity. }
    rewrite G. rewrite Ht. cbn [fst snd hd_error]. eexists. split; [reflexivity|].
    cbn [ow_ego ow_world]. split; [reflexivity|]. split; [exact Hok2|]. split.
    - rewrite E2, E1, !map_map. reflexivity.
    - intros k. unfold get_agent. rewrite E2, m_find_map, E1, m_find_map.
      cbn [snd]. destruct (m_find k (w_agents w)); reflexivity.
  Qed.
End P.
