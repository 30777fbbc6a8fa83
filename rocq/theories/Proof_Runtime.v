From Coq Require Import String List NArith ZArith QArith Bool Arith Lia.
From Verif Require Import Model_Map Proof_Map Model_Heap Spec_Heap Proof_Heap Model_Runtime Spec_Runtime Proof_Frame Props_Heap Proof_Scenario.
Import ListNotations.
Local Open Scope nat_scope.
Local Open Scope list_scope.

Section Hist.
  Context {D H : Type} (copy : D -> D).
  Notation heap := (heap D H).
  Notation hget := (hget D H).
  Notation hset := (hset D H).
  Notation CModel := (CModel D H).
  Notation CAgent := (CAgent D H).
  Notation payload := (payload D H).

  (* ** objects refer to existing objects *)
  Definition closed (h : heap) : Prop := forall x c y, hget h x = Some c -> In y (refs c) -> y < length h.

  (* same objects with the same references *)
  Definition skel (c : cell D H) : list loc + (N * list loc) :=
    match c with
    | Model_Heap.CModel _ _ _ subs => inl subs
    | Model_Heap.CAgent _ _ a =>
        inr (ha_id H a, ha_bm H a :: ha_dm H a :: ha_em H a :: match ha_goal H a with Some g => [g] | None => [] end)
    end.
  Definition reshaped (h h' : heap) : Prop :=
    length h' = length h /\ forall x, option_map skel (hget h' x) = option_map skel (hget h x).
  Lemma reshaped_refl h : reshaped h h. Proof. split; reflexivity. Qed.
  Lemma reshaped_trans a b c : reshaped a b -> reshaped b c -> reshaped a c.
  Proof. intros [L S] [L' S']. split; [lia|]. intros x. now rewrite S', S. Qed.
  Lemma skel_refs c c' : skel c = skel c' -> refs c = refs c'.
  Proof. destruct c as [d s|a], c' as [d' s'|a']; cbn; intros E; try discriminate; injection E; auto. intros. congruence. Qed.

  Lemma reshaped_get h h' x c : reshaped h h' -> hget h x = Some c -> exists c', hget h' x = Some c' /\ skel c' = skel c.
  Proof.
    intros [L S] E. specialize (S x). rewrite E in S. cbn in S.
    destruct (Model_Heap.hget D H h' x) as [c'|]; [|discriminate]. injection S as S. eauto.
  Qed.
  Lemma reshaped_sym h h' : reshaped h h' -> reshaped h' h.
  Proof. intros [L S]. split; [lia|]. intros x. now rewrite S. Qed.

  Lemma reshaped_closed h h' : reshaped h h' -> closed h -> closed h'.
  Proof.
    intros Hr Hc x c y E Hy. destruct (reshaped_get h' h x c (reshaped_sym _ _ Hr) E) as (c' & E' & Es).
    rewrite (proj1 Hr). apply (Hc x c' y E'). now rewrite (skel_refs _ _ Es).
  Qed.

  Lemma reshaped_model h h' l : reshaped h h' -> is_model h l -> is_model h' l.
  Proof.
    intros Hr (d & s & E). destruct (reshaped_get h h' l _ Hr E) as ([d' s'|a] & E' & Es); [|discriminate].
    exists d', s'. exact E'.
  Qed.

  Lemma reshaped_hwf h h' w : reshaped h h' -> hwf h w -> hwf h' w.
  Proof.
    intros Hr (Wa & Wo & We & Wb). split; [|split; [|split]].
    - intros id l Hin. destruct (Wa id l Hin) as (a & E & I & B & Dm & Em & Go).
      destruct (reshaped_get h h' l _ Hr E) as ([d' s'|a'] & E' & Es); [discriminate|].
      cbn in Es. injection Es as E1 E2 E3 E4 E5. exists a'. split; [exact E'|]. split; [congruence|].
      rewrite E2, E3, E4. repeat (split; [eapply reshaped_model; eassumption|]).
      intros g Eg. eapply reshaped_model; [exact Hr|]. apply Go. rewrite Eg in E5.
      destruct (ha_goal H a); [|discriminate]. congruence.
    - intros id l Hin. eapply reshaped_model; [exact Hr|]. eapply Wo; eassumption.
    - intros l Hl. eapply reshaped_model; [exact Hr|]. auto.
    - eapply reshaped_model; eassumption.
  Qed.

  Lemma reshaped_set h l c c' : hget h l = Some c -> skel c' = skel c -> reshaped h (hset h l c').
  Proof.
    intros E Es. split; [apply hset_length|]. intros x. destruct (Nat.eq_dec l x) as [<-|Ne].
    - rewrite hget_hset_same by exact (hget_lt _ _ _ E). rewrite E. cbn. now rewrite Es.
    - now rewrite hget_hset_other.
  Qed.
  Lemma reshaped_wr h l f : reshaped h (wr_model D H h l f).
  Proof.
    unfold wr_model. destruct (Model_Heap.hget D H h l) as [[d s|a]|] eqn:E; try apply reshaped_refl.
    eapply reshaped_set; [exact E|reflexivity].
  Qed.
  Lemma reshaped_fold {A} (f : heap -> A -> heap) l : (forall h a, reshaped h (f h a)) -> forall h, reshaped h (fold_left f l h).
  Proof.
    intros Hf. induction l as [|a r IH]; intros h; cbn; [apply reshaped_refl|].
    eapply reshaped_trans; [apply Hf|apply IH].
  Qed.
  Lemma reshaped_plan_model R cw id dt fuel : forall h l, reshaped h (plan_model D H R cw id dt fuel h l).
  Proof.
    induction fuel as [|n IH]; intros h l; cbn; [apply reshaped_refl|].
    destruct (Model_Heap.hget D H h l) as [[d s|a]|]; try apply reshaped_refl.
    refine (reshaped_trans _ _ _ _ (reshaped_wr _ _ _)). apply reshaped_fold. intros; apply IH.
  Qed.
  Lemma reshaped_plan R cw t dt fuel h p : reshaped h (hplan_agent D H R cw t dt fuel h p).
  Proof.
    unfold hplan_agent. destruct (Model_Heap.hget D H h (snd p)) as [[d s|a]|]; try apply reshaped_refl.
    destruct (o_goes D H R h cw (fst p)); [|apply reshaped_refl]. cbv zeta.
    match goal with |- context [plan_model D H R cw (fst p) dt fuel ?h0 ?b] =>
      assert (R1 : reshaped h (plan_model D H R cw (fst p) dt fuel h0 b)) end.
    { eapply reshaped_trans; [apply reshaped_wr|apply reshaped_plan_model]. }
    destruct (payload _ (ha_bm H a)); [|exact R1]. destruct (payload _ (ha_dm H a)); [|exact R1].
    eapply reshaped_trans; [exact R1|apply reshaped_wr].
  Qed.
  Lemma reshaped_exec R h p : reshaped h (hexec_agent D H R h p).
  Proof.
    unfold hexec_agent. destruct (Model_Heap.hget D H h (snd p)) as [[d s|a]|] eqn:E; try apply reshaped_refl.
    destruct (payload h (ha_bm H a)); [|apply reshaped_refl]. destruct (payload h (ha_em H a)); [|apply reshaped_refl].
    destruct (o_moves D H R _ _); [|apply reshaped_refl]. eapply reshaped_set; [exact E|reflexivity].
  Qed.

  (* ** cloning *)
  Lemma closed_app h c : closed h -> (forall y, In y (refs c) -> y < length h) -> closed (h ++ [c]).
  Proof.
    intros Hc Hn x c' y E Hy. rewrite app_length. cbn.
    destruct (Nat.lt_ge_cases x (length h)) as [L|L].
    - rewrite hget_app_l in E by exact L. specialize (Hc x c' y E Hy). lia.
    - pose proof (hget_lt _ _ _ E) as Lx. rewrite app_length in Lx. cbn in Lx. assert (x = length h) by lia. subst x.
      rewrite hget_app_new in E. injection E as <-. specialize (Hn y Hy). lia.
  Qed.

  Lemma is_model_lt (h : heap) l : is_model h l -> l < length h.
  Proof. intros (d & s & E). exact (hget_lt _ _ _ E). Qed.

  Lemma clone_model_full h l : is_model h l -> closed h ->
    let r := clone_model D H copy h l in
    grows h (fst r) /\ closed (fst r) /\ is_model (fst r) (snd r) /\ length h <= snd r /\
    payload (fst r) (snd r) = option_map copy (payload h l).
  Proof.
    intros (d & s & E) Hc. unfold clone_model. rewrite E. cbn. split; [apply grows_alloc|]. split.
    - apply closed_app; [exact Hc|]. intros y Hy. exact (Hc l _ y E Hy).
    - split; [exists (copy d), s; apply hget_app_new|]. split; [lia|].
      unfold Model_Heap.payload. rewrite hget_app_new, E. reflexivity.
  Qed.

  Lemma payload_grows h h' l : grows h h' -> is_model h l -> payload h' l = payload h l.
  Proof. intros G (d & s & E). unfold Model_Heap.payload. rewrite (grows_get _ _ _ _ G E), E. reflexivity. Qed.

  Definition view_at (h : heap) (l : loc) : option (N * list H * nat * list (option D)) :=
    match hget h l with
    | Some (Model_Heap.CAgent _ _ a) =>
        Some (ha_id H a, ha_hist H a, ha_max H a,
              [payload h (ha_bm H a); payload h (ha_dm H a); payload h (ha_em H a);
               match ha_goal H a with None => None | Some g => payload h g end])
    | _ => None
    end.
  Lemma seen_view h w id : seen h w id = match m_find id (hw_agents w) with None => None | Some l => view_at h l end.
  Proof. unfold seen, view_at. destruct (m_find id (hw_agents w)) as [l|]; reflexivity. Qed.

  Definition copied_view (v : option (N * list H * nat * list (option D))) :=
    option_map (fun x => match x with (i, hs, mx, ps) => (i, hs, mx, map (option_map copy) ps) end) v.

  (* an agent object and the objects it refers to all lie in [P] *)
  Definition own_in (P : loc -> Prop) (h : heap) (l : loc) : Prop :=
    P l /\ exists a, hget h l = Some (CAgent a) /\ forall y, In y (refs (CAgent a)) -> P y.

  Lemma view_same (P : loc -> Prop) h h' l : (forall x, P x -> hget h' x = hget h x) -> own_in P h l ->
    view_at h' l = view_at h l.
  Proof.
    intros Hs (Pl & a & E & Hy). unfold view_at. rewrite (Hs l Pl), E. cbn [refs] in Hy.
    assert (Hp : forall y, P y -> payload h' y = payload h y) by (intros y Py; unfold Model_Heap.payload; now rewrite Hs).
    rewrite !Hp by (apply Hy; cbn; auto). destruct (ha_goal H a) as [g|]; [|reflexivity].
    rewrite Hp by (apply Hy; cbn; auto). reflexivity.
  Qed.

  Lemma view_grows h h' id l : grows h h' -> good_agent h id l -> view_at h' l = view_at h l.
  Proof.
    intros G (a & E & I & B & Dm & Em & Go). unfold view_at. rewrite (grows_get _ _ _ _ G E), E.
    rewrite !(payload_grows h h') by assumption. destruct (ha_goal H a) as [g|]; [|reflexivity].
    rewrite (payload_grows h h') by auto. reflexivity.
  Qed.

  Lemma clone_agent_full h id l : good_agent h id l -> closed h ->
    let r := hclone_agent D H copy h l in
    grows h (fst r) /\ closed (fst r) /\ good_agent (fst r) id (snd r) /\
    own_in (fun x => length h <= x < length (fst r)) (fst r) (snd r) /\
    view_at (fst r) (snd r) = copied_view (view_at h l).
  Proof.
    intros Hg Hc r. destruct (clone_agent_good copy h id l Hg) as [Gr Gg]. fold r in Gr, Gg.
    split; [exact Gr|].
    destruct Hg as (a & E & I & B & Dm & Em & Go). unfold r, hclone_agent in *. rewrite E in *.
    destruct (clone_model_full h _ B Hc) as (G1 & C1 & M1 & F1 & P1). set (r1 := clone_model D H copy h (ha_bm H a)) in *.
    destruct (clone_model_full (fst r1) _ (grows_model _ _ _ G1 Dm) C1) as (G2 & C2 & M2 & F2 & P2).
    set (r2 := clone_model D H copy (fst r1) (ha_dm H a)) in *.
    destruct (clone_model_full (fst r2) _ (grows_model _ _ _ G2 (grows_model _ _ _ G1 Em)) C2) as (G3 & C3 & M3 & F3 & P3).
    set (r3 := clone_model D H copy (fst r2) (ha_em H a)) in *.
    assert (X : grows (fst r3) (fst (clone_opt D H copy (fst r3) (ha_goal H a))) /\
      closed (fst (clone_opt D H copy (fst r3) (ha_goal H a))) /\
      match snd (clone_opt D H copy (fst r3) (ha_goal H a)), ha_goal H a with
      | None, None => True
      | Some g', Some g => is_model (fst (clone_opt D H copy (fst r3) (ha_goal H a))) g' /\ length (fst r3) <= g' /\
          payload (fst (clone_opt D H copy (fst r3) (ha_goal H a))) g' = option_map copy (payload (fst r3) g)
      | _, _ => False end).
    { destruct (ha_goal H a) as [g|]; cbn.
      - destruct (clone_model_full (fst r3) g) as (G4 & C4 & M4 & F4 & P4); auto.
        eapply grows_model; [exact G3|]. eapply grows_model; [exact G2|]. eapply grows_model; [exact G1|]. auto.
      - split; [apply grows_refl|]. auto. }
    destruct X as (G4 & C4 & X4). set (r4 := clone_opt D H copy (fst r3) (ha_goal H a)) in *. cbv zeta in *. unfold alloc in *. cbn [fst snd] in *.
    match goal with |- context [fst r4 ++ [?c]] => set (nc := c) in * end.
    assert (G5 : grows (fst r4) (fst r4 ++ [nc])) by apply grows_alloc.
    pose proof (grows_trans _ _ _ G4 G5) as G45. pose proof (grows_trans _ _ _ G3 G45) as G345.
    pose proof (grows_trans _ _ _ G2 G345) as G2345. pose proof (grows_trans _ _ _ G1 G2345) as Gall.
    pose proof (is_model_lt _ _ M1) as B1. pose proof (is_model_lt _ _ M2) as B2. pose proof (is_model_lt _ _ M3) as B3.
    assert (Lengths : length h <= length (fst r1) /\ length (fst r1) <= length (fst r2) /\ length (fst r2) <= length (fst r3) /\
              length (fst r3) <= length (fst r4)) by (destruct G1, G2, G3, G4; lia).
    destruct Lengths as (La & Lb & Lc & Ld).
    assert (Range : forall y, In y (refs nc) -> length h <= y < length (fst r4)).
    { unfold nc. cbn [refs ha_bm ha_dm ha_em ha_goal]. intros y [<-|[<-|[<-|Hy]]].
      - split; [exact F1|]. eapply Nat.lt_le_trans; [exact B1|]. lia.
      - split; [eapply Nat.le_trans; [|exact F2]; lia|]. eapply Nat.lt_le_trans; [exact B2|]. lia.
      - split; [eapply Nat.le_trans; [|exact F3]; lia|]. eapply Nat.lt_le_trans; [exact B3|]. lia.
      - destruct (snd r4) as [g'|]; [|destruct Hy]. destruct Hy as [<-|[]]. destruct (ha_goal H a); [|contradiction].
        destruct X4 as (M4 & F4 & _). split; [eapply Nat.le_trans; [|exact F4]; lia|exact (is_model_lt _ _ M4)]. }
    split; [apply closed_app; [exact C4|intros y Hy; exact (proj2 (Range y Hy))]|].
    split; [exact Gg|]. split.
    - split; [rewrite app_length; cbn; lia|]. eexists. split; [apply hget_app_new|].
      fold nc. intros y Hy. destruct (Range y Hy). rewrite app_length; cbn. lia.
    - unfold view_at. rewrite E, hget_app_new. unfold nc at 1. cbn [copied_view option_map map ha_id ha_hist ha_max ha_bm ha_dm ha_em ha_goal].
      rewrite (payload_grows _ _ (snd r1) G2345 M1), P1.
      rewrite (payload_grows _ _ (snd r2) G345 M2), P2.
      rewrite (payload_grows _ _ (snd r3) G45 M3), P3.
      rewrite (payload_grows h _ _ G1 Dm). rewrite (payload_grows h (fst r2) _ (grows_trans _ _ _ G1 G2) Em).
      assert (Ep : match snd r4 with Some g => payload (fst r4 ++ [nc]) g | None => None end =
                   option_map copy (match ha_goal H a with Some g => payload h g | None => None end)).
      { destruct (snd r4) as [g'|], (ha_goal H a) as [g|]; try contradiction; [|reflexivity].
        destruct X4 as (M4 & F4 & P4). rewrite (payload_grows _ _ _ G5 M4), P4.
        rewrite (payload_grows h (fst r3)); [reflexivity| |auto]. exact (grows_trans _ _ _ G1 (grows_trans _ _ _ G2 G3)). }
      now rewrite Ep.
  Qed.

  Lemma own_weaken (P Q : loc -> Prop) h h' l : grows h h' -> (forall x, P x -> Q x) -> own_in P h l -> own_in Q h' l.
  Proof. intros G PQ (Pl & a & E & Hy). split; [auto|]. exists a. split; [eapply grows_get; eassumption|]. auto. Qed.

  Lemma clone_agents_full m : forall h, (forall k l, In (k, l) m -> good_agent h k l) -> closed h ->
    let r := clone_all D H (hclone_agent D H copy) h m in
    grows h (fst r) /\ closed (fst r) /\ map fst (snd r) = map fst m /\
    (forall k l, In (k, l) (snd r) -> own_in (fun x => length h <= x < length (fst r)) (fst r) l) /\
    (forall id, match m_find id m with
                | None => m_find id (snd r) = None
                | Some l => exists l', m_find id (snd r) = Some l' /\ view_at (fst r) l' = copied_view (view_at h l)
                end).
  Proof.
    induction m as [|[k l] m IH]; intros h Hg Hc r.
    - cbn in *. split; [apply grows_refl|]. split; [exact Hc|]. split; [reflexivity|]. split; [intros ? ? []|reflexivity].
    - unfold r. cbn [clone_all]. cbv zeta.
      destruct (clone_agent_full h k l (Hg k l (or_introl eq_refl)) Hc) as (G1 & C1 & A1 & O1 & V1).
      set (x := hclone_agent D H copy h l) in *.
      destruct (IH (fst x)) as (G2 & C2 & K2 & O2 & V2).
      { intros k' l' Hin. eapply good_grows; [exact G1|]. apply Hg. now right. }
      { exact C1. }
      set (y := clone_all D H (hclone_agent D H copy) (fst x) m) in *. cbn [fst snd].
      pose proof (grows_trans _ _ _ G1 G2) as G12. destruct G1 as [L1 G1s], G2 as [L2 G2s].
      split; [exact G12|]. split; [exact C2|]. split; [cbn; now rewrite K2|]. split.
      + intros k' l' [E|Hin].
        * injection E as <- <-. eapply own_weaken; [split; eassumption| |exact O1]. cbn. intros z Hz. lia.
        * eapply own_weaken; [apply grows_refl| |eapply O2; exact Hin]. cbn. intros z Hz. lia.
      + intros id. cbn [m_find]. destruct (N.eqb id k) eqn:Ek.
        * eexists. split; [reflexivity|]. rewrite (view_grows (fst x) (fst y) k); [exact V1|split; assumption|exact A1].
        * specialize (V2 id). destruct (m_find id m) as [l'|] eqn:Em; [|exact V2].
          destruct V2 as (l2 & E2 & Ev). exists l2. split; [exact E2|]. rewrite Ev.
          f_equal. apply (view_grows h (fst x) id); [split; assumption|]. apply Hg. right. now apply m_find_In.
  Qed.

  Lemma clone_models_closed m : forall h, (forall k l, In (k, l) m -> is_model h l) -> closed h ->
    grows h (fst (clone_all D H (clone_model D H copy) h m)) /\ closed (fst (clone_all D H (clone_model D H copy) h m)).
  Proof.
    induction m as [|[k l] m IH]; intros h Hg Hc; cbn; [split; [apply grows_refl|exact Hc]|].
    destruct (clone_model_full h l (Hg k l (or_introl eq_refl)) Hc) as (G1 & C1 & _).
    destruct (IH (fst (clone_model D H copy h l))) as (G2 & C2).
    { intros k' l' Hin. eapply grows_model; [exact G1|]. eapply Hg. right. exact Hin. }
    { exact C1. }
    split; [eapply grows_trans; eassumption|exact C2].
  Qed.

  Lemma clone_world_full h w : hwf h w -> closed h ->
    let c := hclone_world D H copy h w in
    grows h (fst c) /\ closed (fst c) /\ hwf (fst c) (snd c) /\ hw_time (snd c) = hw_time w /\
    (forall k l, In (k, l) (hw_agents (snd c)) -> own_in (fun x => length h <= x < length (fst c)) (fst c) l) /\
    (forall id, seen (fst c) (snd c) id = copied_view (seen h w id)).
  Proof.
    intros Hw Hc c. destruct (clone_world_wf copy h w Hw) as [W2 G]. fold c in W2, G.
    destruct Hw as (Wa & Wo & We & Wb).
    destruct (clone_agents_full (hw_agents w) h Wa Hc) as (G1 & C1 & K1 & O1 & V1).
    assert (Wo' : forall k l, In (k, l) (hw_objects w) -> is_model (fst (clone_all D H (hclone_agent D H copy) h (hw_agents w))) l).
    { intros k l Hin. eapply grows_model; [exact G1|]. eapply Wo. exact Hin. }
    destruct (clone_models_closed (hw_objects w) _ Wo' C1) as (G2 & C2).
    unfold c, hclone_world in *. cbn [fst snd hw_time hw_agents] in *.
    set (r1 := clone_all D H (hclone_agent D H copy) h (hw_agents w)) in *.
    set (r2 := clone_all D H (clone_model D H copy) (fst r1) (hw_objects w)) in *.
    split; [exact G|]. split; [exact C2|]. split; [exact W2|]. split; [reflexivity|]. split.
    - intros k l Hin. eapply own_weaken; [exact G2| |exact (O1 k l Hin)]. cbn. destruct G2. intros x Hx. lia.
    - intros id. rewrite !seen_view. cbn [hw_agents]. specialize (V1 id).
      destruct (m_find id (hw_agents w)) as [l|] eqn:Em.
      + destruct V1 as (l' & El & Ev). rewrite El, <- Ev.
        pose proof (m_find_In _ _ _ El) as Hin.
        apply (view_same (fun x => length h <= x < length (fst r1))).
        * intros x Hx. destruct G2 as [_ G2]. apply G2. lia.
        * exact (O1 id l' Hin).
      + now rewrite V1.
  Qed.

  (* ** what a step keeps *)
  Lemma plan_all_wf R dt fuel h w l : hwf h w -> closed h -> hwf (hplan_all D H copy R dt fuel h w l) w /\ closed (hplan_all D H copy R dt fuel h w l).
  Proof.
    intros Hw Hc. destruct (clone_world_full h w Hw Hc) as (G & C & W & _). unfold hplan_all. cbv zeta.
    set (c := hclone_world D H copy h w) in *.
    assert (Rs : reshaped (fst c) (fold_left (hplan_agent D H R (snd c) (hw_time w) dt fuel) l (fst c))).
    { apply reshaped_fold. intros; apply reshaped_plan. }
    split; [|eapply reshaped_closed; eassumption]. eapply reshaped_hwf; [exact Rs|].
    destruct Hw as (Wa & Wo & We & Wb). split; [|split; [|split]].
    - intros id x Hin. exact (good_grows _ _ id x G (Wa id x Hin)).
    - intros id x Hin. eapply grows_model; [exact G|eapply Wo; exact Hin].
    - intros x Hx. eapply grows_model; [exact G|auto].
    - eapply grows_model; eassumption.
  Qed.

  Lemma hwf_sub (h : heap) w w' : hwf h w -> (forall p, In p (hw_agents w') -> In p (hw_agents w)) ->
    hw_objects w' = hw_objects w -> hw_evals w' = hw_evals w -> hw_observer w' = hw_observer w -> hwf h w'.
  Proof.
    intros (Wa & Wo & We & Wb) Hs E1 E2 E3. split; [|split; [|split]].
    - intros id l Hin. apply Wa. now apply Hs.
    - rewrite E1. exact Wo.
    - rewrite E2. exact We.
    - rewrite E3. exact Wb.
  Qed.

  Lemma step_wf R dt fuel h w : hwf h w -> closed h ->
    hwf (fst (hstep D H copy R dt fuel h w)) (snd (hstep D H copy R dt fuel h w)) /\ closed (fst (hstep D H copy R dt fuel h w)).
  Proof.
    intros Hw Hc. destruct (plan_all_wf R dt fuel h w (hw_agents w) Hw Hc) as [W1 C1].
    unfold hplan_all in *. unfold hstep. cbv zeta in *. cbn [fst snd].
    match goal with |- context [fold_left (hexec_agent D H R) ?l ?hh] =>
      assert (Rs : reshaped hh (fold_left (hexec_agent D H R) l hh)) by (apply reshaped_fold; intros; apply reshaped_exec) end.
    split; [|eapply reshaped_closed; eassumption].
    eapply hwf_sub; [eapply reshaped_hwf; eassumption| |reflexivity..].
    cbn. intros p Hp. now apply filter_In in Hp.
  Qed.

  Lemma op_wf h w op : hwf h w -> closed h -> (forall id l, op <> HSetBehavior D H id l) ->
    hwf (fst (hrun_op D H copy h w op)) (snd (hrun_op D H copy h w op)) /\ closed (fst (hrun_op D H copy h w op)).
  Proof.
    intros Hw Hc Hop. destruct op as [R dt fuel|R|id|id bm dm em goal hist mh|id f|id lb]; cbn [hrun_op].
    - now apply step_wf.
    - cbn [fst snd]. assert (Rs : forall l h, reshaped h (fold_left (fun h' e => wr_model D H h' e (o_eval D H R h' w)) l h)).
      { intros l h1. apply reshaped_fold. intros; apply reshaped_wr. }
      split; [eapply reshaped_hwf; [apply Rs|exact Hw]|eapply reshaped_closed; [apply Rs|exact Hc]].
    - split; [|exact Hc]. eapply hwf_sub; [exact Hw| |reflexivity..]. cbn. intros p Hp. unfold m_erase in Hp. now apply filter_In in Hp.
    - unfold alloc; cbn [fst snd].
      set (h1 := h ++ [CModel bm []]). set (h2 := h1 ++ [CModel dm []]). set (h3 := h2 ++ [CModel em []]).
      set (r4 := match goal with Some g => _ | None => _ end).
      assert (C3 : closed h3).
      { unfold h3, h2, h1. repeat (apply closed_app; [|intros y []]). exact Hc. }
      assert (G : grows h h3) by (unfold h3, h2, h1; eapply grows_trans; [eapply grows_trans; [apply grows_alloc|apply grows_alloc]|apply grows_alloc]).
      assert (X : grows h3 (fst r4) /\ closed (fst r4) /\ (forall g, snd r4 = Some g -> is_model (fst r4) g)).
      { unfold r4. destruct goal as [g|]; cbn [fst snd].
        - split; [apply grows_alloc|]. split; [apply closed_app; [exact C3|intros y []]|].
          intros g' E. injection E as <-. exists g, []. apply hget_app_new.
        - split; [apply grows_refl|]. split; [exact C3|discriminate]. }
      destruct X as (G4 & C4 & M4).
      match goal with |- context [fst r4 ++ [?c]] => set (nc := c) in * end.
      assert (B1 : is_model h1 (length h)) by (exists bm, []; apply hget_app_new).
      assert (B2 : is_model h2 (length h1)) by (exists dm, []; apply hget_app_new).
      assert (B3 : is_model h3 (length h2)) by (exists em, []; apply hget_app_new).
      assert (G13 : grows h1 h3) by (unfold h3, h2; eapply grows_trans; apply grows_alloc).
      assert (G23 : grows h2 h3) by (unfold h3; apply grows_alloc).
      assert (G5 : grows (fst r4) (fst r4 ++ [nc])) by apply grows_alloc.
      pose proof (grows_model _ _ _ (grows_trans _ _ _ G13 G4) B1) as B1'.
      pose proof (grows_model _ _ _ (grows_trans _ _ _ G23 G4) B2) as B2'.
      pose proof (grows_model _ _ _ G4 B3) as B3'.
      assert (C5 : closed (fst r4 ++ [nc])).
      { apply closed_app; [exact C4|]. unfold nc. cbn [refs ha_bm ha_dm ha_em ha_goal].
        intros y [<-|[<-|[<-|Hy]]]; [exact (is_model_lt _ _ B1')|exact (is_model_lt _ _ B2')|exact (is_model_lt _ _ B3')|].
        destruct (snd r4) as [g|]; [|destruct Hy]. destruct Hy as [<-|[]]. exact (is_model_lt _ _ (M4 g eq_refl)). }
      split; [|exact C5].
      pose proof (grows_trans _ _ _ G (grows_trans _ _ _ G4 G5)) as Gall.
      destruct Hw as (Wa & Wo & We & Wb). split; [|split; [|split]].
      + cbn [hw_set_agents hw_agents]. intros k l Hin. apply m_insert_In_keys in Hin as [E|Hin].
        * injection E as -> ->. eexists. split; [apply hget_app_new|]. unfold nc. cbn [ha_id ha_bm ha_dm ha_em ha_goal].
          split; [reflexivity|]. fold nc. repeat (split; [eapply grows_model; [exact G5|eassumption]|]).
          intros g Hg. eapply grows_model; [exact G5|]. auto.
        * exact (good_grows _ _ k l Gall (Wa k l Hin)).
      + intros k l Hin. eapply grows_model; [exact Gall|eapply Wo; exact Hin].
      + intros l Hl. eapply grows_model; [exact Gall|auto].
      + eapply grows_model; [exact Gall|exact Wb].
    - cbn [fst snd]. destruct (m_find id (hw_agents w)) as [l|]; [|auto].
      destruct (Model_Heap.hget D H h l) as [[d s|a]|]; auto.
      split; [eapply reshaped_hwf; [apply reshaped_wr|exact Hw]|eapply reshaped_closed; [apply reshaped_wr|exact Hc]].
    - exfalso. exact (Hop id lb eq_refl).
  Qed.

  (* ** a recorded world *)
  (* [kept h w e v]: the world [e] shows [v], and nothing done to [w] can change that *)
  Definition kept (h : heap) (w e : hworld) (v : N -> option (N * list H * nat * list (option D))) : Prop :=
    exists (P : loc -> Prop) (hi : heap), (forall l, P l -> l < length hi) /\ Safe P hi h /\ Away P w /\
      (forall k l, In (k, l) (hw_agents e) -> own_in P hi l) /\ (forall id, seen hi e id = v id).

  Lemma kept_seen h w e v id : kept h w e v -> seen h e id = v id.
  Proof.
    intros (P & hi & Po & S & A & O & V). rewrite <- V, !seen_view.
    destruct (m_find id (hw_agents e)) as [l|] eqn:E; [|reflexivity].
    apply (view_same P); [exact (sf_same _ _ _ S)|]. eapply O. eapply m_find_In. exact E.
  Qed.

  Lemma record_kept h w : hwf h w -> closed h ->
    let c := hclone_world D H copy h w in kept (fst c) w (snd c) (fun id => copied_view (seen h w id)).
  Proof.
    intros Hw Hc c. destruct (clone_world_full h w Hw Hc) as (G & C & W & _ & O & V). fold c in G, C, W, O, V.
    exists (fun x => length h <= x < length (fst c)), (fst c). split; [intros l Hl; lia|]. destruct G as [L G]. split; [|split; [|split]].
    - split; [lia|reflexivity|]. intros l cc Nl E x Hx Px.
      assert (Ll : l < length h) by (pose proof (hget_lt _ _ _ E); lia).
      rewrite G in E by exact Ll. pose proof (Hc l cc x E Hx). lia.
    - destruct Hw as (Wa & Wo & We & Wb).
      assert (N : forall x, x < length h -> ~ (length h <= x < length (fst c))) by (intros x Hx; lia).
      split; [|split; [|split]].
      + intros x Hx. apply N. apply in_map_iff in Hx as ([k y] & <- & Hin). destruct (Wa k y Hin) as (a & E & _). exact (hget_lt _ _ _ E).
      + intros x Hx. apply N. apply in_map_iff in Hx as ([k y] & <- & Hin). exact (is_model_lt _ _ (Wo k y Hin)).
      + intros x Hx. apply N. exact (is_model_lt _ _ (We x Hx)).
      + apply N. exact (is_model_lt _ _ Wb).
    - exact O.
    - exact V.
  Qed.

  (* what is done to the world keeps earlier records *)
  Lemma kept_clone h w e v : kept h w e v -> kept (fst (hclone_world D H copy h w)) w e v.
  Proof.
    intros (P & hi & Po & S & A & O & V). exists P, hi. split; [exact Po|]. split; [exact (proj1 (S_clone_world copy P hi Po h w S A))|]. auto.
  Qed.
  Lemma kept_step R dt fuel h w e v : kept h w e v ->
    kept (fst (hstep D H copy R dt fuel h w)) (snd (hstep D H copy R dt fuel h w)) e v.
  Proof.
    intros (P & hi & Po & S & A & O & V). destruct (S_step copy P hi Po R dt fuel h w S A) as [S' A'].
    exists P, hi. auto.
  Qed.
  Lemma kept_plan R dt fuel h w l e v : (forall p, In p l -> In p (hw_agents w)) -> kept h w e v ->
    kept (hplan_all D H copy R dt fuel h w l) w e v.
  Proof.
    intros Hl (P & hi & Po & S & A & O & V). pose proof (S_plan_all copy P hi Po R dt fuel h w l S A Hl).
    exists P, hi. auto.
  Qed.
  Lemma kept_op h w op e v : (forall id l, op <> HSetBehavior D H id l) -> kept h w e v ->
    kept (fst (hrun_op D H copy h w op)) (snd (hrun_op D H copy h w op)) e v.
  Proof.
    intros Ho (P & hi & Po & S & A & O & V). destruct (S_op copy P hi Po h w op S A) as [S' A'].
    { intros id l E. exfalso. exact (Ho id l E). }
    exists P, hi. auto.
  Qed.
End Hist.
