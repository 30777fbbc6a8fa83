(* C03: isolation of cloned and predicted worlds at the level of objects and pointers. *)
From Coq Require Import List NArith ZArith QArith Bool Arith Lia.
From Verif Require Import Model_Map Proof_Map Model_Heap Spec_Heap Proof_Heap.
Import ListNotations.
Local Open Scope nat_scope.

(* Whatever is done to a clone - steps with any behaviour, execution, observer and removal decisions,
   evaluation, adding, removing, re-equipping agents - every object that existed before the clone keeps
   its contents, except objects that clones share: the observer, evaluators, models that other models
   point to, and models handed over by the caller. *)
Theorem C03_clone_isolated :
  forall (D H : Type) (copy : D -> D) (h : heap D H) (w : hworld) (ops : list (hop D H)),
  hwf h w ->
  let c := hclone_world D H copy h w in
  let r := hrun D H copy (fst c) (snd c) ops in
  forall l, l < length h -> ~ shared h w ops l -> hget D H (fst r) l = hget D H h l.
Proof. intros D H copy; exact (isolation copy). Qed.
Print Assumptions C03_clone_isolated.

(* The client's view of the original world's agents (history, models' contents) is unchanged, provided
   the agents' own models are not among the shared objects. Predict = clone, re-equip, step. *)
Theorem C03_predict_leaves_original_unchanged :
  forall (D H : Type) (copy : D -> D) (h : heap D H) (w : hworld) (ops : list (hop D H)) id l a,
  hwf h w ->
  m_find id (hw_agents w) = Some l -> hget D H h l = Some (CAgent D H a) ->
  (forall x, In x (l :: ha_bm H a :: ha_dm H a :: ha_em H a :: match ha_goal H a with Some g => [g] | None => [] end) ->
     ~ shared h w ops x) ->
  let c := hclone_world D H copy h w in
  let r := hrun D H copy (fst c) (snd c) ops in
  agent_view (fst r) w id = agent_view h w id.
Proof.
  intros D H copy h w ops id l a Hwf Hf Ha Hns c r.
  pose proof (isolation copy h w ops Hwf) as Iso. cbv zeta in Iso. fold c in Iso. fold r in Iso.
  destruct Hwf as (Wa & _). destruct (Wa id l (m_find_In _ _ _ Hf)) as (a' & E' & _ & (d1&s1&B1) & (d2&s2&B2) & (d3&s3&B3) & Bg).
  rewrite Ha in E'; injection E' as <-.
  unfold agent_view. rewrite Hf.
  assert (El : hget D H (fst r) l = hget D H h l).
  { apply Iso; [eapply hget_lt; exact Ha|]. apply Hns. now left. }
  rewrite El, Ha. f_equal. f_equal. unfold payload.
  rewrite (Iso (ha_bm H a)); [|eapply hget_lt; exact B1|apply Hns; right; now left].
  rewrite (Iso (ha_dm H a)); [|eapply hget_lt; exact B2|apply Hns; right; right; now left].
  rewrite (Iso (ha_em H a)); [|eapply hget_lt; exact B3|apply Hns; right; right; right; now left].
  destruct (ha_goal H a) as [g|] eqn:Eg; [|reflexivity].
  destruct (Bg g eq_refl) as (d4 & s4 & B4).
  rewrite (Iso g); [reflexivity|eapply hget_lt; exact B4|]. apply Hns. do 4 right. now left.
Qed.
Print Assumptions C03_predict_leaves_original_unchanged.

(* ---- a concrete heap ---- *)
(* payloads are numbers; planning adds one to a model; histories record the execution payload *)
Definition toyR : oracles Z Z :=
  mkOr Z Z (fun _ _ _ d => d + 100)%Z (fun _ _ _ _ _ d => d + 1)%Z (fun _ b d e => b + d + e)%Z
       (fun e b => e) (fun _ _ _ => true) (fun _ _ => true) (fun _ _ _ => false) (fun _ _ d => d + 1)%Z.
(* observer 0, evaluator 1, agent 7 with behaviour 2, dynamic 3, execution 4, goal 5 at 6 *)
Definition toyH : heap Z Z :=
  [CModel Z Z 0%Z []; CModel Z Z 0%Z []; CModel Z Z 10%Z []; CModel Z Z 0%Z []; CModel Z Z 5%Z []; CModel Z Z 9%Z [];
   CAgent Z Z (mkHA Z 7%N 2 3 4 (Some 5) [42%Z] 30)].
Definition toyHW : hworld := mkHW 0 [(7%N, 6)] [] [1] 0.

Example C03_nonvacuous :
  hwf toyH toyHW /\
  let ops := [HAction Z Z 7%N (fun d => d + 50)%Z; HStep Z Z toyR 1 3; HEvaluate Z Z toyR; HRemove Z Z 7%N] in
  (forall x, In x [6; 2; 3; 4; 5] -> ~ shared toyH toyHW ops x) /\
  let c := hclone_world Z Z (fun d => d) toyH toyHW in
  let r := hrun Z Z (fun d => d) (fst c) (snd c) (firstn 2 ops) in
  (* the clone's agent moved, the original's did not *)
  (exists a v, agent_view (fst r) (snd r) 7%N = Some (a, v) /\ ha_hist Z a = [42; 66]%Z) /\
  (exists a v, agent_view (fst r) toyHW 7%N = Some (a, v) /\ ha_hist Z a = [42]%Z).
Proof.
  split; [|cbv zeta; split; [|split]].
  - split.
    { intros id l [E|[]]. injection E as <- <-. eexists. split; [reflexivity|].
      split; [reflexivity|]. repeat (split; [eexists; eexists; reflexivity|]).
      intros g E; injection E as <-. eexists; eexists; reflexivity. }
    split; [intros id l []|]. split; [intros l [<-|[]]|]; eexists; eexists; reflexivity.
  - intros x Hx [->|[Hs|[(m & d & subs & E & Hi)|(id & Hi)]]].
    + cbn in Hx. intuition discriminate.
    + cbn in Hs. destruct Hs as [<-|[]]. cbn in Hx. intuition discriminate.
    + do 7 (destruct m as [|m]; [cbn in E; try discriminate; injection E as <- <-; destruct Hi|]).
      destruct m; discriminate.
    + cbn in Hi. intuition discriminate.
  - do 2 eexists. split; vm_compute; reflexivity.
  - do 2 eexists. split; vm_compute; reflexivity.
Qed.

(* C03 refuted for composite behaviours (BehaviorSafety, BehaviorRSSConformant; likewise nested
   sequential goals): Clone copies the pointer to the inner model, so stepping a clone changes the
   inner model the original uses. *)
Definition compH : heap Z Z :=
  [CModel Z Z 0%Z []; CModel Z Z 7%Z []; CModel Z Z 10%Z [1]; CModel Z Z 0%Z []; CModel Z Z 5%Z [];
   CAgent Z Z (mkHA Z 7%N 2 3 4 None [42%Z] 30)].
Definition compHW : hworld := mkHW 0 [(7%N, 5)] [] [] 0.
Theorem C03_composite_behavior_isolated_refuted :
  exists (h : heap Z Z) (w : hworld) (R : oracles Z Z) (l : loc) d d',
    hwf h w /\
    (exists a m, m_find 7%N (hw_agents w) = Some a /\ hget Z Z h a = Some (CAgent Z Z m) /\
       exists db, hget Z Z h (ha_bm Z m) = Some (CModel Z Z db [l])) /\
    let c := hclone_world Z Z (fun d => d) h w in
    let r := hrun Z Z (fun d => d) (fst c) (snd c) [HStep Z Z R 1 2] in
    payload Z Z h l = Some d /\ payload Z Z (fst r) l = Some d' /\ d <> d'.
Proof.
  exists compH, compHW, toyR, 1, 7%Z, 8%Z. split; [|split].
  - split.
    { intros id l [E|[]]. injection E as <- <-. eexists. split; [reflexivity|].
      split; [reflexivity|]. repeat (split; [eexists; eexists; reflexivity|]). discriminate. }
    split; [intros id l []|]. split; [intros l []|]. eexists; eexists; reflexivity.
  - do 2 eexists. split; [reflexivity|]. split; [reflexivity|]. eexists; reflexivity.
  - split; [vm_compute; reflexivity|]. split; [vm_compute; reflexivity|]. discriminate.
Qed.
Print Assumptions C03_composite_behavior_isolated_refuted.

(* C03: the observer is shared, too: stepping a clone advances the original's observer (its random
   number generator). *)
Theorem C03_observer_isolated_refuted :
  exists (h : heap Z Z) (w : hworld) (R : oracles Z Z) d d',
    hwf h w /\
    let c := hclone_world Z Z (fun d => d) h w in
    let r := hrun Z Z (fun d => d) (fst c) (snd c) [HStep Z Z R 1 1] in
    payload Z Z h (hw_observer w) = Some d /\ payload Z Z (fst r) (hw_observer w) = Some d' /\ d <> d'.
Proof.
  exists toyH, toyHW, toyR, 0%Z, 100%Z. split; [exact (proj1 C03_nonvacuous)|].
  split; [vm_compute; reflexivity|]. split; [vm_compute; reflexivity|]. discriminate.
Qed.
Print Assumptions C03_observer_isolated_refuted.

(* * C58: worlds returned by one call of World::Observe *)
Section Observe.
  Context {D H : Type} (copy : D -> D).
  Notation hget := (hget D H). Notation CAgent := (CAgent D H). Notation CModel := (CModel D H).
  Definition grows (h h' : heap D H) : Prop := length h <= length h' /\ forall x, x < length h -> hget h' x = hget h x.
  Lemma grows_refl h : grows h h. Proof. split; [lia|reflexivity]. Qed.
  Lemma grows_trans h1 h2 h3 : grows h1 h2 -> grows h2 h3 -> grows h1 h3.
  Proof. intros [A B] [C E]. split; [lia|]. intros x L. rewrite E by lia. apply B, L. Qed.
  Lemma grows_alloc h c : grows h (h ++ [c]).
  Proof. split; [rewrite app_length; lia|]. intros x L. apply hget_app_l, L. Qed.
  Lemma grows_get h h' l c : grows h h' -> hget h l = Some c -> hget h' l = Some c.
  Proof. intros [_ G] E. rewrite G; [exact E|eapply hget_lt; exact E]. Qed.
  Lemma grows_model h h' l : grows h h' -> is_model h l -> is_model h' l.
  Proof. intros G (d & s & E). exists d, s. eapply grows_get; eassumption. Qed.
  Lemma clone_model_good h l : is_model h l -> grows h (fst (clone_model D H copy h l)) /\ is_model (fst (clone_model D H copy h l)) (snd (clone_model D H copy h l)).
  Proof.
    intros (d & s & E). unfold clone_model. rewrite E. cbn. split; [apply grows_alloc|]. exists (copy d), s. apply hget_app_new.
  Qed.
  Lemma clone_opt_good h o : (forall g, o = Some g -> is_model h g) ->
    grows h (fst (clone_opt D H copy h o)) /\ forall g, snd (clone_opt D H copy h o) = Some g -> is_model (fst (clone_opt D H copy h o)) g.
  Proof.
    intros Hg. destruct o as [l|]; cbn; [|split; [apply grows_refl|discriminate]].
    destruct (clone_model_good h l (Hg l eq_refl)) as [G M]. split; [exact G|]. intros g E; inversion E; subst. exact M.
  Qed.
  Definition good_agent (h : heap D H) (id : N) (l : loc) : Prop :=
    exists a, hget h l = Some (CAgent a) /\ ha_id H a = id /\ is_model h (ha_bm H a) /\ is_model h (ha_dm H a) /\ is_model h (ha_em H a) /\
      (forall g, ha_goal H a = Some g -> is_model h g).
  Lemma good_grows h h' id l : grows h h' -> good_agent h id l -> good_agent h' id l.
  Proof.
    intros G (a & E & I & B & Dm & Em & Go). exists a. split; [eapply grows_get; eassumption|].
    split; [exact I|]. repeat (split; [eapply grows_model; eassumption|]). intros g Hg. eapply grows_model; [eassumption|auto].
  Qed.
  Lemma clone_agent_good h id l : good_agent h id l ->
    grows h (fst (hclone_agent D H copy h l)) /\ good_agent (fst (hclone_agent D H copy h l)) id (snd (hclone_agent D H copy h l)).
  Proof.
    intros (a & E & I & B & Dm & Em & Go). unfold hclone_agent. rewrite E.
    destruct (clone_model_good h _ B) as [G1 M1]. set (r1 := clone_model D H copy h (ha_bm H a)) in *.
    destruct (clone_model_good (fst r1) _ (grows_model _ _ _ G1 Dm)) as [G2 M2]. set (r2 := clone_model D H copy (fst r1) (ha_dm H a)) in *.
    destruct (clone_model_good (fst r2) _ (grows_model _ _ _ G2 (grows_model _ _ _ G1 Em))) as [G3 M3]. set (r3 := clone_model D H copy (fst r2) (ha_em H a)) in *.
    destruct (clone_opt_good (fst r3) (ha_goal H a)) as [G4 M4].
    { intros g Hg. eapply grows_model; [exact G3|]. eapply grows_model; [exact G2|]. eapply grows_model; [exact G1|]. auto. }
    set (r4 := clone_opt D H copy (fst r3) (ha_goal H a)) in *. cbv zeta. unfold alloc. cbn [fst snd].
    set (nc := CAgent _).
    assert (G5 : grows (fst r4) (fst r4 ++ [nc])) by apply grows_alloc.
    split; [eapply grows_trans; [exact G1|]; eapply grows_trans; [exact G2|]; eapply grows_trans; [exact G3|]; eapply grows_trans; [exact G4|exact G5]|].
    eexists. split; [apply hget_app_new|]. cbn [ha_id ha_bm ha_dm ha_em ha_goal]. split; [exact I|].
    pose proof (grows_trans _ _ _ G4 G5) as G45. pose proof (grows_trans _ _ _ G3 G45) as G345. pose proof (grows_trans _ _ _ G2 G345) as G2345.
    split; [exact (grows_model _ _ _ G2345 M1)|]. split; [exact (grows_model _ _ _ G345 M2)|]. split; [exact (grows_model _ _ _ G45 M3)|].
    intros g Hg. exact (grows_model _ _ _ G5 (M4 g Hg)).
  Qed.
  Lemma clone_all_good (f : heap D H -> loc -> heap D H * loc) (good : heap D H -> N -> loc -> Prop) m :
    (forall h h' k l, grows h h' -> good h k l -> good h' k l) ->
    (forall h k l, good h k l -> grows h (fst (f h l)) /\ good (fst (f h l)) k (snd (f h l))) ->
    forall h, (forall k l, In (k, l) m -> good h k l) ->
    grows h (fst (clone_all D H f h m)) /\ forall k l, In (k, l) (snd (clone_all D H f h m)) -> good (fst (clone_all D H f h m)) k l.
  Proof.
    intros Hm Hf. induction m as [|[k l] r IH]; intros h Hs; cbn; [split; [apply grows_refl|intros ? ? []]|].
    destruct (Hf h k l (Hs k l (or_introl eq_refl))) as [G1 G2].
    destruct (IH (fst (f h l))) as [G3 G4].
    { intros k' l' Hin. eapply Hm; [exact G1|]. apply Hs. now right. }
    split; [eapply grows_trans; eassumption|]. intros k' l' [E|Hin].
    - inversion E; subst. eapply Hm; eassumption.
    - apply G4, Hin.
  Qed.
  Lemma clone_world_wf h w : hwf h w -> hwf (fst (hclone_world D H copy h w)) (snd (hclone_world D H copy h w)) /\
    grows h (fst (hclone_world D H copy h w)).
  Proof.
    intros (Wa & Wo & We & Wb). unfold hclone_world.
    destruct (clone_all_good (hclone_agent D H copy) good_agent (hw_agents w) good_grows clone_agent_good h) as [G1 A1]; [exact Wa|].
    destruct (clone_all_good (clone_model D H copy) (fun h _ l => is_model h l) (hw_objects w) (fun h h' _ l G => grows_model h h' l G) (fun h _ l => clone_model_good h l)
       (fst (clone_all D H (hclone_agent D H copy) h (hw_agents w)))) as [G2 A2].
    { intros k l Hin. eapply grows_model; [exact G1|]. eapply Wo. exact Hin. }
    cbn [fst snd]. pose proof (grows_trans _ _ _ G1 G2) as G. split; [|exact G]. split.
    - cbn [hw_agents]. intros id l Hin. exact (good_grows _ _ id l G2 (A1 id l Hin)).
    - split; [exact A2|]. split; [intros l Hl; eapply grows_model; [exact G|]; exact (We l Hl)|]. eapply grows_model; [exact G|exact Wb].
  Qed.
  Lemma clone_all_keys (f : heap D H -> loc -> heap D H * loc) m : forall h, map fst (snd (clone_all D H f h m)) = map fst m.
  Proof. induction m as [|[k l] r IH]; intros h; cbn; [reflexivity|]. now rewrite IH. Qed.
End Observe.

(* The observed worlds of one call are the same world seen by different egos, over the SAME agent objects:
   giving an agent another behaviour model through one of them (e.g. SetupPrediction) is visible in all. *)
Theorem C58_siblings_share_agents :
  forall (D H : Type) (copy : D -> D) (h : heap D H) (w : hworld) ids o1 o2 id lb,
  hwf h w -> m_find id (hw_agents w) <> None ->
  In o1 (snd (hobserve D H copy h w ids)) -> In o2 (snd (hobserve D H copy h w ids)) ->
  let h' := fst (hrun_op D H copy (fst (hobserve D H copy h w ids)) (fst o1) (HSetBehavior D H id lb)) in
  exists a v, agent_view h' (fst o2) id = Some (a, v) /\ ha_bm H a = lb.
Proof.
  intros D H copy h w ids o1 o2 id lb Hwf Hid H1 H2 h'.
  destruct (clone_world_wf copy h w Hwf) as [(Wa & _) _].
  unfold hobserve in *. cbn [fst snd] in *. apply in_map_iff in H1 as (i1 & <- & _). apply in_map_iff in H2 as (i2 & <- & _). cbn [fst] in *.
  set (c := hclone_world D H copy h w) in *.
  assert (K : In id (map fst (hw_agents (snd c)))).
  { unfold c, hclone_world. cbn [snd hw_agents]. rewrite clone_all_keys.
    destruct (in_dec N.eq_dec id (map fst (hw_agents w))); auto. exfalso. apply Hid. now apply m_find_None_notin. }
  destruct (m_find id (hw_agents (snd c))) as [l|] eqn:E; [|apply m_find_None_notin in E; contradiction].
  destruct (Wa id l (m_find_In _ _ _ E)) as (a & Ea & _).
  unfold h'. cbn [hrun_op fst]. rewrite E, Ea. unfold agent_view. rewrite E, hget_hset_same by (eapply hget_lt; exact Ea).
  eexists. eexists. split; reflexivity.
Qed.
Print Assumptions C58_siblings_share_agents.

(* The observed world itself is isolated from the simulation: nothing done to it reaches the agents of the
   world that was observed (objects that clones share excepted). *)
Theorem C58_original_untouched :
  forall (D H : Type) (copy : D -> D) (h : heap D H) (w : hworld) ids o ops id l a,
  hwf h w -> In o (snd (hobserve D H copy h w ids)) ->
  m_find id (hw_agents w) = Some l -> hget D H h l = Some (CAgent D H a) ->
  (forall x, In x (l :: ha_bm H a :: ha_dm H a :: ha_em H a :: match ha_goal H a with Some g => [g] | None => [] end) ->
     ~ shared h w ops x) ->
  agent_view (fst (hrun D H copy (fst (hobserve D H copy h w ids)) (fst o) ops)) w id = agent_view h w id.
Proof.
  intros D H copy h w ids o ops id l a Hwf Ho Hf Ha Hns. unfold hobserve in *. cbn [fst snd] in *.
  apply in_map_iff in Ho as (i & <- & _). cbn [fst].
  exact (C03_predict_leaves_original_unchanged D H copy h w ops id l a Hwf Hf Ha Hns).
Qed.
Print Assumptions C58_original_untouched.

(* Predict clones before it steps, so predicting in one observed world does not show in the others. *)
Theorem C58_predict_isolated :
  forall (D H : Type) (copy : D -> D) (h : heap D H) (w : hworld) ids o1 o2 ops id l a,
  hwf h w -> In o1 (snd (hobserve D H copy h w ids)) -> In o2 (snd (hobserve D H copy h w ids)) ->
  let h1 := fst (hobserve D H copy h w ids) in
  m_find id (hw_agents (fst o2)) = Some l -> hget D H h1 l = Some (CAgent D H a) ->
  (forall x, In x (l :: ha_bm H a :: ha_dm H a :: ha_em H a :: match ha_goal H a with Some g => [g] | None => [] end) ->
     ~ shared h1 (fst o2) ops x) ->
  let c := hclone_world D H copy h1 (fst o1) in
  agent_view (fst (hrun D H copy (fst c) (snd c) ops)) (fst o2) id = agent_view h1 (fst o2) id.
Proof.
  intros D H copy h w ids o1 o2 ops id l a Hwf H1 H2 h1 Hf Ha Hns c.
  destruct (clone_world_wf copy h w Hwf) as [Wc _].
  unfold hobserve in *. cbn [fst snd] in *. apply in_map_iff in H1 as (i1 & <- & _). apply in_map_iff in H2 as (i2 & <- & _). cbn [fst] in *.
  exact (C03_predict_leaves_original_unchanged D H copy _ _ ops id l a Wc Hf Ha Hns).
Qed.
Print Assumptions C58_predict_isolated.

(* two observed worlds of the toy world; behaviour 2 handed to agent 7 through the first shows in the second *)
Example C58_toy :
  let r := hobserve Z Z (fun d => d) toyH toyHW [7%N; 3%N; 7%N] in
  map snd (snd r) = [7%N; 7%N] /\
  exists o1 o2, snd r = [o1; o2] /\
    let h' := fst (hrun_op Z Z (fun d => d) (fst r) (fst o1) (HSetBehavior Z Z 7%N 2)) in
    (exists a v, agent_view (fst r) (fst o2) 7%N = Some (a, v) /\ ha_bm Z a = 7) /\
    (exists a v, agent_view h' (fst o2) 7%N = Some (a, v) /\ ha_bm Z a = 2).
Proof. cbv zeta. split; [vm_compute; reflexivity|]. do 2 eexists. split; [vm_compute; reflexivity|]. split; do 2 eexists; (split; vm_compute; reflexivity). Qed.
