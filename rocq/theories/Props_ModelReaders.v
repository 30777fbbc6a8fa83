(** C108: the models the config readers make. *)

From Coq Require Import String Ascii List Arith Lia Bool QArith ZArith.
Import ListNotations.
From Verif Require Import Model_BenchRun Proof_BenchRun Model_Params Model_PyParams Spec_PyParams Proof_PyAccess Proof_PyGet
  Model_ScenGen Model_ModelReaders Spec_ModelReaders Proof_ModelReaders.
Local Open Scope string_scope.
Local Open Scope nat_scope.
Local Open Scope list_scope.

(** "ModelParams" of the configuration is a group, or missing. *)
Definition group_or_none (o : option pv) : Prop := match o with None => True | Some (PServer _) => True | Some _ => False end.

Lemma start h cfg key j t : wf h -> cfg < length h -> tree h cfg -> key <> "ModelParams" -> plain_value j = true ->
  says h cfg [key] (PVal j) = Some (PVal t) -> group_or_none (entry h cfg "ModelParams") ->
  exists h1 h2 c, get_default h cfg key (PVal j) = Some (h1, PVal t) /\ child h1 cfg "ModelParams" = inl (h2, PServer c) /\
    below h h2 cfg /\ entry h2 cfg "ModelParams" = Some (PServer c) /\
    (forall q d, q <> [] -> says h2 c q d = says h cfg ("ModelParams" :: q) d) /\
    (forall d, says h2 cfg [key] d = Some (PVal t)) /\
    (forall k q d, k <> key -> k <> "ModelParams" -> says h2 cfg (k :: q) d = says h cfg (k :: q) d).
Proof.
  intros W L T NK PJ S G.
  assert (exists h1, get_default h cfg key (PVal j) = Some (h1, PVal t) /\ get_val_iter h cfg [key] (PVal j) = Some (h1, PVal t)) as (h1 & D & V).
  { cbn [says] in S. unfold get_default. cbn [get_val_iter]. destruct (entry h cfg key) as [[x|c|cs]|] eqn:E; try discriminate.
    - injection S as ->. exists h. auto.
    - injection S as <-. rewrite (plain_as_is j PJ). eauto. }
  pose proof (get_below _ _ _ _ _ _ W L T V) as B1. pose proof (bl_len _ _ _ B1) as LE. assert (L1 : cfg < length h1) by lia.
  assert (M1 : forall k q d, k <> key -> says h1 cfg (k :: q) d = says h cfg (k :: q) d).
  { intros k q d N. eapply get_says; [exact W|exact L|exact T|exact V| |]; intros (z & Z); injection Z; intros; congruence. }
  assert (E1 : entry h1 cfg "ModelParams" = entry h cfg "ModelParams").
  { cbn [get_val_iter] in V. destruct (entry h cfg key) as [[x|c|cs]|]; try (injection V as <- _; reflexivity).
    - discriminate.
    - injection V as <- _. apply upd_other. congruence. }
  assert (V2 : forall d, says h1 cfg [key] d = Some (PVal t)).
  { intros d. eapply get_gives; [apply B1|assumption|]. apply (get_again _ h cfg (PVal j) h1 (PVal t) L W); [discriminate|exact V]. }
  pose proof (AddChild_one h1 cfg "ModelParams" eq_refl) as A.
  assert (exists h2 c, child h1 cfg "ModelParams" = inl (h2, PServer c) /\ below h1 h2 cfg /\ entry h2 cfg "ModelParams" = Some (PServer c) /\
            (forall q d, q <> ["ModelParams"] -> says h2 cfg q d = says h1 cfg q d)) as (h2 & c & A1 & B2 & E2 & S2).
  { rewrite A by discriminate. rewrite E1. unfold group_or_none in G. pose proof (bl_tree _ _ _ B1 T) as T1. pose proof (bl_wf _ _ _ B1) as W1.
    destruct (entry h cfg "ModelParams") as [[x|c|cs]|] eqn:E; try contradiction.
    - exists h1, c. split; [reflexivity|]. split; [now apply below_refl|]. split; [assumption|reflexivity].
    - exists (newkid h1 cfg "ModelParams"), (length h1). split; [reflexivity|]. split; [now apply newkid_below|].
      split; [now apply newkid_same|]. intros q d N. now apply newkid_says. }
  exists h1, h2, c. split; [assumption|]. split; [assumption|]. split; [eapply below_trans; eauto|]. split; [assumption|].
  split; [|split].
  - intros q d N. rewrite <- M1 by congruence. rewrite <- S2.
    + cbn [says]. now rewrite E2.
    + intros X. injection X as X. contradiction.
  - intros d. rewrite S2; [apply V2|]. congruence.
  - intros k q d N1 N2. rewrite S2 by congruence. now apply M1.
Qed.

(** FixedBehaviorType.  Every agent gets one model, all of the configured type, all with the
    group "ModelParams" of the configuration as their server - the same object - and every
    parameter has the value the configuration says, or the default of the class.  Nothing
    in the configuration is overwritten, other groups are not touched, every value read is
    stored in the group afterwards, and that group is what is handed out for persisting. *)
Theorem C108_fixed_behaviors : forall classes h cfg srv n ty rs vs,
  good_classes classes -> wf h -> cfg < length h -> tree h cfg ->
  says h cfg ["ModelType"] (PVal (JAtom (AStr "BehaviorIDMClassic"))) = Some (PVal (JAtom (AStr ty))) ->
  classes ty = Some rs ->
  group_or_none (entry h cfg "ModelParams") ->
  map (fun a => says h cfg ("ModelParams" :: hierarchy_of (fst a)) (PVal (snd a))) rs = map Some vs ->
  exists h' c,
    fixed_behaviors classes h cfg srv n = inl (h', repeat (mkBuilt ty c vs) n, repeat ty n, srv ++ [PServer c]) /\
    walk h' cfg ["ModelParams"] = Some c /\
    wf h' /\ tree h' cfg /\ cfg < length h' /\
    (forall l k w, entry h l k = Some w -> entry h' l k = Some w) /\
    (forall k q d, k <> "ModelType" -> k <> "ModelParams" -> says h' cfg (k :: q) d = says h cfg (k :: q) d) /\
    (forall a, In a rs -> says h' cfg ("ModelParams" :: hierarchy_of (fst a)) (PVal (snd a)) =
                          says h cfg ("ModelParams" :: hierarchy_of (fst a)) (PVal (snd a))) /\
    (forall d, says h' cfg ["ModelType"] d = Some (PVal (JAtom (AStr ty)))) /\
    (n <> 0 -> forall d, map (fun a => says h' c (hierarchy_of (fst a)) d) rs = map Some vs).
Proof.
  intros classes h cfg srv n ty rs vs GC W L T ST K G M.
  destruct (GC _ _ K) as (_ & _ & C).
  destruct (start h cfg "ModelType" (JAtom (AStr "BehaviorIDMClassic")) (JAtom (AStr ty)) W L T) as (h1 & h2 & c & D & A & B & E & S & V & O);
    [discriminate|reflexivity|exact ST|exact G|].
  pose proof (bl_len _ _ _ B) as LE. assert (L2 : cfg < length h2) by lia.
  pose proof (bl_wf _ _ _ B) as W2. pose proof (bl_tree _ _ _ B T) as T2. pose proof (W2 _ _ _ E) as cl. cbn in cl.
  destruct (build_n_says classes rs vs ty c K C n h2 W2 cl (tree_kid _ _ _ _ T2 E)) as (h3 & A3 & B3 & S3 & St).
  { rewrite <- M. apply map_ext_in. intros a I. apply S. apply hier_ne. }
  exists h3, c. pose proof (below_up h2 h3 cfg c "ModelParams" W2 L2 E T2 B3) as Bu.
  pose proof (below_trans _ _ _ _ L B Bu) as Bt.
  assert (fixed_behaviors classes h cfg srv n = inl (h3, repeat (mkBuilt ty c vs) n, repeat ty n, srv ++ [PServer c])) as FB.
  { unfold fixed_behaviors. rewrite D, A. destruct n as [|n].
    - cbn in A3. injection A3 as <-. reflexivity.
    - cbn [type_name]. rewrite A3. f_equal. f_equal. f_equal. clear. induction (S n) as [|m IH]; [reflexivity|]. cbn. now rewrite IH. }
  split; [exact FB|]. split; [cbn; rewrite (bl_keep _ _ _ Bu _ _ _ E); reflexivity|].
  split; [apply Bt|]. split; [now apply Bt|]. split; [pose proof (bl_len _ _ _ Bt); lia|]. split; [apply Bt|].
  split; [|split; [|split]].
  - intros k q d N1 N2. rewrite (up_says h2 h3 cfg c "ModelParams" W2 L2 E T2 B3) by assumption. now apply O.
  - intros a I. rewrite (up_says_in h2 h3 cfg c "ModelParams" L2 E T2 B3). fold (hier a). rewrite S3 by assumption. apply S. apply hier_ne.
  - intros d. rewrite (up_says h2 h3 cfg c "ModelParams" W2 L2 E T2 B3) by discriminate. apply V.
  - exact St.
Qed.
Print Assumptions C108_fixed_behaviors.

(** The next scenario, made from the configuration as the first one left it, gets models
    with the same server and the same values. *)
Theorem C108_fixed_next_scenario : forall classes h cfg srv n ty rs vs,
  good_classes classes -> wf h -> cfg < length h -> tree h cfg ->
  says h cfg ["ModelType"] (PVal (JAtom (AStr "BehaviorIDMClassic"))) = Some (PVal (JAtom (AStr ty))) ->
  classes ty = Some rs ->
  group_or_none (entry h cfg "ModelParams") ->
  map (fun a => says h cfg ("ModelParams" :: hierarchy_of (fst a)) (PVal (snd a))) rs = map Some vs ->
  exists h' c, fixed_behaviors classes h cfg srv n = inl (h', repeat (mkBuilt ty c vs) n, repeat ty n, srv ++ [PServer c]) /\
    forall srv' m, exists h'', fixed_behaviors classes h' cfg srv' m =
      inl (h'', repeat (mkBuilt ty c vs) m, repeat ty m, srv' ++ [PServer c]).
Proof.
  intros classes h cfg srv n ty rs vs GC W L T ST K G M.
  destruct (C108_fixed_behaviors classes h cfg srv n ty rs vs GC W L T ST K G M) as (h' & c & F & Wk & W' & T' & L' & Kp & _ & S' & V' & _).
  exists h', c. split; [exact F|]. intros srv' m.
  destruct (C108_fixed_behaviors classes h' cfg srv' m ty rs vs GC W' L' T') as (h'' & c' & F' & Wk' & _ & _ & _ & Kp' & _).
  - apply V'.
  - exact K.
  - cbn in Wk. destruct (entry h' cfg "ModelParams") as [[|x|]|]; try discriminate. exact I.
  - rewrite <- M. apply map_ext_in. exact S'.
  - exists h''. assert (c' = c) as ->; [|exact F'].
    apply (walk_keeps h' h'' Kp' ["ModelParams"] cfg) in Wk. congruence.
Qed.
Print Assumptions C108_fixed_next_scenario.

(** FixedDynamicType does the same for dynamic models (nothing is handed out to persist). *)
Theorem C108_fixed_dynamics : forall classes h cfg n ty rs vs,
  good_classes classes -> wf h -> cfg < length h -> tree h cfg ->
  says h cfg ["ModelType"] (PVal (JAtom (AStr "SingleTrackModel"))) = Some (PVal (JAtom (AStr ty))) ->
  classes ty = Some rs ->
  group_or_none (entry h cfg "ModelParams") ->
  map (fun a => says h cfg ("ModelParams" :: hierarchy_of (fst a)) (PVal (snd a))) rs = map Some vs ->
  exists h' c,
    fixed_dynamics classes h cfg n = inl (h', repeat (mkBuilt ty c vs) n) /\
    walk h' cfg ["ModelParams"] = Some c /\ wf h' /\ tree h' cfg /\
    (forall l k w, entry h l k = Some w -> entry h' l k = Some w) /\
    (forall k q d, k <> "ModelType" -> k <> "ModelParams" -> says h' cfg (k :: q) d = says h cfg (k :: q) d).
Proof.
  intros classes h cfg n ty rs vs GC W L T ST K G M.
  destruct (GC _ _ K) as (_ & _ & C).
  destruct (start h cfg "ModelType" (JAtom (AStr "SingleTrackModel")) (JAtom (AStr ty)) W L T) as (h1 & h2 & c & D & A & B & E & S & V & O);
    [discriminate|reflexivity|exact ST|exact G|].
  pose proof (bl_len _ _ _ B) as LE. assert (L2 : cfg < length h2) by lia.
  pose proof (bl_wf _ _ _ B) as W2. pose proof (bl_tree _ _ _ B T) as T2. pose proof (W2 _ _ _ E) as cl. cbn in cl.
  destruct (build_n_says classes rs vs ty c K C n h2 W2 cl (tree_kid _ _ _ _ T2 E)) as (h3 & A3 & B3 & S3 & St).
  { rewrite <- M. apply map_ext_in. intros a I. apply S. apply hier_ne. }
  exists h3, c. pose proof (below_up h2 h3 cfg c "ModelParams" W2 L2 E T2 B3) as Bu.
  pose proof (below_trans _ _ _ _ L B Bu) as Bt.
  split. { unfold fixed_dynamics. rewrite D, A. destruct n as [|n]; [cbn in A3; now injection A3 as <-|]. exact A3. }
  split; [cbn; rewrite (bl_keep _ _ _ Bu _ _ _ E); reflexivity|].
  split; [apply Bt|]. split; [now apply Bt|]. split; [apply Bt|].
  intros k q d N1 N2. rewrite (up_says h2 h3 cfg c "ModelParams" W2 L2 E T2 B3) by assumption. now apply O.
Qed.
Print Assumptions C108_fixed_dynamics.

(** One could expect the same of FixedExecutionType.  But every execution model gets a
    server of its own, new and empty: whatever the configuration says under "ModelParams",
    its parameters are the defaults of the class. *)
Lemma empty_says h l (q : list string) d : (forall k, entry h l k = None) -> q <> [] -> says h l q d = Some d.
Proof. intros E N. destruct q as [|k q]; [congruence|]. cbn. now rewrite E. Qed.
Lemma exec_n_defaults classes ty rs : classes ty = Some rs -> consistent rs -> forall n h, wf h ->
  exists h' bs, exec_n classes n h ty = inl (h', bs) /\ length h <= length h' /\
    (forall l k w, entry h l k = Some w -> entry h' l k = Some w) /\
    length bs = n /\ NoDup (map b_server bs) /\
    Forall (fun b => b_type b = ty /\ length h <= b_server b /\ b_vals b = map (fun a => PVal (snd a)) rs) bs.
Proof.
  intros K C. induction n as [|n IH]; intros h W; cbn [exec_n].
  - exists h, []. repeat (split; [auto; constructor|]). constructor.
  - unfold alloc. set (g := h ++ [[]]). assert (LG : length g = S (length h)) by (unfold g; rewrite app_length; cbn; lia).
    assert (Wg : wf g) by now apply wf_app.
    assert (EN : forall k, entry g (length h) k = None) by (intros k; apply entry_new).
    assert (Tg : tree g (length h)).
    { intros [|a p] [|b q] c P Q; [reflexivity| | |]; cbn in P, Q; try rewrite EN in P; try rewrite EN in Q; discriminate. }
    destruct (build_says classes g ty (length h) rs (map (fun a => PVal (snd a)) rs)) as (h1 & A & B & _).
    + assumption.
    + lia.
    + assumption.
    + exact K.
    + exact C.
    + rewrite map_map. apply map_ext. intros a. apply empty_says; [exact EN|apply hier_ne].
    + rewrite A. destruct (IH h1 (bl_wf _ _ _ B)) as (h2 & bs & A2 & L2 & Kp & Len & ND & F). rewrite A2.
      pose proof (bl_len _ _ _ B) as LE. exists h2, (mkBuilt ty (length h) (map (fun a => PVal (snd a)) rs) :: bs). split; [reflexivity|].
      split; [lia|]. split. { intros l k w H. apply Kp, (bl_keep _ _ _ B). unfold g. now apply entry_app_some. }
      split; [cbn; now rewrite Len|]. split.
      * cbn. constructor; [|assumption]. intros I. apply in_map_iff in I. destruct I as (b & Eb & Ib).
        rewrite Forall_forall in F. destruct (F _ Ib) as (_ & Q & _). lia.
      * constructor; [cbn; split; [reflexivity|split; [lia|reflexivity]]|].
        eapply Forall_impl; [|exact F]. cbn. intros b (P & Q & X). split; [exact P|]. split; [lia|exact X].
Qed.
Theorem C108_execution_parameters_configurable_refuted : forall classes h cfg n ty rs,
  good_classes classes -> wf h ->  cfg < length h ->
  says h cfg ["ModelType"] (PVal (JAtom (AStr "ExecutionModelInterpolate"))) = Some (PVal (JAtom (AStr ty))) ->
  classes ty = Some rs ->
  exists h' bs, fixed_executions classes h cfg n = inl (h', bs) /\ length bs = n /\
    NoDup (map b_server bs) /\
    Forall (fun b => b_type b = ty /\ length h <= b_server b /\ b_vals b = map (fun a => PVal (snd a)) rs) bs /\
    (forall l k w, entry h l k = Some w -> entry h' l k = Some w).
Proof.
  intros classes h cfg n ty rs GC W L SY K. destruct (GC _ _ K) as (_ & _ & C).
  assert (exists h1, get_default h cfg "ModelType" (PVal (JAtom (AStr "ExecutionModelInterpolate"))) = Some (h1, PVal (JAtom (AStr ty))) /\
            wf h1 /\ length h1 = length h /\ (forall l k w, entry h l k = Some w -> entry h1 l k = Some w)) as (h1 & D & W1 & L1 & K1).
  { cbn [says] in SY. unfold get_default. destruct (entry h cfg "ModelType") as [[x|c|cs]|] eqn:E; try discriminate.
    - injection SY as ->. exists h. auto.
    - injection SY as <-. cbn [to_value]. eexists. split; [reflexivity|]. split; [apply wf_upd; [assumption|exact I]|].
      split; [apply upd_length|]. intros l k w H. rewrite upd_other; [assumption|]. intros A. injection A as -> ->. congruence. }
  unfold fixed_executions. rewrite D. destruct n as [|n].
  - exists h1, []. split; [reflexivity|]. split; [reflexivity|]. split; [constructor|]. split; [constructor|assumption].
  - cbn [type_name]. destruct (exec_n_defaults classes ty rs K C (S n) h1 W1) as (h' & bs & A & _ & Kp & Len & ND & F).
    exists h', bs. split; [exact A|]. split; [exact Len|]. split; [exact ND|]. rewrite L1 in F. split; [exact F|]. auto.
Qed.
Print Assumptions C108_execution_parameters_configurable_refuted.

(** SampleBehaviorType.  [draw k m] is the k-th number of the random state, between 0 and m.
    Every agent gets one model of the type drawn for it, from the group of that type below
    "ModelParams": agents of one type share one server.  Every parameter has the value the
    configuration says there, or the default of the class; the groups of all listed types
    hold all parameters of their class afterwards, drawn or not. *)
Definition type_ready (classes : string -> option (list (string * json))) (h : heap) (cfg : loc) (ty : string) : Prop :=
  exists rs vs, classes ty = Some rs /\
    map (fun a => says h cfg ("ModelParams" :: ty :: hierarchy_of (fst a)) (PVal (snd a))) rs = map Some vs /\
    forall m, walk h cfg ["ModelParams"] = Some m -> group_or_none (entry h m ty).

Section Sampling.
Variable classes : string -> option (list (string * json)).
Hypothesis GC : good_classes classes.
Variables (tys : list string) (h0 : heap) (m : loc).
Hypotheses (W0 : wf h0) (L0 : m < length h0) (T0 : tree h0 m).
Hypothesis ready : forall ty, In ty tys -> exists rs vs, classes ty = Some rs /\ group_or_none (entry h0 m ty) /\
  map (fun a => says h0 m (ty :: hier a) (PVal (snd a))) rs = map Some vs.

Record inv (h : heap) : Prop := mkInv {
  iv_below : below h0 h m;
  iv_entry : forall ty, In ty tys -> group_or_none (entry h m ty);
  iv_says : forall ty rs a, In ty tys -> classes ty = Some rs -> In a rs ->
    says h m (ty :: hier a) (PVal (snd a)) = says h0 m (ty :: hier a) (PVal (snd a)) }.

Lemma inv_step h ty rs vs (ext : bool) : inv h -> In ty tys -> classes ty = Some rs ->
  map (fun a => says h0 m (ty :: hier a) (PVal (snd a))) rs = map Some vs ->
  exists h1 h2 c, child h m ty = inl (h1, PServer c) /\
    build_model classes (if ext then h1 ++ [[]] else h1) ty (PServer c) = inl (h2, mkBuilt ty c vs) /\ inv h2 /\
    below h h2 m /\ entry h2 m ty = Some (PServer c) /\ (forall d, map (fun a => says h2 c (hier a) d) rs = map Some vs).
Proof.
  intros I IN K M. destruct (GC _ _ K) as (NE & NC & C). pose proof (iv_below _ I) as B. pose proof (bl_len _ _ _ B) as LE.
  assert (Lm : m < length h) by lia.
  destruct (build_child classes h m ty rs vs ext (bl_wf _ _ _ B) Lm (bl_tree _ _ _ B T0) NC NE K C) as (h1 & h2 & c & A1 & A2 & A3 & A4 & A5 & A6 & A7).
  - pose proof (iv_entry _ I ty IN) as G. unfold group_or_none in G. destruct (entry h m ty) as [[|x|]|]; try contradiction; eauto.
  - rewrite <- M. apply map_ext_in. intros a Ia. now apply (iv_says _ I ty rs).
  - exists h1, h2, c. split; [exact A1|]. split; [exact A2|]. split; [|split; [exact A3|split; [exact A4|exact A7]]].
    constructor.
    + eapply below_trans; eauto.
    + intros ty2 I2. destruct (string_dec ty2 ty) as [->|N]; [rewrite A4; exact Logic.I|]. destruct (A5 ty2 N) as [-> _]. now apply I.
    + intros ty2 rs2 a I2 K2 Ia. destruct (string_dec ty2 ty) as [->|N].
      * assert (rs2 = rs) as -> by congruence. rewrite A6 by assumption. now apply (iv_says _ I ty rs).
      * destruct (A5 ty2 N) as [_ ->]. now apply (iv_says _ I ty2 rs2).
Qed.

(** [t] is there with all its parameters stored. *)
Definition filled_in (h : heap) (ty : string) : Prop := exists c rs vs, entry h m ty = Some (PServer c) /\ classes ty = Some rs /\
  map (fun a => says h0 m (ty :: hier a) (PVal (snd a))) rs = map Some vs /\ forall d, map (fun a => says h c (hier a) d) rs = map Some vs.
Lemma stored_list (h h' : heap) c rs vs : (forall l k w, entry h l k = Some w -> entry h' l k = Some w) ->
  (forall d, map (fun a => says h c (hier a) d) rs = map Some vs) -> forall d, map (fun a => says h' c (hier a) d) rs = map Some vs.
Proof.
  intros K. revert vs. induction rs as [|a rs IH]; intros vs Hs d; destruct vs as [|v vs]; try reflexivity; try (specialize (Hs d); discriminate).
  cbn [map]. f_equal.
  - apply (stored_kept h h' K). intros d'. specialize (Hs d'). cbn [map] in Hs. now injection Hs.
  - apply IH. intros d'. specialize (Hs d'). cbn [map] in Hs. now injection Hs.
Qed.
Lemma filled_kept h h' ty : (forall l k w, entry h l k = Some w -> entry h' l k = Some w) -> filled_in h ty -> filled_in h' ty.
Proof.
  intros K (c & rs & vs & E & C & M & S). exists c, rs, vs. split; [now apply K|]. split; [exact C|]. split; [exact M|].
  eapply stored_list; eauto.
Qed.

Lemma defaults_ok : forall l h, incl l tys -> inv h -> exists h', defaults classes h m l = inl h' /\ inv h' /\
  (forall x k w, entry h x k = Some w -> entry h' x k = Some w) /\ Forall (filled_in h') l.
Proof.
  induction l as [|ty l IH]; intros h I V; cbn [defaults].
  - exists h. split; [reflexivity|]. split; [exact V|]. split; [auto|constructor].
  - assert (In ty tys) as IT by (apply I; now left). destruct (ready ty IT) as (rs & vs & K & _ & M).
    destruct (inv_step h ty rs vs false V IT K M) as (h1 & h2 & c & A1 & A2 & A3 & A4 & A5 & A6). rewrite A1, A2.
    destruct (IH h2) as (h3 & D & V3 & K3 & F3); [intros x X; apply I; now right|exact A3|].
    exists h3. split; [exact D|]. split; [exact V3|]. split; [intros; apply K3; now apply A4|]. constructor; [|exact F3].
    apply (filled_kept h2 h3 ty K3). exists c, rs, vs. auto.
Qed.

Lemma sample_ok draw : (forall k n, 0 < n -> draw k n < n) -> tys <> [] -> forall n h k, inv h ->
  exists h' bs, sample_n classes n h m tys draw k = inl (h', bs, k + n) /\ inv h' /\ length bs = n /\
    (forall x k w, entry h x k = Some w -> entry h' x k = Some w) /\
    forall i b, nth_error bs i = Some b ->
      nth_error tys (draw (k + i) (length tys)) = Some (b_type b) /\ entry h' m (b_type b) = Some (PServer (b_server b)) /\
      exists rs, classes (b_type b) = Some rs /\
        map (fun a => says h0 m (b_type b :: hier a) (PVal (snd a))) rs = map Some (b_vals b).
Proof.
  intros Dr NE. induction n as [|n IH]; intros h k V; cbn [sample_n].
  - exists h, []. rewrite Nat.add_0_r. split; [reflexivity|]. split; [exact V|]. split; [reflexivity|]. split; [auto|].
    intros [|i] b H; discriminate.
  - assert (0 < length tys) as P by (destruct tys; [congruence|cbn; lia]). pose proof (Dr k _ P) as Q.
    destruct (length tys =? 0) eqn:Z; [apply Nat.eqb_eq in Z; lia|].
    destruct (nth_error tys (draw k (length tys))) as [ty|] eqn:Nt; [|apply nth_error_None in Nt; lia].
    pose proof (nth_error_In _ _ Nt) as IT. destruct (ready ty IT) as (rs & vs & K & _ & M).
    destruct (inv_step h ty rs vs true V IT K M) as (h1 & h2 & c & A1 & A2 & A3 & A4 & A5 & A6). rewrite A1, A2.
    destruct (IH h2 (S k) A3) as (h3 & bs & D & V3 & Len & K3 & F3). rewrite D. exists h3, (mkBuilt ty c vs :: bs).
    split; [do 2 f_equal; lia|]. split; [exact V3|]. split; [cbn; now rewrite Len|]. split; [intros; apply K3; now apply A4|].
    intros [|i] b H; cbn in H.
    + injection H as <-. cbn [b_type b_server b_vals]. rewrite Nat.add_0_r. split; [exact Nt|]. split; [now apply K3|]. eauto.
    + replace (k + S i) with (S k + i) by lia. now apply F3.
Qed.
End Sampling.

Lemma names_strings tys : names_in (map (fun s => JAtom (AStr s)) tys) = inl tys.
Proof. induction tys as [|t r IH]; [reflexivity|]. cbn. now rewrite IH. Qed.

Theorem C108_sampled_behaviors : forall classes h cfg srv n draw k tys,
  good_classes classes -> wf h -> cfg < length h -> tree h cfg ->
  (forall i m, 0 < m -> draw i m < m) ->
  says h cfg ["ModelTypesList"] default_types = Some (PVal (JList (map (fun s => JAtom (AStr s)) tys))) ->
  tys <> [] -> group_or_none (entry h cfg "ModelParams") -> Forall (type_ready classes h cfg) tys ->
  exists h' bs,
    sampled_behaviors classes h cfg srv n draw k =
      inl (h', bs, map b_type bs, srv ++ map (fun b => PServer (b_server b)) bs, k + n) /\
    length bs = n /\
    (forall i b, nth_error bs i = Some b ->
      nth_error tys (draw (k + i) (length tys)) = Some (b_type b) /\
      walk h' cfg ["ModelParams"; b_type b] = Some (b_server b) /\
      exists rs, classes (b_type b) = Some rs /\
        map (fun a => says h cfg ("ModelParams" :: b_type b :: hierarchy_of (fst a)) (PVal (snd a))) rs = map Some (b_vals b)) /\
    wf h' /\ tree h' cfg /\
    (forall l x w, entry h l x = Some w -> entry h' l x = Some w) /\
    (forall x q d, x <> "ModelTypesList" -> x <> "ModelParams" -> says h' cfg (x :: q) d = says h cfg (x :: q) d) /\
    (forall ty, In ty tys -> exists rs vs, classes ty = Some rs /\
      map (fun a => says h cfg ("ModelParams" :: ty :: hierarchy_of (fst a)) (PVal (snd a))) rs = map Some vs /\
      forall d, map (fun a => says h' cfg ("ModelParams" :: ty :: hierarchy_of (fst a)) d) rs = map Some vs).
Proof.
  intros classes h cfg srv n draw k tys GC W L T Dr ST NE G R.
  destruct (start h cfg "ModelTypesList" (JList [JAtom (AStr "BehaviorIDMClassic"); JAtom (AStr "BehaviorMobilRuleBased")])
              (JList (map (fun s => JAtom (AStr s)) tys)) W L T) as (h1 & h2 & c & D & A & B & E & SY & V & O);
    [discriminate|reflexivity|exact ST|exact G|].
  pose proof (bl_len _ _ _ B) as LE. assert (L2 : cfg < length h2) by lia.
  pose proof (bl_wf _ _ _ B) as W2. pose proof (bl_tree _ _ _ B T) as T2. pose proof (W2 _ _ _ E) as cl. cbn in cl.
  pose proof (tree_kid _ _ _ _ T2 E) as Tc.
  assert (RD : forall ty, In ty tys -> exists rs vs, classes ty = Some rs /\ group_or_none (entry h2 c ty) /\
     map (fun a => says h2 c (ty :: hier a) (PVal (snd a))) rs = map Some vs).
  { intros ty IT. rewrite Forall_forall in R. destruct (R ty IT) as (rs & vs & K & M & Q). exists rs, vs. split; [exact K|]. split.
    - pose proof (SY [ty] (PVal (JAtom ANone)) ltac:(discriminate)) as X. cbn [says] in X. cbn [walk] in Q. unfold group_or_none in *.
      destruct (entry h cfg "ModelParams") as [[|x|]|] eqn:EM; try contradiction.
      + assert (c = x) as ->; [|].
        { pose proof (bl_keep _ _ _ B _ _ _ EM) as Y. congruence. }
        specialize (Q x eq_refl). destruct (entry h x ty) as [[|y|]|] eqn:Ey; try contradiction.
        * now rewrite (bl_keep _ _ _ B _ _ _ Ey).
        * destruct (entry h2 x ty) as [[j|y|ls]|] eqn:E2; try exact I; exfalso.
          -- injection X as X. subst j. pose proof (SY [ty] (PVal (JAtom (AInt 0))) ltac:(discriminate)) as X.
             cbn [says] in X. rewrite EM, Ey, E2 in X. discriminate.
          -- discriminate.
      + destruct (entry h2 c ty) as [[j|y|ls]|] eqn:E2; try exact I; exfalso.
        * injection X as X. subst j. pose proof (SY [ty] (PVal (JAtom (AInt 0))) ltac:(discriminate)) as X.
          cbn [says] in X. rewrite EM, E2 in X. discriminate.
        * discriminate.
    - rewrite <- M. apply map_ext_in. intros a Ia. apply SY. discriminate. }
  assert (IV : inv classes tys h2 c h2).
  { constructor; [now apply below_refl| |reflexivity]. intros ty IT. destruct (RD ty IT) as (_ & _ & _ & X & _). exact X. }
  destruct (defaults_ok classes GC tys h2 c cl Tc RD tys h2 (incl_refl _) IV) as (h3 & D3 & I3 & K3 & F3).
  destruct (sample_ok classes GC tys h2 c cl Tc RD draw Dr NE n h3 k I3) as (h4 & bs & D4 & I4 & Len & K4 & P).
  pose proof (iv_below _ _ _ _ _ I4) as B4.
  pose proof (below_up h2 h4 cfg c "ModelParams" W2 L2 E T2 B4) as Bu. pose proof (below_trans _ _ _ _ L B Bu) as Bt.
  assert (E4 : entry h4 cfg "ModelParams" = Some (PServer c)) by exact (bl_keep _ _ _ Bu _ _ _ E).
  exists h4, bs. split.
  { unfold sampled_behaviors. change default_types with (PVal (JList [JAtom (AStr "BehaviorIDMClassic"); JAtom (AStr "BehaviorMobilRuleBased")])).
    rewrite D, A. cbn [type_list]. rewrite names_strings, D3, D4. reflexivity. }
  split; [exact Len|]. split.
  { intros i b H. destruct (P i b H) as (P1 & P2 & rs & P3 & P4). split; [exact P1|].
    split; [cbn; now rewrite E4, P2|]. exists rs. split; [exact P3|]. rewrite <- P4. apply map_ext. intros a. symmetry. apply SY. discriminate. }
  split; [apply Bt|]. split; [now apply Bt|]. split; [apply Bt|]. split.
  { intros x q d N1 N2. rewrite (up_says h2 h4 cfg c "ModelParams" W2 L2 E T2 B4) by assumption. now apply O. }
  intros ty IT. rewrite Forall_forall in F3. destruct (filled_kept _ h2 c h3 h4 ty K4 (F3 ty IT)) as (c2 & rs & vs & X1 & X2 & X3 & X4).
  exists rs, vs. split; [exact X2|]. split.
  - rewrite <- X3. apply map_ext. intros a. symmetry. apply SY. discriminate.
  - intros d. rewrite <- (X4 d). apply map_ext. intros a. cbn [says]. now rewrite E4, X1.
Qed.
Print Assumptions C108_sampled_behaviors.

(** A listed type no class has stops the reader, also if no agent would draw it; so does an
    empty list as soon as there is an agent. *)
Theorem C108_sample_needs_all_types : forall classes h cfg srv n draw k tys ty r,
  sampled_behaviors classes h cfg srv n draw k = inl r ->
  says h cfg ["ModelTypesList"] default_types = Some (PVal (JList (map (fun s => JAtom (AStr s)) tys))) ->
  (In ty tys -> classes ty <> None) /\ (n <> 0 -> tys <> []).
Proof.
  intros classes h cfg srv n draw k tys ty r H S. unfold sampled_behaviors in H.
  assert (exists h1, get_default h cfg "ModelTypesList" default_types = Some (h1, PVal (JList (map (fun s => JAtom (AStr s)) tys)))) as (h1 & D).
  { cbn [says] in S. unfold get_default. destruct (entry h cfg "ModelTypesList") as [[x|c|cs]|]; try discriminate.
    - injection S as ->. eauto.
    - unfold default_types in *. injection S as <-. cbn [to_value forallb is_dict andb]. eauto. }
  rewrite D in H. destruct (child h1 cfg "ModelParams") as [[h2 [x|m|cs]]|e]; try discriminate;
    cbn [type_list] in H; rewrite names_strings in H; try discriminate.
  destruct (defaults classes h2 m tys) as [h3|e] eqn:Df; [|discriminate].
  destruct (sample_n classes n h3 m tys draw k) as [[[h4 bs] k']|e] eqn:Sm; [|discriminate]. split.
  - clear - Df. revert h2 Df. induction tys as [|t l IH]; intros h2 Df IN; [destruct IN|]. cbn [defaults] in Df.
    destruct (child h2 m t) as [[g p]|e]; [|discriminate]. destruct IN as [->|IN].
    + unfold build_model in Df. destruct (classes ty); [discriminate|discriminate].
    + destruct (build_model classes g t p) as [[g2 b]|e]; [|discriminate]. eapply IH; eauto.
  - intros N ->. destruct n; [congruence|]. discriminate.
Qed.
Print Assumptions C108_sample_needs_all_types.

(** The same random numbers and the same configuration give the same models: the reader is a
    function.  It takes exactly one number per agent (the last component above), so the
    numbers of the sources after it do not depend on the types drawn. *)

(** InteractionDataBehaviors: agent number i replays track number i, each with a server of its
    own; with fewer tracks than agents the reader stops, further tracks are ignored. *)
Lemma track_models_ok {T} (tracks : list T) : forall n i h,
  (i + n <= length tracks -> exists h' bs, track_models n i h tracks = inl (h', bs) /\ map fst bs = firstn n (skipn i tracks) /\
     map snd bs = seq (length h) n /\ h' = h ++ repeat [] n) /\
  (length tracks < i + n -> i <= length tracks -> track_models n i h tracks = inr IndexError).
Proof.
  induction n as [|n IH]; intros i h; cbn [track_models].
  - split; [|intros; lia]. intros _. exists h, []. split; [reflexivity|]. split; [reflexivity|]. split; [reflexivity|]. now rewrite app_nil_r.
  - split.
    + intros P. destruct (nth_error tracks i) as [t|] eqn:N; [|apply nth_error_None in N; lia]. unfold alloc.
      destruct (proj1 (IH (S i) (h ++ [[]]))) as (h' & bs & A & F & Sd & Hh); [lia|]. rewrite A.
      exists h', ((t, length h) :: bs). split; [reflexivity|].
      split. { cbn [map fst]. rewrite F. clear - N. revert tracks N. induction i as [|i IH]; intros [|x l] N; cbn in *; try discriminate.
               - now injection N as ->.
               - now apply IH. }
      split. { cbn [map snd seq]. f_equal. rewrite Sd, app_length. cbn. now rewrite Nat.add_1_r. }
      rewrite Hh, <- app_assoc. reflexivity.
    + intros P Q. destruct (nth_error tracks i) as [t|] eqn:N; [|reflexivity]. unfold alloc.
      assert (i < length tracks) by (apply nth_error_Some; congruence).
      rewrite (proj2 (IH (S i) (h ++ [[]]))); [reflexivity|lia|lia].
Qed.
Theorem C108_track_behaviors : forall T (tracks : list T) h srv n,
  (n <= length tracks -> exists h' bs, track_behaviors h srv n tracks =
     inl (h', bs, repeat "BehaviorStaticTrajectory" n, srv ++ map (fun b => PServer (snd b)) bs) /\
     map fst bs = firstn n tracks /\ NoDup (map snd bs) /\
     Forall (fun b => length h <= snd b /\ nth_error h' (snd b) = Some []) bs /\ firstn (length h) h' = h) /\
  (length tracks < n -> track_behaviors h srv n tracks = inr IndexError).
Proof.
  intros T tracks h srv n. unfold track_behaviors. split.
  - intros P. destruct (proj1 (track_models_ok tracks n 0 h) P) as (h' & bs & A & F & Sd & ->). rewrite A. exists (h ++ repeat [] n), bs.
    assert (Lb : length bs = n) by (rewrite <- (map_length snd), Sd; apply seq_length).
    split. { do 3 f_equal. subst n. clear. induction bs as [|b bs IH]; [reflexivity|]. cbn. now rewrite IH. }
    split; [exact F|]. split; [rewrite Sd; apply seq_NoDup|]. split.
    + apply Forall_forall. intros b I. assert (In (snd b) (seq (length h) n)) as Q by (rewrite <- Sd; now apply in_map).
      apply in_seq in Q. split; [lia|]. rewrite nth_error_app2 by lia.
      assert (forall m x, x < m -> nth_error (repeat ([] : store) m) x = Some []) as RP.
      { clear. induction m as [|m IH]; intros [|x] X; try lia; [reflexivity|]. cbn. apply IH. lia. }
      apply RP. lia.
    + rewrite firstn_app, Nat.sub_diag, firstn_all. cbn. now rewrite app_nil_r.
  - intros P. now rewrite (proj2 (track_models_ok tracks n 0 h)) by lia.
Qed.
Print Assumptions C108_track_behaviors.

(** When the reader stops: a type no class has (NameError), "ModelParams" that is no group
    (TypeError), a parameter that is a group (ValueError) - unless there are no agents. *)
Theorem C108_fixed_stops : forall classes h cfg srv n ty,
  good_classes classes -> wf h -> cfg < length h -> tree h cfg -> n <> 0 ->
  says h cfg ["ModelType"] (PVal (JAtom (AStr "BehaviorIDMClassic"))) = Some (PVal (JAtom (AStr ty))) ->
  (classes ty = None -> fixed_behaviors classes h cfg srv n = inr NameError) /\
  (forall rs v, classes ty = Some rs -> entry h cfg "ModelParams" = Some v -> (forall c, v <> PServer c) ->
     fixed_behaviors classes h cfg srv n = inr TypeError) /\
  (forall rs a, classes ty = Some rs -> group_or_none (entry h cfg "ModelParams") -> In a rs ->
     says h cfg ("ModelParams" :: hierarchy_of (fst a)) (PVal (snd a)) = None ->
     fixed_behaviors classes h cfg srv n = inr ValueError).
Proof.
  intros classes h cfg srv n ty GC W L T N ST.
  assert (exists h1, get_default h cfg "ModelType" (PVal (JAtom (AStr "BehaviorIDMClassic"))) = Some (h1, PVal (JAtom (AStr ty))) /\
            entry h1 cfg "ModelParams" = entry h cfg "ModelParams") as (h1 & D & E1).
  { cbn [says] in ST. unfold get_default. destruct (entry h cfg "ModelType") as [[x|c|cs]|] eqn:E; try discriminate.
    - injection ST as ->. exists h. auto.
    - injection ST as <-. cbn [to_value]. eexists. split; [reflexivity|]. apply upd_other. congruence. }
  split; [|split].
  - intros K. unfold fixed_behaviors. rewrite D, AddChild_one by (reflexivity || discriminate).
    destruct n as [|n]; [congruence|]. destruct (entry h1 cfg "ModelParams"); cbn [type_name build_n]; unfold build_model; now rewrite K.
  - intros rs v K E V. unfold fixed_behaviors. rewrite D, AddChild_one by (reflexivity || discriminate). rewrite E1, E.
    destruct n as [|n]; [congruence|]. cbn [type_name build_n]. unfold build_model. rewrite K. destruct v as [j|c|cs]; try reflexivity.
    exfalso. now apply (V c).
  - intros rs a K G Ia Sa. destruct (GC _ _ K) as (_ & _ & C).
    destruct (start h cfg "ModelType" (JAtom (AStr "BehaviorIDMClassic")) (JAtom (AStr ty)) W L T) as (h1' & h2 & c & D' & A & B & E & SY & V & O);
      [discriminate|reflexivity|exact ST|exact G|].
    pose proof (bl_len _ _ _ B) as LE. assert (L2 : cfg < length h2) by lia.
    pose proof (bl_wf _ _ _ B) as W2. pose proof (bl_tree _ _ _ B T) as T2. pose proof (W2 _ _ _ E) as cl. cbn in cl.
    unfold fixed_behaviors. rewrite D', A. destruct n as [|n]; [congruence|]. cbn [type_name build_n]. unfold build_model. rewrite K.
    destruct (read_all h2 c rs) as [[h3 vs]|] eqn:Rd; [|reflexivity]. exfalso.
    pose proof (read_all_gives rs h2 c h3 vs W2 cl (tree_kid _ _ _ _ T2 E) C Rd) as M.
    assert (says h2 c (hier a) (PVal (snd a)) = None) as X by (rewrite SY by apply hier_ne; exact Sa).
    clear - M Ia X. revert vs M. induction rs as [|b rs IH]; intros vs M; [destruct Ia|]. destruct vs as [|v vs]; [discriminate|].
    cbn [map] in M. injection M as M1 M2. destruct Ia as [->|Ia]; [congruence|]. eapply IH; eauto.
Qed.
Print Assumptions C108_fixed_stops.

(** One could expect a configuration to survive saving and loading.  But an empty group
    "ModelParams" is saved as the string "MISSING", and with that string no model can be
    made. *)
Theorem C108_saved_configuration_works_refuted : forall classes srv n rs,
  classes "BehaviorIDMClassic" = Some rs -> n <> 0 ->
  let saved := match to_dict 5 [[("ModelParams", PServer 1)]; []] 0 with Some d => d | None => [] end in
  saved = [("ModelParams", missing)] /\
  exists h l, of_json [] saved = Some (h, l) /\ fixed_behaviors classes h l srv n = inr TypeError.
Proof.
  intros classes srv n rs K N saved. split; [reflexivity|]. eexists _, _. split; [reflexivity|].
  destruct n as [|n]; [congruence|].
  transitivity (match build_n classes (S n) [[("ModelParams", PVal missing); ("ModelType", PVal (JAtom (AStr "BehaviorIDMClassic")))]] "BehaviorIDMClassic" (PVal missing) with
    | inr e => inr e | inl (h3, bs) => inl (h3, bs, map (fun _ => "BehaviorIDMClassic") bs, srv ++ [PVal missing]) end); [reflexivity|].
  cbn [build_n]. unfold build_model. rewrite K. reflexivity.
Qed.
Print Assumptions C108_saved_configuration_works_refuted.

(* ---- the hypotheses are met ---- *)
Definition fl (q : Q) : json := JAtom (AFloat q).
Definition idm_reads : list (string * json) :=
  [("BehaviorIDMClassic::MinimumSpacing", fl 2); ("BehaviorIDMClassic::MaxVelocity", fl 50); ("BehaviorIDMClassic::Exponent", JAtom (AInt 4))].
Definition mobil_reads : list (string * json) := [("BehaviorMobil::Politeness", fl 0)].
Definition interp_reads : list (string * json) := [("Execution::Steps", JAtom (AInt 7))].
Definition ex_classes (t : string) : option (list (string * json)) :=
  if String.eqb t "BehaviorIDMClassic" then Some idm_reads else
  if String.eqb t "BehaviorMobilRuleBased" then Some mobil_reads else
  if String.eqb t "ExecutionModelInterpolate" then Some interp_reads else None.
Lemma ex_good : good_classes ex_classes.
Proof.
  intros t rs H. unfold ex_classes in H.
  destruct (String.eqb_spec t "BehaviorIDMClassic") as [->|]; [|destruct (String.eqb_spec t "BehaviorMobilRuleBased") as [->|];
    [|destruct (String.eqb_spec t "ExecutionModelInterpolate") as [->|]; [|discriminate]]];
  injection H as <-; (split; [discriminate|]); (split; [reflexivity|]); intros a b A B (r & E);
  cbn in A, B; repeat match goal with H : _ \/ _ |- _ => destruct H end; try contradiction; subst; try reflexivity; vm_compute in E; discriminate.
Qed.
(** {"ModelParams": {"BehaviorIDMClassic": {"MaxVelocity": 30.0}}, "Type": "FixedBehaviorType"} *)
Definition ex_h : heap := [[("ModelParams", PServer 1); ("Type", PVal (JAtom (AStr "FixedBehaviorType")))];
  [("BehaviorIDMClassic", PServer 2)]; [("MaxVelocity", PVal (fl 30))]].
Lemma ex_wf : wf ex_h.
Proof.
  intros l k v H. unfold entry, ex_h in H. destruct l as [|[|[|l]]]; cbn in H; try (destruct l; discriminate);
  repeat match type of H with (if ?b then _ else _) = _ => destruct b end; try discriminate; injection H as <-; cbn; lia || exact I.
Qed.
Lemma ex_edges l k c : entry ex_h l k = Some (PServer c) -> (l, k, c) = (0, "ModelParams", 1) \/ (l, k, c) = (1, "BehaviorIDMClassic", 2).
Proof.
  unfold entry, ex_h. destruct l as [|[|[|l]]]; cbn [nth_error]; [| | |destruct l; discriminate]; cbn [dget].
  - destruct (String.eqb_spec "ModelParams" k) as [<-|]; [intros H; injection H as <-; auto|]. destruct (String.eqb "Type" k); discriminate.
  - destruct (String.eqb_spec "BehaviorIDMClassic" k) as [<-|]; [intros H; injection H as <-; auto|discriminate].
  - destruct (String.eqb "MaxVelocity" k); discriminate.
Qed.
Lemma ex_step l k r c : walk ex_h l (k :: r) = Some c ->
  (l = 0 /\ k = "ModelParams" /\ walk ex_h 1 r = Some c) \/ (l = 1 /\ k = "BehaviorIDMClassic" /\ walk ex_h 2 r = Some c).
Proof.
  cbn [walk]. destruct (entry ex_h l k) as [[|y|]|] eqn:E; try discriminate. apply ex_edges in E. intros H.
  destruct E as [E|E]; injection E as -> -> ->; auto.
Qed.
Lemma ex_tree : tree ex_h 0.
Proof.
  assert (forall p c, walk ex_h 0 p = Some c -> (p, c) = ([], 0) \/ (p, c) = (["ModelParams"], 1) \/ (p, c) = (["ModelParams"; "BehaviorIDMClassic"], 2)) as X.
  { intros [|k p] c H; [injection H as <-; auto|]. apply ex_step in H. destruct H as [(_ & -> & H)|(A & _)]; [|discriminate].
    destruct p as [|k2 p]; [injection H as <-; auto|]. apply ex_step in H. destruct H as [(A & _)|(_ & -> & H)]; [discriminate|].
    destruct p as [|k3 p]; [injection H as <-; auto|]. apply ex_step in H. destruct H as [(A & _)|(A & _)]; discriminate. }
  intros p q c P Q. apply X in P. apply X in Q. destruct P as [P|[P|P]], Q as [Q|[Q|Q]]; injection P as -> P'; injection Q as -> Q'; congruence.
Qed.
Example C108_fixed_nonvacuous :
  good_classes ex_classes /\ wf ex_h /\ tree ex_h 0 /\ group_or_none (entry ex_h 0 "ModelParams") /\
  map (fun a => says ex_h 0 ("ModelParams" :: hierarchy_of (fst a)) (PVal (snd a))) idm_reads =
    map Some [PVal (fl 2); PVal (fl 30); PVal (JAtom (AInt 4))] /\
  exists h', fixed_behaviors ex_classes ex_h 0 [] 2 =
    inl (h', [mkBuilt "BehaviorIDMClassic" 1 [PVal (fl 2); PVal (fl 30); PVal (JAtom (AInt 4))];
              mkBuilt "BehaviorIDMClassic" 1 [PVal (fl 2); PVal (fl 30); PVal (JAtom (AInt 4))]],
         ["BehaviorIDMClassic"; "BehaviorIDMClassic"], [PServer 1]).
Proof.
  split; [exact ex_good|]. split; [exact ex_wf|]. split; [exact ex_tree|]. split; [exact I|]. split; [reflexivity|].
  eexists. reflexivity.
Qed.
Example C108_sampled_nonvacuous :
  type_ready ex_classes ex_h 0 "BehaviorIDMClassic" /\ type_ready ex_classes ex_h 0 "BehaviorMobilRuleBased" /\
  (exists h', sampled_behaviors ex_classes ex_h 0 [] 3 (fun i _ => if i =? 6 then 0 else 1) 5 =
    inl (h', [mkBuilt "BehaviorMobilRuleBased" 4 [PVal (fl 0)];
              mkBuilt "BehaviorIDMClassic" 2 [PVal (fl 2); PVal (fl 50); PVal (JAtom (AInt 4))];
              mkBuilt "BehaviorMobilRuleBased" 4 [PVal (fl 0)]],
         ["BehaviorMobilRuleBased"; "BehaviorIDMClassic"; "BehaviorMobilRuleBased"], [PServer 4; PServer 2; PServer 4], 8)) /\
  sampled_behaviors ex_classes [[("ModelTypesList", PVal (JList []))]] 0 [] 1 (fun _ _ => 0) 0 = inr ValueError /\
  sampled_behaviors ex_classes [[("ModelTypesList", PVal (JList [JAtom (AStr "X")]))]] 0 [] 0 (fun _ _ => 0) 0 = inr NameError.
Proof.
  split; [exists idm_reads, [PVal (fl 2); PVal (fl 50); PVal (JAtom (AInt 4))]; split; [reflexivity|]; split; [reflexivity|]; intros m E; cbn in E; injection E as <-; exact I|].
  split; [exists mobil_reads, [PVal (fl 0)]; split; [reflexivity|]; split; [reflexivity|]; intros m E; cbn in E; injection E as <-; exact I|].
  split; [eexists; reflexivity|]. split; reflexivity.
Qed.
Example C108_execution_nonvacuous :
  exists h', fixed_executions ex_classes
    [[("ModelParams", PServer 1)]; [("Execution", PServer 2)]; [("Steps", PVal (JAtom (AInt 99)))]] 0 2 =
    inl (h', [mkBuilt "ExecutionModelInterpolate" 3 [PVal (JAtom (AInt 7))]; mkBuilt "ExecutionModelInterpolate" 5 [PVal (JAtom (AInt 7))]]).
Proof. eexists. reflexivity. Qed.
Example C108_tracks_nonvacuous :
  track_behaviors ex_h [] 2 ["t1"; "t2"; "t3"] = inl (ex_h ++ [[]; []], [("t1", 3); ("t2", 4)], ["BehaviorStaticTrajectory"; "BehaviorStaticTrajectory"], [PServer 3; PServer 4]) /\
  track_behaviors ex_h [] 2 ["t1"] = inr IndexError.
Proof. split; reflexivity. Qed.
Example C108_stops_nonvacuous :
  fixed_behaviors ex_classes [[("ModelType", PVal (JAtom (AStr "X")))]] 0 [] 1 = inr NameError /\
  fixed_behaviors ex_classes [[("ModelParams", PServer 1)]; [("BehaviorIDMClassic", PServer 2)]; [("MaxVelocity", PServer 3)]; []] 0 [] 1 = inr ValueError.
Proof. split; reflexivity. Qed.
