(* C81: finding, pairing and showing benchmark configurations (BenchmarkAnalyzer). *)
From Coq Require Import String List ZArith QArith Bool Arith Lia Permutation Sorted.
From Verif Require Import Model_Analyzer Proof_Analyzer.
Import ListNotations.
Local Open Scope string_scope.
Local Open Scope nat_scope.
Local Open Scope list_scope.

Section C81.
  Context {V : Type}.
  Variable srt : list (nat * row V) -> list (row V).
  Hypothesis Hs : sorts srt.
  Notation row := (row V).
  Notation frame := (frame V).
  Notation conf := (r_conf V).
  Notation scen := (r_scen V).
  Notation rows := (f_rows V).
  Notation crit := (list (string * (V -> option bool))).
  Notation ids_of := (get_scenario_ids V srt).
  Notation find := (find_configs V srt).

  (* the frame of a benchmark result with at least one row *)
  Definition usable (f : frame) : Prop := In "config_idx" (f_cols V f) /\ In "scen_idx" (f_cols V f).
  (* configuration indices are unique *)
  Definition unique (f : frame) : Prop := NoDup (map conf (rows f)).

  (* all criteria accept the row *)
  Definition fits (cr : crit) (r : row) : Prop :=
    forall c fn, In (c, fn) cr -> fn (r_val V r c) = Some true.

  Lemma has_col_In (f : frame) c : has_col V f c = true <-> In c (f_cols V f).
  Proof.
    unfold has_col. rewrite existsb_exists. split.
    - intros (x & I & E). apply String.eqb_eq in E. now subst.
    - intros I. exists c. split; [exact I|apply String.eqb_refl].
  Qed.

  Lemma usable_cols f : usable f -> has_col V f "config_idx" = true /\ has_col V f "scen_idx" = true.
  Proof. intros [A B]. split; now apply has_col_In. Qed.

  Definition fitsb (cr : crit) (r : row) : bool :=
    forallb (fun p => match snd p (r_val V r (fst p)) with Some b => b | None => false end) cr.
  Lemma fitsb_fits cr r : fitsb cr r = true <-> fits cr r.
  Proof.
    unfold fitsb, fits. rewrite forallb_forall. split.
    - intros Hf c fn I. specialize (Hf _ I). cbn in Hf. destruct (fn (r_val V r c)) as [[|]|]; congruence.
    - intros Hf [c fn] I. cbn. now rewrite (Hf c fn I).
  Qed.

  Lemma apply_loc_ok fn c l l' : apply_loc V fn c l = Some l' ->
    l' = filter (fun r => match fn (r_val V r c) with Some b => b | None => false end) l.
  Proof.
    revert l'. induction l as [|r t IH]; intros l' E; cbn [apply_loc] in E; [now injection E as <-|].
    cbn [filter]. destruct (fn (r_val V r c)) as [b|]; [|discriminate].
    destruct (apply_loc V fn c t) as [q|]; [|discriminate]. injection E as <-. rewrite (IH q eq_refl).
    now destruct b.
  Qed.

  Lemma apply_criteria_ok f cr : forall l l', apply_criteria V f cr l = Some l' -> l' = filter (fitsb cr) l.
  Proof.
    induction cr as [|[c fn] t IH]; intros l l' E; cbn [apply_criteria] in E.
    - injection E as <-. unfold fitsb. cbn. induction l; cbn; congruence.
    - destruct (has_col V f c); [|discriminate]. destruct (apply_loc V fn c l) as [q|] eqn:Eq; [|discriminate].
      apply apply_loc_ok in Eq. apply IH in E. subst. clear. unfold fitsb. cbn [forallb fst snd].
      induction l as [|r l IHl]; [reflexivity|]. cbn [filter].
      destruct (fn (r_val V r c)) as [[|]|]; cbn [filter andb]; [|exact IHl|exact IHl].
      destruct (forallb _ t); [now f_equal|exact IHl].
  Qed.

  (* The scenarios the caller restricts the search to; none means no restriction. *)
  Definition wanted (f : frame) (scens as_in w : list Z) : Prop :=
    (as_in = [] /\ w = scens) \/ (as_in <> [] /\ ids_of f as_in = Some w).

  (* ** find_configs returns exactly the configurations that meet all the restrictions, in the order of the
     data frame or, if restricted to scenarios, in the order of these scenarios. *)
  Theorem C81_find_configs (f : frame) cr scens as_in confs cs :
    find f cr scens as_in confs = Some cs ->
    exists w kept rs, wanted f scens as_in w /\
      (forall r, In r kept <-> In r (rows f) /\ fits cr r /\ (confs = [] \/ In (conf r) confs) /\ (w = [] \/ In (scen r) w)) /\
      (exists p, kept = filter p (rows f)) /\
      Permutation rs kept /\ cs = map conf rs /\
      (w = [] -> rs = kept) /\
      (w <> [] -> map scen rs = flat_map (fun s => repeat s (count_occ Z.eq_dec (map scen kept) s)) (nodup Z.eq_dec w)).
  Proof.
    unfold find_configs. intros E.
    destruct (apply_criteria V f cr (rows f)) as [r1|] eqn:E1; [|discriminate].
    apply apply_criteria_ok in E1.
    set (ow := if nonempty as_in then _ else _) in E. destruct ow as [w|] eqn:Ew; [|discriminate].
    assert (Hw : wanted f scens as_in w).
    { unfold ow in Ew. destruct as_in; cbn in Ew; [left; split; congruence|right; split; [discriminate|exact Ew]]. }
    destruct (has_col V f "config_idx" && _) eqn:Ec; [|discriminate].
    cbv zeta in E. set (r2 := if nonempty confs then _ else _) in E.
    assert (H2 : exists p, r2 = filter p (rows f) /\ forall r, p r = true <-> fits cr r /\ (confs = [] \/ In (conf r) confs)).
    { unfold r2. subst r1. destruct confs as [|c0 cr0]; cbn [nonempty].
      - exists (fitsb cr). split; [reflexivity|]. intros r. rewrite fitsb_fits. tauto.
      - exists (fun r => fitsb cr r && isin (conf r) (c0 :: cr0)). split.
        + clear. induction (rows f) as [|r l IH]; [reflexivity|]. cbn [filter].
          destruct (fitsb cr r) eqn:Eb; cbn [filter andb].
          * destruct (isin (conf r) (c0 :: cr0)) eqn:Ei; [now f_equal|exact IH].
          * exact IH.
        + intros r. rewrite andb_true_iff, fitsb_fits, isin_In. intuition congruence. }
    destruct H2 as (p & E2 & Hp). rewrite E2 in E. clear r2 E2.
    destruct w as [|w0 wr]; cbn [nonempty] in E.
    - injection E as <-. exists [], (filter p (rows f)), (filter p (rows f)). split; [exact Hw|].
      split; [|split; [eauto|split; [reflexivity|split; [reflexivity|split; [reflexivity|congruence]]]]].
      intros r. rewrite filter_In, Hp. intuition.
    - set (w := w0 :: wr) in *. set (kept := filter (fun r => isin (scen r) w) (filter p (rows f))) in E.
      set (found := filter (fun s => isin s (map scen kept)) w) in E.
      exists w, kept, (reindex V srt scen found kept). split; [exact Hw|].
      assert (Hk : forall r, In r kept -> In (scen r) found).
      { intros r Ir. unfold found. apply filter_In. split.
        - unfold kept in Ir. apply filter_In in Ir as [_ Ir]. now apply isin_In in Ir.
        - apply isin_In. now apply in_map. }
      split; [|split; [|split; [|split; [|split]]]].
      + intros r. unfold kept. rewrite !filter_In, Hp, isin_In.
        assert (w <> []) by discriminate. tauto.
      + exists (fun r => p r && isin (scen r) w). unfold kept. clear. induction (rows f) as [|r l IH]; [reflexivity|].
        cbn [filter]. destruct (p r); cbn [filter andb]; [|exact IH]. destruct (isin (scen r) w); [now f_equal|exact IH].
      + apply (reindex_ok srt Hs).
      + congruence.
      + discriminate.
      + intros _. rewrite (reindex_keys srt Hs scen found kept Hk). apply in_order_found.
  Qed.

  (* It returns if the columns exist and no function raises. *)
  Theorem C81_find_configs_returns (f : frame) cr scens as_in confs : usable f ->
    (forall c fn, In (c, fn) cr -> In c (f_cols V f) /\ forall r, In r (rows f) -> fn (r_val V r c) <> None) ->
    exists cs, find f cr scens as_in confs = Some cs.
  Proof.
    intros U Hc. destruct (usable_cols f U) as [U1 U2]. unfold find_configs.
    assert (G : forall cr', incl cr' cr -> forall l, incl l (rows f) -> exists l', apply_criteria V f cr' l = Some l').
    { induction cr' as [|[c fn] t IH]; intros Hi l Hl; cbn [apply_criteria]; [eauto|].
      destruct (Hc c fn (Hi _ (or_introl eq_refl))) as [Ic Hr]. rewrite (proj2 (has_col_In f c) Ic).
      assert (G2 : forall l, incl l (rows f) -> exists q, apply_loc V fn c l = Some q).
      { clear - Hr. induction l as [|r t IH]; intros Hl; cbn [apply_loc]; [eauto|].
        destruct (fn (r_val V r c)) as [b|] eqn:E; [|exfalso; exact (Hr r (Hl r (or_introl eq_refl)) E)].
        destruct IH as [q Eq]; [intros x Ix; apply Hl; now right|]. rewrite Eq. eauto. }
      destruct (G2 l Hl) as [q Eq]. rewrite Eq. apply IH; [intros x Ix; apply Hi; now right|].
      apply apply_loc_ok in Eq. subst q. intros x Ix. apply filter_In in Ix as [Ix _]. auto. }
    destruct (G cr (incl_refl _) (rows f) (incl_refl _)) as [l ->].
    unfold get_scenario_ids. rewrite U1, U2. cbn [andb].
    destruct (nonempty as_in); rewrite orb_true_r; eauto.
  Qed.

  Theorem C81_find_configs_raises (f : frame) c fn cr scens as_in confs :
    (In (c, fn) cr /\ ~ In c (f_cols V f)) \/ ~ In "config_idx" (f_cols V f) ->
    find f cr scens as_in confs = None.
  Proof.
    intros [[I N]|N]; unfold find_configs.
    - assert (G : forall l, apply_criteria V f cr l = None).
      { induction cr as [|[c' fn'] t IH]; [destruct I|]. intros l. cbn [apply_criteria].
        destruct (has_col V f c') eqn:E; [|reflexivity]. destruct (apply_loc V fn' c' l); [|reflexivity].
        apply IH. destruct I as [I|I]; [|exact I]. injection I as <- <-. exfalso. apply N. now apply has_col_In. }
      now rewrite G.
    - destruct (apply_criteria V f cr (rows f)); [|reflexivity].
      assert (E : has_col V f "config_idx" = false).
      { destruct (has_col V f "config_idx") eqn:E; [|reflexivity]. exfalso. apply N. now apply has_col_In. }
      rewrite E. cbn [andb]. destruct (if nonempty as_in then _ else _); reflexivity.
  Qed.

  (* ** The scenarios of a list of configurations, in the order of the list; of a repeated configuration
     only the last place counts, unknown ones are skipped. *)
  Theorem C81_scenario_ids (f : frame) ids : usable f -> unique f ->
    ids_of f ids = Some (flat_map (fun c => map scen (filter (fun r => Z.eqb (conf r) c) (rows f))) (nodup Z.eq_dec ids)).
  Proof.
    intros U Un. destruct (usable_cols f U) as [U1 U2]. unfold get_scenario_ids. rewrite U1, U2. cbn [andb]. f_equal.
    set (l := filter (fun r => isin (conf r) ids) (rows f)).
    assert (Nl : NoDup (map conf l)).
    { unfold l. clear - Un. unfold unique in Un. induction (rows f) as [|r t IH]; [constructor|]. cbn [map] in Un.
      inversion Un as [|? ? N Nd]; subst. cbn [filter]. destruct (isin (conf r) ids); [|auto]. cbn [map]. constructor; auto.
      intros I. apply N. apply in_map_iff in I as (x & E & Ix). apply filter_In in Ix as [Ix _]. rewrite <- E. now apply in_map. }
    rewrite (reindex_groups srt Hs conf ids l); [|intros r Ir; apply filter_In in Ir as [_ Ir]; now apply isin_In|exact Nl].
    unfold groups.
    assert (G : forall N, incl N ids -> map scen (flat_map (fun s => filter (fun r => Z.eqb (conf r) s) l) N) =
      flat_map (fun c => map scen (filter (fun r => Z.eqb (conf r) c) (rows f))) N).
    { induction N as [|c N IH]; intros HN; [reflexivity|]. cbn [flat_map]. rewrite map_app. f_equal.
      - f_equal. unfold l. assert (Ic : In c ids) by (apply HN; now left). clear - Ic.
        induction (rows f) as [|r t IHr]; [reflexivity|]. cbn [filter].
        destruct (Z.eqb_spec (conf r) c) as [E|Ne].
        + rewrite (proj2 (isin_In (conf r) ids)) by congruence. cbn [filter]. rewrite (proj2 (Z.eqb_eq _ _) E). now f_equal.
        + destruct (isin (conf r) ids); [|exact IHr]. cbn [filter]. now rewrite (proj2 (Z.eqb_neq _ _) Ne).
      - apply IH. intros x Ix. apply HN. now right. }
    apply G. intros x Ix. now apply nodup_In in Ix.
  Qed.

  (* ** make_scenarios_congruent *)
  (* s is a scenario of one of the configurations in l *)
  Definition scenario_in (f : frame) (l : list Z) (s : Z) : Prop :=
    exists r, In r (rows f) /\ In (conf r) l /\ scen r = s.
  Definition common (f : frame) (ls : list (list Z)) (s : Z) : Prop := Forall (fun l => scenario_in f l s) ls.

  Lemma ids_In (f : frame) l ids : usable f -> ids_of f l = Some ids -> forall s, In s ids <-> scenario_in f l s.
  Proof.
    intros U E s. destruct (usable_cols f U) as [U1 U2]. unfold get_scenario_ids in E. rewrite U1, U2 in E. cbn [andb] in E.
    injection E as <-. rewrite in_map_iff.
    destruct (reindex_ok srt Hs conf l (filter (fun r => isin (conf r) l) (rows f))) as [P _]. unfold scenario_in. split.
    - intros (r & E & I). apply (Permutation_in _ P) in I. apply filter_In in I as [I J]. apply isin_In in J. eauto.
    - intros (r & I & J & E). exists r. split; [exact E|]. apply (Permutation_in _ (Permutation_sym P)).
      apply filter_In. split; [exact I|]. now apply isin_In.
  Qed.

  Lemma match_rest_In (f : frame) ls : usable f -> forall acc m, match_rest V srt f acc ls = Some m ->
    forall s, In s m <-> In s acc /\ Forall (fun l => scenario_in f l s) ls.
  Proof.
    intros U. induction ls as [|l r IH]; intros acc m E s; cbn [match_rest] in E.
    - injection E as <-. split; [auto|tauto].
    - destruct (ids_of f l) as [x|] eqn:Ex; [|discriminate]. rewrite (IH _ _ E s). unfold inter. rewrite filter_In, isin_In.
      rewrite (ids_In f l x U Ex). rewrite Forall_cons_iff. tauto.
  Qed.

  Lemma ids_total (f : frame) l : usable f -> exists x, ids_of f l = Some x.
  Proof. intros U. destruct (usable_cols f U) as [U1 U2]. unfold get_scenario_ids. rewrite U1, U2. eexists. reflexivity. Qed.

  Lemma match_rest_total (f : frame) ls : usable f -> forall acc, exists m, match_rest V srt f acc ls = Some m.
  Proof.
    intros U. induction ls as [|l r IH]; intros acc; cbn [match_rest]; [eauto|].
    destruct (ids_total f l U) as [x ->]. apply IH.
  Qed.

  Lemma filter_unique (f : frame) r : unique f -> In r (rows f) -> filter (fun x => Z.eqb (conf x) (conf r)) (rows f) = [r].
  Proof.
    unfold unique. intros Un I. induction (rows f) as [|x t IH]; [destruct I|]. cbn [map] in Un.
    inversion Un as [|? ? N Nd]; subst. cbn [filter].
    assert (Z0 : forall c l, ~ In c (map conf l) -> filter (fun x => Z.eqb (conf x) c) l = []).
    { clear. intros c l. induction l as [|x t IH]; intros N; [reflexivity|]. cbn [filter].
      destruct (Z.eqb_spec (conf x) c) as [E|]; [exfalso; apply N; left; exact E|]. apply IH. intros I. apply N. now right. }
    destruct I as [->|I].
    - rewrite Z.eqb_refl. f_equal. now apply Z0.
    - destruct (Z.eqb_spec (conf x) (conf r)) as [E|]; [|auto].
      exfalso. apply N. rewrite E. now apply in_map.
  Qed.

  Lemma ids_of_rows (f : frame) rs : usable f -> unique f -> incl rs (rows f) -> NoDup (map conf rs) ->
    ids_of f (map conf rs) = Some (map scen rs).
  Proof.
    intros U Un Hi Nd. rewrite (C81_scenario_ids f _ U Un). f_equal. rewrite nodup_fixed_point by exact Nd.
    clear Nd. induction rs as [|r t IH]; [reflexivity|]. cbn [map flat_map].
    rewrite (filter_unique f r Un) by (apply Hi; now left). cbn. f_equal. apply IH. intros x Ix. apply Hi. now right.
  Qed.

  Lemma perm_nodup_conf (f : frame) p rs : unique f -> Permutation rs (filter p (rows f)) -> NoDup (map conf rs).
  Proof.
    intros Un P. eapply Permutation_NoDup; [apply Permutation_sym, Permutation_map; exact P|].
    clear - Un. unfold unique in Un. induction (rows f) as [|r t IH]; [constructor|]. cbn [map] in Un.
    inversion Un as [|? ? N Nd]; subst. cbn [filter]. destruct (p r); [|auto]. cbn [map]. constructor; auto.
    intros I. apply N. apply in_map_iff in I as (x & E & Ix). apply filter_In in Ix as [Ix _]. rewrite <- E. now apply in_map.
  Qed.

  (* one list of the loop *)
  Lemma one_list (f : frame) m l : usable f -> unique f ->
    exists kept rs, find f [] m [] l = Some (map conf rs) /\ ids_of f (map conf rs) = Some (map scen rs) /\
      (forall r, In r kept <-> In r (rows f) /\ (l = [] \/ In (conf r) l) /\ (m = [] \/ In (scen r) m)) /\
      (exists p, kept = filter p (rows f)) /\ Permutation rs kept /\
      (m = [] -> rs = kept) /\
      (m <> [] -> map scen rs = flat_map (fun s => repeat s (count_occ Z.eq_dec (map scen kept) s)) (nodup Z.eq_dec m)).
  Proof.
    intros U Un. destruct (C81_find_configs_returns f [] m [] l U) as [cs E]; [intros c fn []|].
    destruct (C81_find_configs f [] m [] l cs E) as (w & kept & rs & Hw & Hk & (p & Ep) & P & -> & H1 & H2).
    destruct Hw as [[_ ->]|[X _]]; [|congruence].
    exists kept, rs. split; [exact E|]. split.
    - apply ids_of_rows; auto.
      + intros r Ir. apply (Permutation_in _ P) in Ir. now apply Hk in Ir.
      + apply (perm_nodup_conf f p); [exact Un|]. now rewrite <- Ep.
    - split; [|split; [eauto|auto]].
      intros r. rewrite Hk. split; [tauto|]. intros (A & B & C). repeat split; auto. intros c fn [].
  Qed.

  Lemma flat_repeat_one (c : Z -> nat) m : NoDup m -> flat_map (fun s => repeat s (c s)) m = m <-> (forall s, In s m -> c s = 1).
  Proof.
    intros Nd. split.
    - intros E s Is. apply (f_equal (fun l => count_occ Z.eq_dec l s)) in E.
      rewrite (proj1 (NoDup_count_occ' Z.eq_dec m) Nd s Is) in E. rewrite <- E. clear E.
      induction m as [|x t IH]; [destruct Is|]. inversion Nd as [|? ? N Nd']; subst. cbn [flat_map]. rewrite count_occ_app.
      assert (R1 : forall k y, count_occ Z.eq_dec (repeat y k) s = if Z.eq_dec y s then k else 0).
      { clear. induction k as [|k IH]; intros y; cbn [repeat count_occ]; destruct (Z.eq_dec y s); auto; rewrite IH; destruct (Z.eq_dec y s); congruence. }
      rewrite R1. destruct (Z.eq_dec x s) as [->|Ne].
      + assert (Z0 : count_occ Z.eq_dec (flat_map (fun s => repeat s (c s)) t) s = 0).
        { apply count_occ_not_In. intros I. apply in_flat_map in I as (y & Iy & I). apply repeat_spec in I. subst. contradiction. }
        lia.
      + destruct Is as [->|Is]; [congruence|]. rewrite <- (IH Nd' Is). reflexivity.
    - intros Hc. induction m as [|x t IH]; [reflexivity|]. inversion Nd as [|? ? N Nd']; subst. cbn [flat_map].
      rewrite (Hc x (or_introl eq_refl)). cbn. f_equal. apply IH; auto. intros s Is. apply Hc. now right.
  Qed.

  (* exactly one of the configurations in l has scenario s *)
  Definition one_config (f : frame) (l : list Z) (s : Z) : Prop :=
    exists r, In r (rows f) /\ In (conf r) l /\ scen r = s /\
      forall r', In r' (rows f) -> In (conf r') l -> scen r' = s -> r' = r.

  Lemma count_one (f : frame) p s : unique f ->
    count_occ Z.eq_dec (map scen (filter p (rows f))) s = 1 <->
    exists r, In r (rows f) /\ p r = true /\ scen r = s /\ forall r', In r' (rows f) -> p r' = true -> scen r' = s -> r' = r.
  Proof.
    unfold unique. induction (rows f) as [|x t IH]; intros Un.
    - cbn. split; [discriminate|]. intros (r & [] & _).
    - cbn [map] in Un. inversion Un as [|? ? N Nd]; subst. specialize (IH Nd). cbn [filter].
      assert (Hx : ~ In x t) by (intros I; apply N; now apply in_map).
      destruct (p x) eqn:Ep; cbn [map count_occ].
      + destruct (Z.eq_dec (scen x) s) as [E|Ne].
        * split.
          -- intros E1. assert (Z0 : count_occ Z.eq_dec (map scen (filter p t)) s = 0) by lia.
             exists x. split; [now left|]. split; [exact Ep|]. split; [exact E|].
             intros r' [<-|I] Ep' E'; [reflexivity|]. exfalso. apply count_occ_not_In in Z0. apply Z0.
             rewrite <- E'. apply in_map, filter_In. auto.
          -- intros (r & I & Er & Es & Hu). assert (x = r) by (apply Hu; auto; now left). subst r.
             assert (Z0 : count_occ Z.eq_dec (map scen (filter p t)) s = 0); [|lia].
             apply count_occ_not_In. intros J. apply in_map_iff in J as (y & Ey & Iy). apply filter_In in Iy as [Iy Py].
             assert (y = x) by (apply Hu; auto; now right). subst. contradiction.
        * rewrite IH. split.
          -- intros (r & I & Er & Es & Hu). exists r. split; [now right|]. split; [exact Er|]. split; [exact Es|].
             intros r' [<-|I'] Ep' E'; [congruence|auto].
          -- intros (r & [<-|I] & Er & Es & Hu); [congruence|]. exists r. repeat split; auto.
             intros r' I'. apply Hu. now right.
      + rewrite IH. split.
        * intros (r & I & Er & Es & Hu). exists r. split; [now right|]. split; [exact Er|]. split; [exact Es|].
          intros r' [<-|I'] Ep' E'; [congruence|auto].
        * intros (r & [<-|I] & Er & Es & Hu); [congruence|]. exists r. repeat split; auto. intros r' I'. apply Hu. now right.
  Qed.

  (* the result of one round of the loop: accepted or not *)
  Lemma one_round (f : frame) m l : usable f -> unique f -> StronglySorted Z.lt m ->
    (forall s, In s m -> scenario_in f l s) ->
    exists rs, find f [] m [] l = Some (map conf rs) /\ ids_of f (map conf rs) = Some (map scen rs) /\ incl rs (rows f) /\
      NoDup (map conf rs) /\
      (map scen rs = m -> incl (map conf rs) l) /\
      (map scen rs = m <-> if nonempty m then forall s, In s m -> one_config f l s
                           else forall r, In r (rows f) -> l <> [] /\ ~ In (conf r) l).
  Proof.
    intros U Un Sm Hm. destruct (one_list f m l U Un) as (kept & rs & E1 & E2 & Hk & (p & Ep) & P & H1 & H2).
    exists rs. split; [exact E1|]. split; [exact E2|].
    split; [intros r Ir; apply (Permutation_in _ P) in Ir; now apply Hk in Ir|].
    split; [apply (perm_nodup_conf f p); [exact Un|now rewrite <- Ep]|].
    destruct m as [|s0 mr].
    - specialize (H1 eq_refl). subst rs. cbn [nonempty]. split.
      + intros Em. destruct kept; [intros x []|discriminate].
      + split.
        * intros Em. destruct kept as [|k0 kr]; [|discriminate]. intros r Ir.
          split; [intros ->|intros J]; exact (proj2 (Hk r) (conj Ir (conj (or_introl eq_refl) (or_introl eq_refl)))) ||
            exact (proj2 (Hk r) (conj Ir (conj (or_intror J) (or_introl eq_refl)))).
        * intros Hn. destruct kept as [|k0 kr]; [reflexivity|]. exfalso.
          destruct (proj1 (Hk k0) (or_introl eq_refl)) as (I & [Q|Q] & _); destruct (Hn k0 I); contradiction.
    - set (m := s0 :: mr) in *. assert (Nm : m <> []) by discriminate. specialize (H2 Nm). cbn [nonempty].
      assert (Nl : l <> []).
      { intros ->. destruct (Hm s0 (or_introl eq_refl)) as (r & _ & [] & _). }
      split.
      + intros _ c Ic. apply in_map_iff in Ic as (r & <- & Ir). apply (Permutation_in _ P) in Ir. apply Hk in Ir.
        destruct Ir as (_ & [Q|Q] & _); [contradiction|exact Q].
      + pose proof (sorted_lt_nodup m Sm) as Nd. rewrite nodup_fixed_point in H2 by exact Nd. rewrite H2, flat_repeat_one by exact Nd.
        assert (G : forall s, In s m -> (count_occ Z.eq_dec (map scen kept) s = 1 <-> one_config f l s)).
        { intros s Is. rewrite Ep, (count_one f p s Un). unfold one_config.
          assert (Hp : forall r, In r (rows f) -> scen r = s -> (p r = true <-> In (conf r) l)).
          { intros r Ir Es. assert (K : In r kept <-> p r = true) by (rewrite Ep, filter_In; tauto). rewrite <- K, Hk.
            split; [intros (_ & [Q|Q] & _); [contradiction|exact Q]|]. intros Q. split; [exact Ir|]. split; [now right|]. right. now rewrite Es. }
          split; intros (r & I & A & Es & Hu); exists r; (split; [exact I|]); (split; [apply (Hp r I Es); exact A|]); (split; [exact Es|]);
            intros r' I' A' Es'; apply Hu; auto; apply (Hp r' I' Es'); exact A'. }
        split; intros Hc s Is; apply (G s Is); auto.
  Qed.

  (* When it returns, the lists pair up: place by place they hold the same scenario, each a configuration of
     the corresponding input list; these scenarios are exactly those common to all lists, increasing. *)
  Theorem C81_congruent (f : frame) ls cs : usable f -> unique f ->
    make_scenarios_congruent V srt f ls = Some cs ->
    exists m, StronglySorted Z.lt m /\ (forall s, In s m <-> common f ls s) /\
      Forall2 (fun l c => incl c l /\ NoDup c /\
        Forall2 (fun x s => exists r, In r (rows f) /\ conf r = x /\ scen r = s) c m) ls cs.
  Proof.
    intros U Un E. unfold make_scenarios_congruent in E. destruct ls as [|l0 lr]; [discriminate|].
    destruct (ids_of f l0) as [s0|] eqn:E0; [|discriminate].
    destruct (match_rest V srt f s0 lr) as [m0|] eqn:Em; [|discriminate].
    exists (sort_set m0). split; [apply sort_set_sorted|].
    assert (Hm : forall s, In s (sort_set m0) <-> common f (l0 :: lr) s).
    { intros s. rewrite sort_set_In, (match_rest_In f lr U s0 m0 Em), (ids_In f l0 s0 U E0). unfold common.
      rewrite Forall_cons_iff. tauto. }
    split; [exact Hm|].
    assert (Hl : forall l s, In l (l0 :: lr) -> In s (sort_set m0) -> scenario_in f l s).
    { intros l s Il Is. apply Hm in Is. unfold common in Is. rewrite Forall_forall in Is. auto. }
    revert cs E Hl. generalize (l0 :: lr) as ls. induction ls as [|l r IH]; intros cs E Hl; cbn [congruent_lists] in E.
    - injection E as <-. constructor.
    - destruct (one_round f (sort_set m0) l U Un (sort_set_sorted m0) (fun s => Hl l s (or_introl eq_refl)))
        as (rs & F1 & F2 & Hi & Nd & Hin & _).
      rewrite F1, F2 in E. destruct (zlist_eqb (map scen rs) (sort_set m0)) eqn:Ez; [|discriminate].
      apply zlist_eqb_eq in Ez. destruct (congruent_lists V srt f (sort_set m0) r) as [cr|] eqn:Er; [|discriminate].
      injection E as <-. constructor; [|apply IH; auto; intros x s Ix; apply Hl; now right].
      split; [apply Hin; exact Ez|]. split; [exact Nd|]. rewrite <- Ez. clear - Hi.
      induction rs as [|r t IH]; cbn [map]; constructor.
      + exists r. split; [apply Hi; now left|auto].
      + apply IH. intros x Ix. apply Hi. now right.
  Qed.

  (* It returns exactly if there is a common scenario and each list has exactly one configuration of every
     common scenario (or there is nothing to pair at all). *)
  Theorem C81_congruent_returns_iff (f : frame) ls : usable f -> unique f ->
    (exists cs, make_scenarios_congruent V srt f ls = Some cs) <->
    ls <> [] /\
    ((exists s, common f ls s) /\ (forall l s, In l ls -> common f ls s -> one_config f l s) \/
     (~ exists s, common f ls s) /\ (forall l r, In l ls -> In r (rows f) -> l <> [] /\ ~ In (conf r) l)).
  Proof.
    intros U Un. unfold make_scenarios_congruent. destruct ls as [|l0 lr].
    { split; [intros [cs X]; discriminate|intros [X _]; congruence]. }
    destruct (ids_total f l0 U) as [s0 E0]. rewrite E0. destruct (match_rest_total f lr U s0) as [m0 Em]. rewrite Em.
    assert (Hm : forall s, In s (sort_set m0) <-> common f (l0 :: lr) s).
    { intros s. rewrite sort_set_In, (match_rest_In f lr U s0 m0 Em), (ids_In f l0 s0 U E0). unfold common.
      rewrite Forall_cons_iff. tauto. }
    assert (Hl : forall l s, In l (l0 :: lr) -> In s (sort_set m0) -> scenario_in f l s).
    { intros l s Il Is. apply Hm in Is. unfold common in Is. rewrite Forall_forall in Is. auto. }
    assert (G : forall ls, incl ls (l0 :: lr) -> (exists cs, congruent_lists V srt f (sort_set m0) ls = Some cs) <->
      forall l, In l ls -> if nonempty (sort_set m0) then forall s, In s (sort_set m0) -> one_config f l s
                           else forall r, In r (rows f) -> l <> [] /\ ~ In (conf r) l).
    { induction ls as [|l r IH]; intros Hi; cbn [congruent_lists].
      - split; [intros _ l []|eauto].
      - destruct (one_round f (sort_set m0) l U Un (sort_set_sorted m0) (fun s => Hl l s (Hi l (or_introl eq_refl))))
          as (rs & F1 & F2 & _ & _ & _ & Hiff).
        rewrite F1, F2. specialize (IH (fun x Ix => Hi x (or_intror Ix))).
        destruct (zlist_eqb (map scen rs) (sort_set m0)) eqn:Ez.
        + apply zlist_eqb_eq in Ez. apply Hiff in Ez.
          destruct (congruent_lists V srt f (sort_set m0) r) as [cr|] eqn:Er.
          * split; [|eauto]. intros _ x [<-|Ix]; [exact Ez|]. apply IH; [eauto|exact Ix].
          * split; [intros [cs X]; discriminate|]. intros Hx. exfalso.
            destruct (proj2 IH) as [cs X]; [intros x Ix; apply Hx; now right|discriminate].
        + split; [intros [cs X]; discriminate|]. intros Hx. exfalso.
          assert (X : map scen rs = sort_set m0) by (apply Hiff; apply Hx; now left).
          apply zlist_eqb_eq in X. congruence. }
    rewrite (G (l0 :: lr) (incl_refl _)). destruct (sort_set m0) as [|x t] eqn:Ex; cbn [nonempty].
    - assert (Nc : ~ exists s, common f (l0 :: lr) s) by (intros [s Hc]; apply Hm in Hc; destruct Hc).
      split.
      + intros Hx. split; [discriminate|]. right. split; [exact Nc|]. intros l r Il Ir. exact (Hx l Il r Ir).
      + intros [_ [[Hc _]|[_ Hx]]]; [contradiction|]. intros l Il r Ir. exact (Hx l r Il Ir).
    - assert (Yc : exists s, common f (l0 :: lr) s) by (exists x; apply Hm; now left).
      split.
      + intros Hx. split; [discriminate|]. left. split; [exact Yc|]. intros l s Il Hc. apply (Hx l Il). now apply Hm.
      + intros [_ [[_ Hx]|[Nc _]]]; [|contradiction]. intros l Il s Is. apply (Hx l s Il). now apply Hm.
  Qed.
End C81.

(* ** Visualisation *)
Section View.
  Context {S : Type}.
  Variable d : S.
  Notation ev := (ev S).

  Definition longest (hl : list (list S)) : nat := list_max (map (@length S) hl).

  (* frame k: every viewer shows entry k of its history, or the last one, at the time of that entry *)
  Definition frame_at (sim : Q) (hl : list (list S)) (k : nat) : list ev :=
    map (fun p : nat * list S =>
           let i := Nat.min k (Nat.pred (length (snd p))) in Draw S (fst p) (nth i (snd p) d) (sim * inject_Z (Z.of_nat i))%Q)
        (combine (seq 0 (length hl)) hl).
  (* as many frames as the longest history has entries, and one more *)
  Definition frames (sim : Q) (hl : list (list S)) : list ev :=
    flat_map (frame_at sim hl) (seq 0 (Datatypes.S (longest hl))).

  Lemma pass_ok sim k (hl : list (list S)) : Forall (fun h => h <> []) hl -> forall v,
    pass S sim (Datatypes.S k) v (map Some hl) =
    (map (fun p : nat * list S =>
           let i := Nat.min k (Nat.pred (length (snd p))) in Draw S (fst p) (nth i (snd p) d) (sim * inject_Z (Z.of_nat i))%Q)
        (combine (seq v (length hl)) hl), Some (existsb (fun h => Nat.ltb k (length h)) hl)).
  Proof.
    induction 1 as [|h t Hh F IH]; intros v; [reflexivity|].
    cbn [map pass length seq combine existsb fst snd Nat.pred].
    assert (Lh : 0 < length h) by (destruct h; [congruence|cbn; lia]).
    assert (Ei : (if Nat.ltb (length h) (Datatypes.S k) then Nat.pred (length h) else k) = Nat.min k (Nat.pred (length h))).
    { destruct (Nat.ltb_spec (length h) (Datatypes.S k)); lia. }
    rewrite Ei. set (i := Nat.min k (Nat.pred (length h))).
    rewrite (nth_error_nth' h d) by (unfold i; lia). rewrite IH. cbn [fst snd].
    f_equal. f_equal. f_equal. destruct (Nat.ltb_spec (length h) (Datatypes.S k)), (Nat.ltb_spec k (length h)); try lia; reflexivity.
  Qed.

  Lemma longest_ltb k (hl : list (list S)) : existsb (fun h => Nat.ltb k (length h)) hl = Nat.ltb k (longest hl).
  Proof.
    unfold longest. induction hl as [|h t IH]; [reflexivity|]. cbn [existsb map]. rewrite IH.
    change (list_max (length h :: map (@length S) t)) with (Nat.max (length h) (list_max (map (@length S) t))).
    destruct (Nat.ltb_spec k (length h)), (Nat.ltb_spec k (list_max (map (@length S) t))),
      (Nat.ltb_spec k (Nat.max (length h) (list_max (map (@length S) t)))); cbn; try reflexivity; lia.
  Qed.

  (* The loop ends, and has shown every history in step, entry by entry. *)
  Theorem C81_render_frames sim (hl : list (list S)) fuel : Forall (fun h => h <> []) hl -> longest hl < fuel ->
    render S fuel sim 0 (map Some hl) = (frames sim hl, Some VDone).
  Proof.
    intros F. unfold frames.
    assert (G : forall n k fuel, longest hl < k + fuel -> k + n = Datatypes.S (longest hl) -> 0 < n ->
      render S fuel sim k (map Some hl) = (flat_map (frame_at sim hl) (seq k n), Some VDone)).
    { induction n as [|n IH]; intros k fu Lf En Ln; [lia|]. destruct fu as [|fu]; [lia|]. cbn [render].
      rewrite (pass_ok sim k hl F 0), longest_ltb. cbn [seq flat_map]. fold (frame_at sim hl k).
      destruct (Nat.ltb_spec k (longest hl)).
      - rewrite (IH (Datatypes.S k) fu) by lia. reflexivity.
      - assert (n = 0) by lia. subst n. cbn. now rewrite app_nil_r. }
    intros Lf. apply G; lia.
  Qed.

  (* What one viewer shows: its whole history, then the last entry until the longest history is over. *)
  Definition shown (v : nat) (e : list ev) : list (S * Q) :=
    flat_map (fun x => match x with Draw _ u s t => if Nat.eqb u v then [(s, t)] else [] end) e.

  Lemma shown_frame sim k v : forall (hl : list (list S)) o, shown (o + v) (map (fun p : nat * list S =>
           let i := Nat.min k (Nat.pred (length (snd p))) in Draw S (fst p) (nth i (snd p) d) (sim * inject_Z (Z.of_nat i))%Q)
        (combine (seq o (length hl)) hl)) =
    match nth_error hl v with
    | None => []
    | Some h => let i := Nat.min k (Nat.pred (length h)) in [(nth i h d, (sim * inject_Z (Z.of_nat i))%Q)]
    end.
  Proof.
    induction v as [|v IH]; intros hl o.
    - destruct hl as [|h t]; [reflexivity|]. cbn [length seq combine map shown flat_map fst snd nth_error].
      rewrite Nat.add_0_r, Nat.eqb_refl.
      assert (Z0 : forall (t : list (list S)) o', o < o' -> shown o (map (fun p : nat * list S =>
           let i := Nat.min k (Nat.pred (length (snd p))) in Draw S (fst p) (nth i (snd p) d) (sim * inject_Z (Z.of_nat i))%Q)
        (combine (seq o' (length t)) t)) = []).
      { clear. induction t as [|h t IH]; intros o' Lo; [reflexivity|]. cbn [length seq combine map shown flat_map fst snd].
        rewrite (proj2 (Nat.eqb_neq o' o)) by lia. apply IH. lia. }
      unfold shown in Z0. rewrite Z0 by lia. reflexivity.
    - destruct hl as [|h t]; [reflexivity|]. cbn [length seq combine map shown flat_map fst snd nth_error].
      rewrite (proj2 (Nat.eqb_neq o (o + Datatypes.S v))) by lia. cbn [app].
      replace (o + Datatypes.S v) with (Datatypes.S o + v) by lia. apply IH.
  Qed.

  Theorem C81_viewer_shows sim (hl : list (list S)) v h : nth_error hl v = Some h -> h <> [] ->
    map fst (shown v (frames sim hl)) = h ++ repeat (last h d) (Datatypes.S (longest hl) - length h) /\
    map snd (shown v (frames sim hl)) =
      map (fun k => (sim * inject_Z (Z.of_nat (Nat.min k (Nat.pred (length h)))))%Q) (seq 0 (Datatypes.S (longest hl))).
  Proof.
    intros Ev Nh.
    assert (E : shown v (frames sim hl) = map (fun k => let i := Nat.min k (Nat.pred (length h)) in (nth i h d, (sim * inject_Z (Z.of_nat i))%Q))
                                              (seq 0 (Datatypes.S (longest hl)))).
    { unfold frames. induction (seq 0 (Datatypes.S (longest hl))) as [|k t IH]; [reflexivity|]. cbn [flat_map map].
      assert (Ap : forall a b, shown v (a ++ b) = shown v a ++ shown v b) by (intros; unfold shown; apply flat_map_app).
      rewrite Ap, IH. pose proof (shown_frame sim k v hl 0) as Q. cbn [Nat.add] in Q. rewrite Ev in Q.
      unfold frame_at. rewrite Q. reflexivity. }
    assert (Ll : length h <= longest hl).
    { unfold longest. assert (I : In (length h) (map (@length S) hl)) by (apply in_map; eapply nth_error_In; eassumption).
      clear - I. induction (map (@length S) hl) as [|x t IH]; [destruct I|].
      change (list_max (x :: t)) with (Nat.max x (list_max t)). destruct I as [->|I]; [lia|]. specialize (IH I). lia. }
    assert (Lh : 0 < length h) by (destruct h; [congruence|cbn; lia]).
    rewrite E, !map_map. cbn [fst snd]. split; [|reflexivity].
    replace (Datatypes.S (longest hl)) with (length h + (Datatypes.S (longest hl) - length h)) at 1 by lia.
    rewrite seq_app, map_app. cbn [Nat.add]. f_equal.
    - apply (nth_ext _ _ d d); [now rewrite map_length, seq_length|].
      intros n Hn. rewrite map_length, seq_length in Hn.
      rewrite (nth_indep _ d (nth (Nat.min 0 (Nat.pred (length h))) h d)) by (now rewrite map_length, seq_length).
      rewrite (map_nth (fun k => nth (Nat.min k (Nat.pred (length h))) h d)), seq_nth by exact Hn.
      f_equal. lia.
    - assert (G : forall n a, length h <= a -> map (fun k => nth (Nat.min k (Nat.pred (length h))) h d) (seq a n) = repeat (last h d) n).
      { induction n as [|n IH]; intros a La; [reflexivity|]. cbn [seq map repeat]. rewrite IH by lia. f_equal.
        replace (Nat.min a (Nat.pred (length h))) with (length h - 1) by lia.
        clear - Lh. destruct h as [|x t] using rev_ind; [cbn in Lh; lia|].
        rewrite last_last, app_length, app_nth2 by (cbn; lia). cbn [length].
        replace (length t + 1 - 1 - length t) with 0 by lia. reflexivity. }
      apply G. lia.
  Qed.

  (* Without a stored history the log says the configuration is skipped, but the call raises. *)
  Theorem C81_missing_history_raises_refuted sim hs fuel :
    In None hs \/ In (Some []) hs -> exists e, render S (Datatypes.S fuel) sim 0 hs = (e, Some VRaise).
  Proof.
    intros Hn. cbn [render].
    assert (G : forall v, snd (pass S sim 1 v hs) = None).
    { induction hs as [|[h|] t IH]; intros v; cbn [pass]; [destruct Hn as [[]|[]]| |reflexivity].
      destruct h as [|x h]; [reflexivity|]. cbn [length].
      replace (Nat.ltb (Datatypes.S (length h)) 1) with false by (symmetry; apply Nat.ltb_ge; lia).
      cbn [Nat.pred nth_error]. cbn [snd].
      rewrite IH; [reflexivity|]. destruct Hn as [[X|I]|[X|I]]; try discriminate; auto. }
    specialize (G 0). destruct (pass S sim 1 0 hs) as [e [b|]]; cbn in G; [discriminate|eauto].
  Qed.

  Variables (config : Z -> bool) (history : Z -> option (list S)) (sim_time : Z -> Q).
  Notation collect := (collect S config history sim_time).
  Notation visualize := (visualize S config history sim_time).

  (* the histories at place k, and the configuration whose step time is used: that of the last viewer *)
  Definition hist_of (c : Z) : list S := match history c with Some h => h | None => [] end.
  Definition at_place (k : nat) (ls : list (list Z)) : list Z := map (fun l => nth k l 0%Z) ls.
  Definition frames_at (k : nat) (ls : list (list Z)) : list ev :=
    frames (sim_time (last (at_place k ls) 0%Z)) (map hist_of (at_place k ls)).

  Lemma collect_ok k ls : Forall (fun l => k < length l /\ config (nth k l 0%Z) = true) ls -> forall sim,
    collect k ls sim = inr (map history (at_place k ls),
                            match ls with [] => sim | _ => Some (sim_time (last (at_place k ls) 0%Z)) end).
  Proof.
    induction 1 as [|l t [Hl Hc] F IH]; intros sim; [reflexivity|]. cbn [Model_Analyzer.collect].
    rewrite (nth_error_nth' l 0%Z Hl), Hc, IH. cbn [at_place map]. destruct t; reflexivity.
  Qed.

  (* All the configurations are shown, place by place. *)
  Theorem C81_visualize_all ls n fuel : ls <> [] ->
    Forall (fun l => length l = n /\ Forall (fun c => config c = true /\
              exists h, history c = Some h /\ h <> [] /\ length h < fuel) l) ls ->
    visualize fuel (length ls) ls = (flat_map (fun k => frames_at k ls) (seq 0 n), Some VDone).
  Proof.
    intros Nl F. unfold Model_Analyzer.visualize. destruct ls as [|l0 lr] eqn:El; [congruence|]. rewrite Nat.eqb_refl, <- El in *.
    assert (E0 : length l0 = n) by (rewrite El in F; inversion F; tauto). rewrite E0.
    assert (Fu : 0 < fuel \/ n = 0).
    { rewrite El in F. inversion F as [|? ? [_ F0] _]; subst. destruct l0 as [|c t]; [now right|left].
      inversion F0 as [|? ? (_ & h & _ & _ & Lh) _]. lia. }
    assert (G : forall m k, k + m = n -> vis_from S config history sim_time fuel k m ls = (flat_map (fun k => frames_at k ls) (seq k m), Some VDone)).
    { induction m as [|m IH]; intros k Ek; [reflexivity|]. cbn [vis_from].
      assert (Fk : Forall (fun l => k < length l /\ config (nth k l 0%Z) = true) ls).
      { eapply Forall_impl; [|exact F]. intros l [Ll Fl]. split; [lia|]. rewrite Forall_forall in Fl.
        apply Fl. apply nth_In. lia. }
      rewrite (collect_ok k ls Fk None). destruct ls as [|x y] eqn:Ex; [congruence|]. rewrite <- Ex in *.
      assert (Eh : map history (at_place k ls) = map Some (map hist_of (at_place k ls)) /\
                   Forall (fun h => h <> []) (map hist_of (at_place k ls)) /\ Forall (fun h => length h < fuel) (map hist_of (at_place k ls))).
      { assert (Fp : Forall (fun c => exists h, history c = Some h /\ h <> [] /\ length h < fuel) (at_place k ls)).
        { unfold at_place. apply Forall_forall. intros c Ic. apply in_map_iff in Ic as (l & <- & Il).
          rewrite Forall_forall in F. destruct (F l Il) as [Ll Fl]. rewrite Forall_forall in Fl.
          apply (Fl (nth k l 0%Z)). apply nth_In. lia. }
        clear - Fp. induction Fp as [|c t (h & Eh & Nh & Lh) Fp (I1 & I2 & I3)]; cbn [map]; [repeat constructor|].
        unfold hist_of at 1. rewrite Eh. repeat split; [now f_equal|constructor; auto|constructor; auto];
          unfold hist_of; rewrite Eh; assumption. }
      destruct Eh as (Eh & Fn & Fl). rewrite Eh.
      rewrite (C81_render_frames (sim_time (last (at_place k ls) 0%Z)) (map hist_of (at_place k ls)) fuel Fn).
      - rewrite IH by lia. reflexivity.
      - unfold longest. destruct Fu as [Fu|]; [|lia]. clear - Fl Fu. induction Fl as [|h t Lh Fl IH]; [exact Fu|]. cbn [map].
        change (list_max (length h :: map (@length S) t)) with (Nat.max (length h) (list_max (map (@length S) t))). lia. }
    apply G. lia.
  Qed.

  (* A configuration that is not stored ends the presentation silently. *)
  Theorem C81_visualize_unknown_config_stops l n fuel k : k < length l -> n = length l ->
    (forall j, j < k -> config (nth j l 0%Z) = true /\ exists h, history (nth j l 0%Z) = Some h /\ h <> [] /\ length h < fuel) ->
    config (nth k l 0%Z) = false ->
    visualize fuel 1 [l] = (flat_map (fun j => frames_at j [l]) (seq 0 k), Some VDone).
  Proof.
    intros Lk -> Hb Hc. unfold Model_Analyzer.visualize. cbn [length Nat.eqb].
    assert (G : forall m j, j + m = k -> forall n, j + n = length l ->
      vis_from S config history sim_time fuel j n [l] = (flat_map (fun j => frames_at j [l]) (seq j m), Some VDone)).
    { induction m as [|m IH]; intros j Ej n En.
      - assert (j = k) by lia. subst j. destruct n as [|n]; [lia|]. cbn [vis_from Model_Analyzer.collect seq flat_map].
        rewrite (nth_error_nth' l 0%Z Lk), Hc. reflexivity.
      - destruct n as [|n]; [lia|]. cbn [vis_from seq flat_map].
        destruct (Hb j ltac:(lia)) as (Cj & h & Eh & Nh & Lh).
        rewrite (collect_ok j [l]) by (constructor; [split; [lia|exact Cj]|constructor]).
        cbn [at_place map last]. rewrite Eh.
        pose proof (C81_render_frames (sim_time (nth j l 0%Z)) [h] fuel ltac:(constructor; [exact Nh|constructor])) as RF.
        cbn [map] in RF. rewrite RF by (unfold longest; cbn; lia).
        rewrite (IH (Datatypes.S j) ltac:(lia) n ltac:(lia)). unfold frames_at. cbn [at_place map last]. unfold hist_of. now rewrite Eh. }
    apply G; lia.
  Qed.
End View.

(* ** A case *)
Section Case.
  Definition ex_row (c s : Z) (st : string) (b : bool) : row bool := mkRow bool c s st (fun _ => b).
  Definition ex_frame : frame bool := mkFrame bool ["config_idx"; "scen_idx"; "success"]
    [ex_row 0 1 "a" true; ex_row 1 0 "a" true; ex_row 2 0 "a" false; ex_row 3 1 "a" true; ex_row 4 2 "a" true].
  Fixpoint ins (p : nat * row bool) (l : list (nat * row bool)) : list (nat * row bool) :=
    match l with [] => [p] | q :: r => if Nat.leb (fst p) (fst q) then p :: l else q :: ins p r end.
  Definition ex_srt (l : list (nat * row bool)) : list (row bool) := map snd (fold_right ins [] l).

  Lemma ins_perm p l : Permutation (p :: l) (ins p l).
  Proof.
    induction l as [|q r IH]; cbn [ins]; [reflexivity|]. destruct (Nat.leb (fst p) (fst q)); [reflexivity|].
    eapply Permutation_trans; [apply perm_swap|]. now constructor.
  Qed.
  Lemma ins_sorted p l : StronglySorted (fun a b : nat * row bool => fst a <= fst b) l ->
    StronglySorted (fun a b : nat * row bool => fst a <= fst b) (ins p l).
  Proof.
    induction l as [|q r IH]; intros SS; cbn [ins]; [repeat constructor|]. inversion SS as [|? ? S' F]; subst.
    destruct (Nat.leb_spec (fst p) (fst q)) as [L|G].
    - constructor; [exact SS|]. constructor; [exact L|]. rewrite Forall_forall in F |- *. intros x Ix. specialize (F x Ix). lia.
    - constructor; [auto|]. rewrite Forall_forall in F |- *. intros x Ix.
      apply (Permutation_in _ (Permutation_sym (ins_perm p r))) in Ix as [<-|Ix]; [lia|auto].
  Qed.
  Lemma ex_sorts : sorts ex_srt.
  Proof.
    intros l. exists (fold_right ins [] l). split; [reflexivity|]. split.
    - induction l as [|p r IH]; [constructor|]. cbn [fold_right]. eapply Permutation_trans; [constructor; exact IH|apply ins_perm].
    - induction l as [|p r IH]; [constructor|]. cbn [fold_right]. now apply ins_sorted.
  Qed.

  Example C81_nonvacuous :
    sorts ex_srt /\ usable ex_frame /\ unique ex_frame /\
    find_configs bool ex_srt ex_frame [("success", fun b => Some b)] [2; 1; 0]%Z [] [] = Some [4; 0; 3; 1]%Z /\
    make_scenarios_congruent bool ex_srt ex_frame [[0; 1]; [3; 4; 2]]%Z = Some [[1; 0]; [2; 3]]%Z /\
    make_scenarios_congruent bool ex_srt ex_frame [[0; 3]; [0]]%Z = None /\
    visualize nat (fun c => Z.eqb c 0 || Z.eqb c 1) (fun c => if Z.eqb c 0 then Some [10; 11] else Some [20]) (fun _ => 2%Q) 9 2 [[0]; [1]]%Z =
      (frames 0 2%Q [[10; 11]; [20]], Some VDone) /\ length (frames 0 2%Q [[10; 11]; [20]]) = 6.
  Proof.
    split; [exact ex_sorts|]. split; [split; cbn; auto|]. split; [unfold unique; cbn; repeat constructor; cbn; intuition congruence|].
    repeat split; vm_compute; reflexivity.
  Qed.

  (* Asking for the scenarios of configurations that do not exist restricts nothing. *)
  Theorem C81_unknown_configs_no_restriction_refuted :
    get_scenario_ids bool ex_srt ex_frame [7]%Z = Some [] /\
    find_configs bool ex_srt ex_frame [] [] [7]%Z [] = Some [0; 1; 2; 3; 4]%Z.
  Proof. split; vm_compute; reflexivity. Qed.

  (* Scenarios of different scenario sets are paired if their indices agree. *)
  Theorem C81_sets_mixed_refuted : exists f : frame bool, usable f /\ unique f /\
    map (r_set bool) (f_rows bool f) = ["merging"; "highway"] /\
    make_scenarios_congruent bool ex_srt f [[0]; [1]]%Z = Some [[0]; [1]]%Z.
  Proof.
    exists (mkFrame bool ["config_idx"; "scen_idx"] [ex_row 0 0 "merging" true; ex_row 1 0 "highway" true]).
    split; [split; cbn; auto|]. split; [unfold unique; cbn; repeat constructor; cbn; intuition congruence|].
    split; vm_compute; reflexivity.
  Qed.
End Case.
Print Assumptions C81_find_configs.
Print Assumptions C81_find_configs_returns.
Print Assumptions C81_find_configs_raises.
Print Assumptions C81_scenario_ids.
Print Assumptions C81_congruent.
Print Assumptions C81_congruent_returns_iff.
Print Assumptions C81_render_frames.
Print Assumptions C81_viewer_shows.
Print Assumptions C81_missing_history_raises_refuted.
Print Assumptions C81_visualize_all.
Print Assumptions C81_visualize_unknown_config_stops.
Print Assumptions C81_unknown_configs_no_restriction_refuted.
Print Assumptions C81_sets_mixed_refuted.
