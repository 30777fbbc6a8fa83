(* C82: the simulation runtime: reset, step, recorded history. *)
From Coq Require Import String List NArith ZArith QArith Bool Arith Lia.
From Verif Require Import Model_Map Proof_Map Model_Heap Spec_Heap Proof_Heap Model_Runtime Spec_Runtime Proof_Frame Props_Heap Proof_Scenario Props_Scenario Proof_Runtime.
Import ListNotations.
Local Open Scope nat_scope.
Local Open Scope list_scope.

Section C82.
  Context {D H M : Type}.
  Variables (pa : aval D H -> option (aval D H)) (pm : mval D -> option (mval D)).
  Variable copy : D -> D.
  Variable load : string -> option M.
  Variable none_obs : D.
  Variable only : list N -> D -> D.
  Variable dt : Q.
  Notation mem := (mem D H).
  Notation heapof := (m_h D H).
  Notation jsonof := (m_j D H).
  Notation rt := (rt M).
  Notation step := (rt_step D H M copy dt).
  Notation reset := (rt_reset D H M pa pm load none_obs only).

  (* ** Before the first reset *)
  Theorem C82_step_needs_reset maintain (m : mem) (r : rt) e : r_reset M r = false ->
    step maintain m r e = (m, r, Raised).
  Proof. intros E. unfold rt_step. rewrite E. reflexivity. Qed.

  (* run(n) never steps: n > 0 raises. *)
  Theorem C82_run_raises_refuted (m : mem) (r : rt) n : 0 < n ->
    rt_run D H M m r n = (m, r, Raised).
  Proof. destruct n; [lia|reflexivity]. Qed.

  (* ** Between two resets: steps, successful or not, and anything else done to the world in between
     (evaluating, adding and removing agents, setting actions). *)
  Inductive ev := EStep (s : sev D H) | EDo (op : hop D H).
  Definition happens maintain (m : mem) (r : rt) (e : ev) : mem * rt :=
    match e with
    | EStep s => fst (step maintain m r s)
    | EDo op =>
        match r_world M r with
        | None => (m, r)
        | Some w =>
            let x := hrun_op D H copy (heapof m) w op in
            (mkMem D H (fst x) (jsonof m),
             mkRt M (r_gen M r) (r_scen M r) (r_sidx M r) (Some (snd x)) (r_reset M r) (r_hist M r))
        end
    end.
  Fixpoint run_evs maintain (m : mem) (r : rt) (l : list ev) : mem * rt :=
    match l with [] => (m, r) | e :: t => let x := happens maintain m r e in run_evs maintain (fst x) (snd x) t end.

  (* The moments a history is about: just before the first step, and after every step that succeeds. *)
  Fixpoint moments maintain (first : bool) (m : mem) (r : rt) (l : list ev) : list (heap D H * hworld) :=
    match l with
    | [] => []
    | e :: t =>
        let x := happens maintain m r e in
        let now y := match r_world M (snd y) with Some w => [(heapof (fst y), w)] | None => [] end in
        match e with
        | EDo _ => moments maintain first (fst x) (snd x) t
        | EStep s =>
            (if first then now (m, r) else []) ++
            (match s with StepOk _ _ _ _ => now x | StepRaises _ _ _ _ _ => [] end) ++
            moments maintain false (fst x) (snd x) t
        end
    end.

  Definition no_handover (e : ev) : Prop := match e with EDo (HSetBehavior _ _ _ _) => False | _ => True end.

  (* the record [e] shows what the world of the moment showed *)
  Definition shows (h : heap D H) (e : hworld) (mo : heap D H * hworld) : Prop :=
    hw_time e = hw_time (snd mo) /\ forall id, seen h e id = copied_view copy (seen (fst mo) (snd mo) id).
  Definition keeps (h : heap D H) (w e : hworld) (mo : heap D H * hworld) : Prop :=
    hw_time e = hw_time (snd mo) /\ kept h w e (fun id => copied_view copy (seen (fst mo) (snd mo) id)).

  Lemma F2_keeps (h h' : heap D H) w w' l mo : (forall e v, kept h w e v -> kept h' w' e v) ->
    Forall2 (keeps h w) l mo -> Forall2 (keeps h' w') l mo.
  Proof. intros Hk F. induction F as [|e x l mo [E K] F IH]; constructor; auto. split; auto. Qed.

  Lemma seen_grows (h h' : heap D H) w id : grows h h' -> hwf h w -> seen h' w id = seen h w id.
  Proof.
    intros G (Wa & _). rewrite !seen_view. destruct (m_find id (hw_agents w)) as [l|] eqn:E; [|reflexivity].
    eapply view_grows; [exact G|]. apply Wa. exact (m_find_In _ _ _ E).
  Qed.

  Lemma F2_snoc {A B} (P : A -> B -> Prop) l l' x y : Forall2 P l l' -> P x y -> Forall2 P (l ++ [x]) (l' ++ [y]).
  Proof. intros F Hp. apply Forall2_app; auto. Qed.

  (* one event: world well-formed, records kept, new ones added *)
  Lemma history_gen l : forall (m : mem) (r : rt) w past,
    r_reset M r = true -> r_world M r = Some w -> hwf (heapof m) w -> closed (heapof m) -> Forall no_handover l ->
    Forall2 (keeps (heapof m) w) (r_hist M r) past ->
    let f := run_evs true m r l in
    exists w', r_reset M (snd f) = true /\ r_world M (snd f) = Some w' /\
      hwf (heapof (fst f)) w' /\ closed (heapof (fst f)) /\
      Forall2 (keeps (heapof (fst f)) w') (r_hist M (snd f))
        (past ++ moments true (match r_hist M r with [] => true | _ => false end) m r l).
  Proof.
    induction l as [|e t IH]; intros m r w past Er Ew Hw Hc HF F2 f.
    - unfold f. cbn. rewrite app_nil_r. exists w. auto.
    - inversion HF as [|? ? He Ht]; subst. unfold f. cbn [run_evs moments]. cbv zeta.
      destruct e as [s|op].
      + (* a step *)
        cbn [happens]. unfold rt_step. rewrite Er, Ew. cbv zeta.
        set (first := match r_hist M r with [] => true | _ => false end).
        set (a := if first then _ else _).
        assert (A : grows (heapof m) (fst a) /\ closed (fst a) /\ hwf (fst a) w /\
                    Forall2 (keeps (fst a) w) (snd a) (past ++ if first then [(heapof m, w)] else []) /\ snd a <> []).
        { unfold a, first in *. destruct (r_hist M r) as [|e0 hs] eqn:Eh.
          - destruct (clone_world_full copy (heapof m) w Hw Hc) as (G & C & _ & Tm & _ & _).
            pose proof (record_kept copy (heapof m) w Hw Hc) as K. cbv zeta in K.
            cbn [fst snd]. split; [exact G|]. split; [exact C|]. split; [|split; [|discriminate]].
            + destruct Hw as (Wa & Wo & We & Wb). split; [|split; [|split]].
              * intros id x Hin. exact (good_grows _ _ id x G (Wa id x Hin)).
              * intros id x Hin. eapply grows_model; [exact G|eapply Wo; exact Hin].
              * intros x Hx. eapply grows_model; [exact G|auto].
              * eapply grows_model; eassumption.
            + inversion F2; subst. cbn. constructor; [|constructor]. split; [exact Tm|exact K].
          - cbn [fst snd]. split; [apply grows_refl|]. split; [exact Hc|]. split; [exact Hw|]. rewrite app_nil_r. split; [exact F2|discriminate]. }
        destruct A as (Ga & Ca & Wa & Fa & Na). clearbody a.
        destruct s as [R fuel|R fuel k].
        * (* success *)
          cbn [fst snd]. destruct (step_wf copy R dt fuel (fst a) w Wa Ca) as [W1 C1].
          set (st := hstep D H copy R dt fuel (fst a) w) in *.
          destruct (clone_world_full copy (fst st) (snd st) W1 C1) as (G2 & C2 & _ & T2 & _ & _).
          pose proof (record_kept copy (fst st) (snd st) W1 C1) as K2. cbv zeta in K2.
          set (c := hclone_world D H copy (fst st) (snd st)) in *.
          assert (W2 : hwf (fst c) (snd st)).
          { destruct W1 as (Xa & Xo & Xe & Xb). split; [|split; [|split]].
            - intros id x Hin. exact (good_grows _ _ id x G2 (Xa id x Hin)).
            - intros id x Hin. eapply grows_model; [exact G2|eapply Xo; exact Hin].
            - intros x Hx. eapply grows_model; [exact G2|auto].
            - eapply grows_model; eassumption. }
          assert (F3 : Forall2 (keeps (fst c) (snd st)) (snd a ++ [snd c])
                         ((past ++ if first then [(heapof m, w)] else []) ++ [(fst c, snd st)])).
          { apply F2_snoc.
            - eapply F2_keeps; [|exact Fa]. intros e v Hk. unfold c. apply kept_clone. now apply kept_step.
            - split; [exact T2|]. destruct K2 as (P & hi & K2). exists P, hi.
              destruct K2 as (Po & S & Aw & O & V). repeat (split; [assumption|]). intros id. rewrite V. cbn [fst snd].
              now rewrite (seen_grows (fst st) (fst c) (snd st) id G2 W1). }
          destruct (IH (mkMem D H (fst c) (jsonof m)) (mkRt M (r_gen M r) (r_scen M r) (r_sidx M r) (Some (snd st)) true (snd a ++ [snd c]))
                      (snd st) _ eq_refl eq_refl W2 C2 Ht F3) as (w' & I1 & I2 & I3 & I4 & I5).
          exists w'. split; [exact I1|]. split; [exact I2|]. split; [exact I3|]. split; [exact I4|].
          cbn [r_world r_hist m_h]. rewrite <- !app_assoc in I5. cbn [app] in I5. rewrite Ew.
          cbn [r_hist] in I5. destruct (snd a ++ [snd c]) as [|q qs] eqn:Eq; [destruct (snd a); discriminate|].
          exact I5.
        * (* planning raises *)
          cbn [fst snd].
          assert (Hin : forall p, In p (firstn k (hw_agents w)) -> In p (hw_agents w)).
          { intros p Hp. rewrite <- (firstn_skipn k (hw_agents w)). apply in_or_app. now left. }
          destruct (plan_all_wf copy R dt fuel (fst a) w (firstn k (hw_agents w)) Wa Ca) as [W1 C1].
          assert (F3 : Forall2 (keeps (hplan_all D H copy R dt fuel (fst a) w (firstn k (hw_agents w))) w) (snd a)
                         (past ++ if first then [(heapof m, w)] else [])).
          { eapply F2_keeps; [|exact Fa]. intros e v Hk. now apply kept_plan. }
          destruct (IH (mkMem D H _ (jsonof m)) (mkRt M (r_gen M r) (r_scen M r) (r_sidx M r) (Some w) true (snd a))
                      w _ eq_refl eq_refl W1 C1 Ht F3) as (w' & I1 & I2 & I3 & I4 & I5).
          exists w'. split; [exact I1|]. split; [exact I2|]. split; [exact I3|]. split; [exact I4|].
          rewrite <- !app_assoc in I5. rewrite Ew. cbn [r_hist app] in I5 |- *.
          destruct (snd a) as [|q qs]; [congruence|]. exact I5.
      + (* something else *)
        cbn [happens]. rewrite Ew. cbv zeta. cbn [fst snd].
        assert (Ho : forall id x, op <> HSetBehavior D H id x) by (intros id x ->; exact He).
        destruct (op_wf copy (heapof m) w op Hw Hc Ho) as [W1 C1].
        set (x := hrun_op D H copy (heapof m) w op) in *.
        assert (F3 : Forall2 (keeps (fst x) (snd x)) (r_hist M r) past).
        { eapply F2_keeps; [|exact F2]. intros e v Hk. now apply kept_op. }
        destruct (IH (mkMem D H (fst x) (jsonof m)) (mkRt M (r_gen M r) (r_scen M r) (r_sidx M r) (Some (snd x)) (r_reset M r) (r_hist M r))
                    (snd x) past Er eq_refl W1 C1 Ht F3) as (w' & I1 & I2 & I3 & I4 & I5).
        exists w'. auto.
  Qed.

  (* The history holds exactly one world per moment, in order, and every recorded world shows the world of
     its moment for ever: later steps, failing steps and other changes of the running world do not reach it. *)
  Theorem C82_history_records (m : mem) (r : rt) w l :
    r_reset M r = true -> r_world M r = Some w -> r_hist M r = [] ->
    hwf (heapof m) w -> closed (heapof m) -> Forall no_handover l ->
    let f := run_evs true m r l in
    Forall2 (shows (heapof (fst f))) (r_hist M (snd f)) (moments true true m r l).
  Proof.
    intros Er Ew Eh Hw Hc HF f.
    destruct (history_gen l m r w [] Er Ew Hw Hc HF) as (w' & _ & _ & _ & _ & F2); [rewrite Eh; constructor|].
    rewrite Eh in F2. cbn [app] in F2. fold f in F2.
    clear - F2. induction F2 as [|e mo l1 l2 [E K] F IH]; constructor; auto.
    split; [exact E|]. intros id. now rewrite (kept_seen _ _ _ _ id K).
  Qed.

  Lemma F2_length {A B} (P : A -> B -> Prop) l l' : Forall2 P l l' -> length l = length l'.
  Proof. intros F. induction F; cbn; congruence. Qed.

  (* How many: none before the first step, then one more than steps succeeded. *)
  Definition succeeded (e : ev) : bool := match e with EStep (StepOk _ _ _ _) => true | _ => false end.
  Definition attempted (e : ev) : bool := match e with EStep _ => true | _ => false end.

  Lemma world_stays b l : forall (m : mem) (r : rt) e, r_reset M r = true -> r_world M r <> None ->
    (l = [e] -> r_reset M (snd (happens b m r e)) = true /\ r_world M (snd (happens b m r e)) <> None).
  Proof.
    intros m r e Er Ew _. destruct (r_world M r) as [w|] eqn:E; [|congruence].
    destruct e as [[R fuel|R fuel k]|op]; cbn [happens]; unfold rt_step; rewrite ?Er, ?E; cbn; split; auto; discriminate.
  Qed.

  Lemma moments_count b l : forall first (m : mem) (r : rt), r_reset M r = true -> r_world M r <> None ->
    length (moments b first m r l) =
      length (filter succeeded l) + (if first && existsb attempted l then 1 else 0).
  Proof.
    induction l as [|e t IH]; intros first m r Er Ew; cbn [moments].
    - cbn. now rewrite andb_false_r.
    - cbv zeta. destruct (world_stays b [e] m r e Er Ew eq_refl) as [Er' Ew'].
      destruct (r_world M r) as [w|] eqn:E; [|congruence].
      destruct (r_world M (snd (happens b m r e))) as [w'|] eqn:E'; [|congruence].
      destruct e as [[R fuel|R fuel k]|op]; cbn [filter succeeded existsb attempted orb].
      + rewrite !app_length. rewrite IH by congruence. rewrite andb_true_r. cbn [snd fst] in *. rewrite ?E.
        destruct first; cbn; lia.
      + rewrite !app_length. rewrite IH by congruence. rewrite andb_true_r. cbn [snd fst] in *. rewrite ?E.
        destruct first; cbn; lia.
      + rewrite IH by congruence. reflexivity.
  Qed.

  Theorem C82_history_length (m : mem) (r : rt) w l :
    r_reset M r = true -> r_world M r = Some w -> r_hist M r = [] ->
    hwf (heapof m) w -> closed (heapof m) -> Forall no_handover l ->
    length (r_hist M (snd (run_evs true m r l))) =
      if existsb attempted l then S (length (filter succeeded l)) else 0.
  Proof.
    intros Er Ew Eh Hw Hc HF. pose proof (C82_history_records m r w l Er Ew Eh Hw Hc HF) as F. cbv zeta in F.
    apply F2_length in F. rewrite F, moments_count by congruence. cbn [andb].
    destruct (existsb attempted l) eqn:Ea; [lia|].
    assert (Ef : filter succeeded l = []).
    { clear - Ea. induction l as [|e t IH]; [reflexivity|]. cbn in Ea |- *. apply orb_false_iff in Ea as [E1 E2].
      destruct e as [[? ?|? ? ?]|?]; cbn in *; try discriminate; auto. }
    now rewrite Ef.
  Qed.

  (* Without the option nothing is recorded. *)
  Theorem C82_no_history (m : mem) (r : rt) l : r_hist M r = [] -> r_hist M (snd (run_evs false m r l)) = [].
  Proof.
    revert m r. induction l as [|e t IH]; intros m r Eh; cbn [run_evs]; [exact Eh|]. apply IH.
    destruct e as [[R fuel|R fuel k]|op]; cbn [happens].
    - unfold rt_step. destruct (r_reset M r); [|exact Eh]. destruct (r_world M r); [|exact Eh].
      cbn. now rewrite Eh.
    - unfold rt_step. destruct (r_reset M r); [|exact Eh]. destruct (r_world M r); [|exact Eh].
      cbn. now rewrite Eh.
    - destruct (r_world M r); [|exact Eh]. cbn. exact Eh.
  Qed.

  (* ** The time series of the evaluated agent *)
  Definition row_of (id : N) (mo : heap D H * hworld) : option (H * D) :=
    match seen (fst mo) (snd mo) id with
    | Some (_, hs, _, Some d :: _) => match rev hs with x :: _ => Some (x, copy d) | [] => None end
    | _ => None
    end.

  (* One row per moment: the agent's state and last action at that moment; an exception if nothing was
     recorded or the agent was missing at one of the moments. *)
  Theorem C82_time_series (m : mem) (r : rt) w l s id ids :
    r_reset M r = true -> r_world M r = Some w -> r_hist M r = [] ->
    hwf (heapof m) w -> closed (heapof m) -> Forall no_handover l ->
    let f := run_evs true m r l in
    r_scen M (snd f) = Some s -> s_eval M s = id :: ids ->
    series D H M (heapof (fst f)) (snd f) =
      match moments true true m r l with
      | [] => None
      | mo => all_some (map (row_of id) mo)
      end.
  Proof.
    intros Er Ew Eh Hw Hc HF f Es Ei. pose proof (C82_history_records m r w l Er Ew Eh Hw Hc HF) as F. cbv zeta in F. fold f in F.
    unfold series. rewrite Es, Ei.
    assert (G : forall es ms, Forall2 (shows (heapof (fst f))) es ms ->
      map (fun w0 => match m_find id (hw_agents w0) with
                     | None => None
                     | Some l0 => match hget D H (heapof (fst f)) l0 with
                                  | Some (CAgent _ _ a) =>
                                      match rev (ha_hist H a), payload D H (heapof (fst f)) (ha_bm H a) with
                                      | x :: _, Some d => Some (x, d) | _, _ => None end
                                  | _ => None end end) es = map (row_of id) ms).
    { clear. intros es ms F. induction F as [|e mo es ms [_ Hs] F IH]; [reflexivity|]. cbn [map]. rewrite IH. f_equal.
      specialize (Hs id). unfold row_of. destruct (seen (fst mo) (snd mo) id) as [[[[i hs] mx] ps]|] eqn:E.
      - cbn in Hs. unfold seen in Hs. destruct (m_find id (hw_agents e)) as [la|]; [|discriminate].
        destruct (hget D H (heapof (fst f)) la) as [[d ss|a]|]; try discriminate.
        injection Hs as _ E2 _ E4. rewrite E2.
        destruct ps as [|[d|] ps]; cbn in E4.
        + discriminate.
        + injection E4 as E4 _. rewrite E4. destruct (rev hs); reflexivity.
        + injection E4 as E4 _. rewrite E4. destruct (rev hs); reflexivity.
      - cbn in Hs. unfold seen in Hs. destruct (m_find id (hw_agents e)) as [la|]; [|reflexivity].
        destruct (hget D H (heapof (fst f)) la) as [[d ss|a]|]; try reflexivity. discriminate. }
    pose proof (G _ _ F) as Gm. cbv zeta.
    destruct (r_hist M (snd f)) as [|e es], (moments true true m r l) as [|mo ms]; try (inversion F; fail); [reflexivity|].
    now rewrite Gm.
  Qed.

  (* ** Reset *)
  (* A failing reset (no scenario, no map) raises and leaves the running world and its history. *)
  Theorem C82_failed_reset (m m' : mem) (r r' : rt) g : reset m r g = (m', r', Raised) ->
    r_world M r' = r_world M r /\ r_hist M r' = r_hist M r /\ r_reset M r' = r_reset M r.
  Proof.
    unfold rt_reset. destruct g as [s|].
    - destruct (world_state D H M load none_obs only (heapof m) s) as [[[h s'] w]|]; intros E; [discriminate|].
      injection E as <- <-. auto.
    - destruct (r_gen M r) as [g|]; [|intros E; injection E as <- <-; auto].
      destruct (get_next D H M pa pm m g) as [g' [[[m1 s1] i]|]]; [|intros E; injection E as <- <-; auto].
      destruct (world_state D H M load none_obs only (heapof m1) s1) as [[[h s'] w]|]; intros E; [discriminate|].
      injection E as <- <-. auto.
  Qed.

  Theorem C82_reset_clears (m m' : mem) (r r' : rt) g : reset m r g = (m', r', Fine) ->
    r_hist M r' = [] /\ r_reset M r' = true /\ exists w, r_world M r' = Some w /\ hw_time w = 0%Q.
  Proof.
    unfold rt_reset. set (st := match g with Some _ => _ | None => _ end). destruct st as [[m1 r1] [s|]]; [|discriminate].
    unfold world_state. cbv zeta.
    destruct (match s_map M s with Some x => Some x | None => load (s_file M s) end); [|discriminate].
    intros E. injection E as <- <-. cbn. eauto.
  Qed.

  (* the map of agents of a new world *)
  Lemma add_agents_In (h : heap D H) l id x : In (id, x) (add_agents D H h l) -> In x l.
  Proof.
    unfold add_agents.
    assert (Q : forall l acc, In (id, x) (fold_left (fun m z => match hget D H h z with Some (CAgent _ _ a) => m_insert (ha_id H a) z m | _ => m end) l acc) ->
      In (id, x) acc \/ In x l).
    { clear. induction l as [|z r IH]; intros acc; cbn [fold_left]; [auto|].
      intros Hin. apply IH in Hin as [Hin|Hin]; [|cbn; auto].
      destruct (hget D H h z) as [[d ss|a]|]; auto. apply m_insert_In_keys in Hin as [E|Hin]; auto.
      injection E as _ <-. cbn; auto. }
    intros Hin. destruct (Q _ _ Hin) as [[]|Hin']. exact Hin'.
  Qed.

  Lemma add_agents_find (h : heap D H) l vs : Forall2 (agent_is h) l vs -> NoDup (map (v_id D H) vs) ->
    Forall2 (fun x v => m_find (v_id D H v) (add_agents D H h l) = Some x) l vs.
  Proof.
    unfold add_agents.
    set (f := fun m z => match hget D H h z with Some (CAgent _ _ a) => m_insert (ha_id H a) z m | _ => m end).
    assert (Keep : forall l vs acc id, Forall2 (agent_is h) l vs -> ~ In id (map (v_id D H) vs) ->
      m_find id (fold_left f l acc) = m_find id acc).
    { induction l0 as [|z r IH]; intros vs0 acc id F Hn; inversion F as [|? v ? vr Hz Fr]; subst; cbn [fold_left]; [reflexivity|].
      cbn in Hn. rewrite (IH vr _ id Fr) by tauto. unfold f. destruct Hz as (n & Hz). apply read_agent_iff in Hz as (a & E & I & _).
      rewrite E. apply m_find_insert_other. intros ->. apply Hn. left. exact I. }
    intros F. generalize (@nil (N * loc)). induction F as [|z v r vr Hz Fr IH]; intros acc Nd; [constructor|].
    cbn [map] in Nd. inversion Nd as [|? ? Hni Nd']; subst. cbn [fold_left]. constructor.
    - rewrite (Keep r vr _ _ Fr Hni). unfold f. destruct Hz as (n & Hz). apply read_agent_iff in Hz as (a & E & I & _).
      rewrite E, I. apply m_find_insert_same.
    - apply IH. exact Nd'.
  Qed.

  (* a copied scenario's agents are built after its observer *)
  Lemma observer_apart (m : mem) (s0 : scen M) (m1 : mem) s o : scen_copy D H M pa pm m s0 = Some (m1, s) -> s_observer M s = Some o ->
    exists b, o < b /\ (forall x, In x (s_agents M s) -> b <= x) /\
      (forall x c y, b <= x -> hget D H (heapof m1) x = Some c -> In y (refs c) -> b <= y).
  Proof.
    intros E Eo. unfold scen_copy in E. cbv zeta in E.
    set (oo := match s_observer M s0 with None => _ | Some _ => _ end) in E.
    assert (G : forall h1 ob, oo = Some (h1, ob) -> forall x, ob = Some x -> x < length h1).
    { intros h1 ob Eoo x Ex. unfold oo in Eoo. destruct (s_observer M s0) as [l|]; [|injection Eoo as <- <-; discriminate].
      destruct (read_model D H (length (heapof m)) (heapof m) l) as [v|]; [|discriminate].
      destruct (pm v) as [v'|]; [|discriminate]. injection Eoo as <- <-. injection Ex as <-.
      destruct (build_good (fun _ => False) (heapof m) ltac:(intros ? []) v' (heapof m)) as (_ & _ & _ & _ & _ & (n & V)).
      { split; [lia|intros ? []|]. intros l0 c _ _ y Hy []. }
      destruct n; [discriminate|]. cbn in V.
      destruct (hget D H (fst (build_model D H (heapof m) v')) (snd (build_model D H (heapof m) v'))) as [c|] eqn:Eh; [|discriminate].
      exact (hget_lt _ _ _ Eh). }
    destruct oo as [[h1 ob]|]; [|discriminate].
    destruct (copy_agents D H pa [] h1 (s_agents M s0)) as [[h2 ags]|] eqn:Ec; [|discriminate].
    destruct (s_json M s0); [|discriminate]. destruct (nth_error (jsonof m) n); [|discriminate].
    injection E as <- <-. cbn in Eo. subst ob. exists (length h1). split; [exact (G h1 (Some o) eq_refl o eq_refl)|].
    set (P := fun l : loc => l < length h1).
    assert (PS : Safe P h1 h1).
    { split; [lia|reflexivity|]. intros l c Nl E. apply hget_lt in E. contradiction. }
    destruct (copy_agents_safe pa P h1 ltac:(auto) (s_agents M s0) [] h1 h2 ags PS) as (S2 & _ & _ & N2); [discriminate|exact Ec|].
    cbn [s_agents m_h]. split.
    - intros x Hx. specialize (N2 x Hx). unfold P in N2. lia.
    - intros x c y Lx E Hy. assert (Nx : ~ P x) by (unfold P; lia). pose proof (sf_away _ _ _ S2 x c Nx E y Hy). unfold P in *. lia.
  Qed.

  (* ** The whole life of a runtime *)
  Section Life.
    Variables (K : loc -> Prop) (J : nat -> Prop).

    (* reset(), reset(s) with a scenario of the caller, steps, other changes of the world, and anything else
       the program does. *)
    Inductive lev := LReset | LGiven (s : scen M) | LStep (b : bool) (s : sev D H) | LDo (op : hop D H) | LOther.
    Inductive life : mem -> rt -> list lev -> mem -> rt -> Prop :=
    | l_nil m r : life m r [] m r
    | l_reset m r l m2 r2 : life (fst (fst (reset m r None))) (snd (fst (reset m r None))) l m2 r2 -> life m r (LReset :: l) m2 r2
    | l_given m r s l m2 r2 : (forall x, In x (s_agents M s) \/ s_observer M s = Some x -> ~ K x) ->
        life (fst (fst (reset m r (Some s)))) (snd (fst (reset m r (Some s)))) l m2 r2 -> life m r (LGiven s :: l) m2 r2
    | l_step m r b s l m2 r2 : life (fst (fst (step b m r s))) (snd (fst (step b m r s))) l m2 r2 -> life m r (LStep b s :: l) m2 r2
    | l_do m r op l m2 r2 : (forall id x, op = HSetBehavior D H id x -> ~ K x) ->
        life (fst (happens true m r (EDo op))) (snd (happens true m r (EDo op))) l m2 r2 -> life m r (LDo op :: l) m2 r2
    | l_other m r m1 l m2 r2 : client K J m m1 -> life m1 r l m2 r2 -> life m r (LOther :: l) m2 r2.

    Lemma world_state_safe (h0 h h' : heap D H) (s s' : scen M) w : (forall l, K l -> l < length h0) -> Safe K h0 h ->
      (forall x, In x (s_agents M s) \/ s_observer M s = Some x -> ~ K x) ->
      world_state D H M load none_obs only h s = Some (h', s', w) -> Safe K h0 h' /\ Away K w.
    Proof.
      intros Ko S1 Hs E. unfold world_state in E. cbv zeta in E.
      set (ob := match s_observer M s with Some _ => _ | None => _ end) in E.
      assert (G : Safe K h0 (fst ob) /\ ~ K (snd ob)).
      { unfold ob. destruct (s_observer M s) as [o|] eqn:Eo; cbn [fst snd].
        - split; [apply S_wr; auto|auto].
        - unfold alloc. cbn [fst snd]. apply S_alloc; auto. intros x []. }
      destruct G as [S2 N2].
      destruct (match s_map M s with Some x => Some x | None => load (s_file M s) end) as [mp|]; [|discriminate].
      injection E as <- <- <-. split; [exact S2|].
      split; [|split; [intros x []|split; [intros x []|exact N2]]]. cbn [hw_agents].
      intros x Hx. apply in_map_iff in Hx as ([k y] & <- & Hy). cbn [snd]. apply Hs. left.
      apply (add_agents_In _ _ _ _ Hy).
    Qed.

    Record LInv (m0 m : mem) (g0 : gen M) (r : rt) : Prop := {
      li_mem : Inv K J m0 m;
      li_gen : exists g, r_gen M r = Some g /\ g_stored M g = g_stored M g0;
      li_world : forall w, r_world M r = Some w -> Away K w }.

    Definition resets (l : list lev) : nat := length (filter (fun e => match e with LReset => true | _ => false end) l).
    Definition rcursor (r : rt) : nat := match r_gen M r with Some g => cursor g | None => 0 end.

    Lemma reset_next (m : mem) (r : rt) g g' m1 s i : r_gen M r = Some g -> get_next D H M pa pm m g = (g', Some (m1, s, i)) ->
      reset m r None =
        match world_state D H M load none_obs only (heapof m1) s with
        | None => (m1, mkRt M (Some g') (Some s) (Some i) (r_world M r) (r_reset M r) (r_hist M r), Raised)
        | Some (h, s', w) => (mkMem D H h (jsonof m1), mkRt M (Some g') (Some s') (Some i) (Some w) true [], Fine)
        end.
    Proof.
      intros E1 E2. unfold rt_reset. rewrite E1, E2.
      destruct (world_state D H M load none_obs only (heapof m1) s) as [[[h s'] w]|]; reflexivity.
    Qed.

    Lemma life_inv (m0 : mem) (g0 : gen M) val l : private K J m0 (g_stored M g0) -> all_copyable pa pm m0 g0 val -> 0 < length (g_stored M g0) ->
      forall m r m' r', LInv m0 m g0 r -> life m r l m' r' ->
      LInv m0 m' g0 r' /\ rcursor r' = (rcursor r + resets l) mod length (g_stored M g0).
    Proof.
      intros PV Hc Hn m r m' r' I T. induction T as [m r|m r l m2 r2 T IH|m r s l m2 r2 Hs T IH|m r b s l m2 r2 T IH|m r op l m2 r2 Ho T IH|m r m1 l m2 r2 Hcl T IH].
      - split; [exact I|]. unfold resets. cbn. rewrite Nat.add_0_r, Nat.mod_small; [reflexivity|].
        destruct (li_gen _ _ _ _ I) as (g & Eg & Es). unfold rcursor. rewrite Eg. unfold cursor.
        destruct (Nat.leb_spec (length (g_stored M g)) (g_idx M g)); rewrite ?Es in *; lia.
      - destruct (li_gen _ _ _ _ I) as (g & Eg & Es).
        destruct (next_ok pa pm K J m0 m g0 g val PV (li_mem _ _ _ _ I) Es Hc Hn) as (m1 & s & E & Hv & Hnew).
        pose proof (reset_next m r g _ m1 s _ Eg E) as Er.
        assert (I1 : Inv K J m0 m1).
        { eapply step_inv; [|exact (li_mem _ _ _ _ I)|apply g_next; exact E]. now rewrite Es. }
        assert (Na : forall x, In x (s_agents M s) \/ s_observer M s = Some x -> ~ K x).
        { intros x Hx Kx. destruct Hnew as (Ha & _). specialize (Ha x Hx).
          pose proof (safe_old K J m0 _ PV m (li_mem _ _ _ _ I) x Kx). lia. }
        assert (Hcur : (if Nat.leb (length (g_stored M g)) (S (cursor g)) then 0 else S (cursor g)) =
                       (rcursor r + 1) mod length (g_stored M g0)).
        { unfold rcursor. rewrite Eg, Es.
          assert (Hlt : cursor g < length (g_stored M g0)).
          { unfold cursor. destruct (Nat.leb_spec (length (g_stored M g)) (g_idx M g)); rewrite ?Es in *; lia. }
          rewrite (cursor_step _ _ Hn Hlt). f_equal. lia. }
        assert (Next : LInv m0 (fst (fst (reset m r None))) g0 (snd (fst (reset m r None))) /\
                       rcursor (snd (fst (reset m r None))) = (rcursor r + 1) mod length (g_stored M g0)).
        { rewrite Er. destruct (world_state D H M load none_obs only (heapof m1) s) as [[[h s'] w]|] eqn:Ew; cbn [fst snd].
          - destruct (world_state_safe (heapof m0) (heapof m1) h s s' w (pv_old _ _ _ _ PV) (iv_safe _ _ _ _ I1) Na Ew) as [S2 A2].
            split; [|unfold rcursor at 1; cbn [r_gen]; unfold cursor at 1; cbn [g_stored g_idx]; exact Hcur].
            split; [split; [exact S2|exact (iv_jlen _ _ _ _ I1)|exact (iv_json _ _ _ _ I1)]| |].
            + eexists. split; [reflexivity|]. exact Es.
            + cbn. intros w0 X. injection X as <-. exact A2.
          - split; [|unfold rcursor at 1; cbn [r_gen]; unfold cursor at 1; cbn [g_stored g_idx]; exact Hcur].
            split; [exact I1| |exact (li_world _ _ _ _ I)]. eexists. split; [reflexivity|]. exact Es. }
        destruct Next as [N1 N2]. destruct (IH N1) as [F1 F2]. split; [exact F1|]. rewrite F2, N2.
        unfold resets. cbn [filter length]. rewrite Nat.add_mod_idemp_l by lia. f_equal. lia.
      - assert (Next : LInv m0 (fst (fst (reset m r (Some s)))) g0 (snd (fst (reset m r (Some s)))) /\ rcursor (snd (fst (reset m r (Some s)))) = rcursor r).
        { unfold rt_reset. destruct (world_state D H M load none_obs only (heapof m) s) as [[[h s'] w]|] eqn:Ew; cbn [fst snd].
          - destruct (world_state_safe (heapof m0) (heapof m) h s s' w (pv_old _ _ _ _ PV) (iv_safe _ _ _ _ (li_mem _ _ _ _ I)) Hs Ew) as [S2 A2].
            split; [|reflexivity].
            split; [split; [exact S2|exact (iv_jlen _ _ _ _ (li_mem _ _ _ _ I))|exact (iv_json _ _ _ _ (li_mem _ _ _ _ I))]|exact (li_gen _ _ _ _ I)|].
            cbn. intros w0 X. injection X as <-. exact A2.
          - split; [|reflexivity]. split; [exact (li_mem _ _ _ _ I)|exact (li_gen _ _ _ _ I)|exact (li_world _ _ _ _ I)]. }
        destruct Next as [N1 N2]. destruct (IH N1) as [F1 F2]. split; [exact F1|]. now rewrite F2, N2.
      - assert (Next : LInv m0 (fst (fst (step b m r s))) g0 (snd (fst (step b m r s))) /\ rcursor (snd (fst (step b m r s))) = rcursor r).
        { unfold rt_step. destruct (r_reset M r); [|split; [exact I|reflexivity]].
          destruct (r_world M r) as [w|] eqn:Ew; [|split; [exact I|reflexivity]]. cbv zeta.
          pose proof (li_world _ _ _ _ I w Ew) as A. destruct (li_mem _ _ _ _ I) as [S Jl Jj].
          set (a := if match r_hist M r with [] => b | _ => false end then _ else _).
          assert (Sa : Safe K (heapof m0) (fst a)).
          { unfold a. destruct (match r_hist M r with [] => b | _ => false end); cbn [fst]; [|exact S].
            exact (proj1 (S_clone_world copy K (heapof m0) (pv_old _ _ _ _ PV) _ w S A)). }
          destruct s as [R fuel|R fuel k]; cbn [fst snd].
          - destruct (S_step copy K (heapof m0) (pv_old _ _ _ _ PV) R dt fuel (fst a) w Sa A) as [S1 A1].
            split; [|reflexivity]. split; [|exact (li_gen _ _ _ _ I)|cbn; intros w0 X; injection X as <-; exact A1].
            split; [|exact Jl|exact Jj]. cbn [m_h]. destruct b; cbn [fst]; [|exact S1].
            exact (proj1 (S_clone_world copy K (heapof m0) (pv_old _ _ _ _ PV) _ _ S1 A1)).
          - split; [|reflexivity]. split; [|exact (li_gen _ _ _ _ I)|cbn; intros w0 X; injection X as <-; exact A].
            split; [|exact Jl|exact Jj]. cbn [m_h]. apply (S_plan_all copy K (heapof m0) (pv_old _ _ _ _ PV)); auto.
            intros p Hp. rewrite <- (firstn_skipn k (hw_agents w)). apply in_or_app. now left. }
        destruct Next as [N1 N2]. destruct (IH N1) as [F1 F2]. split; [exact F1|]. now rewrite F2, N2.
      - assert (Next : LInv m0 (fst (happens true m r (EDo op))) g0 (snd (happens true m r (EDo op))) /\ rcursor (snd (happens true m r (EDo op))) = rcursor r).
        { cbn [happens]. destruct (r_world M r) as [w|] eqn:Ew; [|split; [exact I|reflexivity]]. cbv zeta. cbn [fst snd].
          destruct (li_mem _ _ _ _ I) as [S Jl Jj].
          destruct (S_op copy K (heapof m0) (pv_old _ _ _ _ PV) (heapof m) w op S (li_world _ _ _ _ I w Ew) Ho) as [S1 A1].
          split; [|reflexivity]. split; [split; [exact S1|exact Jl|exact Jj]|exact (li_gen _ _ _ _ I)|].
          cbn. intros w0 X. injection X as <-. exact A1. }
        destruct Next as [N1 N2]. destruct (IH N1) as [F1 F2]. split; [exact F1|]. now rewrite F2, N2.
      - assert (Next : LInv m0 m1 g0 r).
        { destruct (li_gen _ _ _ _ I) as (g & Eg & Es). split; [|exact (li_gen _ _ _ _ I)|exact (li_world _ _ _ _ I)].
          eapply (step_inv pa pm K J m0 m m1 g g); [now rewrite Es|exact (li_mem _ _ _ _ I)|apply g_other; exact Hcl]. }
        destruct (IH Next) as [F1 F2]. split; [exact F1|]. exact F2.
    Qed.

    (* Whatever happened before, reset() starts the next scenario of the generator from its initial state:
       its agents as created (pickled once), a world at time 0 with exactly these agents, an empty history. *)
    Theorem C82_reset_restarts (m0 m : mem) (g0 : gen M) (r0 r : rt) val l :
      private K J m0 (g_stored M g0) -> all_copyable pa pm m0 g0 val -> 0 < length (g_stored M g0) ->
      r_gen M r0 = Some g0 -> r_world M r0 = None -> life m0 r0 l m r ->
      let i := (cursor g0 + resets l) mod length (g_stored M g0) in
      (sv_map (val i) <> None \/ load (sv_file (val i)) <> None) ->
      exists m' r' s w, reset m r None = (m', r', Fine) /\
        r_sidx M r' = Some i /\ r_scen M r' = Some s /\ s_eval M s = sv_eval (val i) /\
        Forall2 (agent_is (heapof m')) (s_agents M s) (sv_agents (val i)) /\
        r_world M r' = Some w /\ hw_time w = 0%Q /\ r_hist M r' = [] /\
        (forall id x, In (id, x) (hw_agents w) -> In x (s_agents M s)) /\
        (NoDup (map (v_id D H) (sv_agents (val i))) ->
           Forall2 (fun x v => m_find (v_id D H v) (hw_agents w) = Some x) (s_agents M s) (sv_agents (val i))).
    Proof.
      intros PV Hc Hn Eg0 Ew0 T i Hmap.
      assert (I0 : LInv m0 m0 g0 r0).
      { split; [exact (inv_init K J m0 _ PV)|eexists; split; [exact Eg0|reflexivity]|]. rewrite Ew0. discriminate. }
      destruct (life_inv m0 g0 val l PV Hc Hn m0 r0 m r I0 T) as [I Ec].
      destruct (li_gen _ _ _ _ I) as (g & Eg & Es). unfold rcursor in Ec. rewrite Eg, Eg0 in Ec.
      destruct (next_ok pa pm K J m0 m g0 g val PV (li_mem _ _ _ _ I) Es Hc Hn) as (m1 & s & E & Hv & Hnew).
      rewrite Ec in E, Hv. fold i in E, Hv.
      pose proof (reset_next m r g _ m1 s _ Eg E) as Er.
      destruct Hv as (Va & Ve & Vf & Vm & Vj & Vo).
      (* agents do not share objects with the observer *)
      assert (Es0 : exists s0, scen_copy D H M pa pm m s0 = Some (m1, s)).
      { unfold get_next in E. set (i0 := if Nat.leb _ _ then _ else _) in E.
        destruct (get_scenario D H M pa pm m g (Z.of_nat i0)) as [[m3 s3]|] eqn:E3; [|discriminate].
        injection E as _ <- <- _. unfold get_scenario in E3. destruct (py_index (g_stored M g) (Z.of_nat i0)) as [s0|]; [|discriminate]. eauto. }
      destruct Es0 as (s0 & Es0).
      assert (Ew : exists h s' w, world_state D H M load none_obs only (heapof m1) s = Some (h, s', w) /\
        s_agents M s' = s_agents M s /\ s_eval M s' = s_eval M s /\ hw_time w = 0%Q /\
        hw_agents w = add_agents D H h (s_agents M s) /\
        (forall x v, In x (s_agents M s) -> agent_is (heapof m1) x v -> agent_is h x v)).
      { unfold world_state. cbv zeta. rewrite Vm, Vf.
        assert (exists mp, match sv_map (val i) with Some x => Some x | None => load (sv_file (val i)) end = Some mp) as (mp & ->).
        { destruct (sv_map (val i)); [eauto|]. destruct Hmap as [X|X]; [congruence|]. destruct (load (sv_file (val i))); [eauto|congruence]. }
        eexists _, _, _. split; [reflexivity|]. cbn [s_agents s_eval hw_time hw_agents].
        split; [reflexivity|]. split; [reflexivity|]. split; [reflexivity|]. split; [reflexivity|].
        intros x v Hx (n & Hr). destruct (s_observer M s) as [o|] eqn:Eo; cbn [fst].
        - destruct (observer_apart m s0 m1 s o Es0 Eo) as (b & Lo & La & Lc). exists n.
          rewrite <- Hr. apply (read_agent_agree (fun y => b <= y)); [|exact Lc|exact (La x Hx)].
          intros y Hy. unfold wr_model. destruct (hget D H (heapof m1) o) as [[d ss|aa]|]; auto.
          apply hget_hset_other. lia.
        - exists n. eapply read_agent_mono; [apply Nat.le_refl|apply ext_app|exact Hr]. }
      destruct Ew as (h & s' & w & Ew & Ea & Ev & Et & Eag & Hag).
      rewrite Ew in Er. eexists _, _, s', w. split; [exact Er|]. cbn [r_sidx r_scen r_world r_hist m_h].
      split; [reflexivity|]. split; [reflexivity|]. split; [congruence|]. rewrite Ea, Eag.
      assert (F2 : Forall2 (agent_is h) (s_agents M s) (sv_agents (val i))).
      { eapply Forall2_imp; [|exact Va]. intros x v Hx Hr. exact (Hag x v Hx Hr). }
      split; [exact F2|]. split; [reflexivity|]. split; [exact Et|]. split; [reflexivity|]. split.
      - intros id x Hin. exact (add_agents_In _ _ _ _ Hin).
      - intros Nd. apply add_agents_find; [exact F2|exact Nd].
    Qed.
  End Life.

  (* ** A world made by reset() is in order *)
  Lemma build_closed v : forall h : heap D H, closed h ->
    closed (fst (build_model D H h v)) /\ snd (build_model D H h v) < length (fst (build_model D H h v)) /\
    length h <= length (fst (build_model D H h v)).
  Proof.
    induction v as [d l IH] using mval_ind'. intros h Hc. rewrite build_model_eq.
    assert (G : closed (fst (build_list h l)) /\ (forall y, In y (snd (build_list h l)) -> y < length (fst (build_list h l))) /\
                length h <= length (fst (build_list h l))).
    { revert h Hc. induction l as [|x r IHr]; intros h Hc; cbn [build_list fst snd].
      - split; [exact Hc|]. split; [intros y []|lia].
      - inversion IH as [|? ? Hx Hr]; subst. destruct (Hx h Hc) as (C1 & B1 & L1).
        destruct (IHr Hr _ C1) as (C2 & B2 & L2). split; [exact C2|]. split; [|lia].
        intros y [<-|Hy]; [|auto]. eapply Nat.lt_le_trans; [exact B1|exact L2]. }
    destruct G as (C1 & B1 & L1). unfold alloc. cbn [fst snd].
    split; [apply closed_app; [exact C1|exact B1]|]. rewrite app_length. cbn. lia.
  Qed.

  Lemma build_agent_closed v (h : heap D H) : closed h ->
    closed (fst (build_agent D H h v)) /\ length h <= length (fst (build_agent D H h v)).
  Proof.
    intros Hc. unfold build_agent, alloc. cbv zeta. cbn [fst snd].
    destruct (build_closed (v_bm D H v) h Hc) as (C1 & B1 & L1). set (r1 := build_model D H h (v_bm D H v)) in *.
    destruct (build_closed (v_dm D H v) _ C1) as (C2 & B2 & L2). set (r2 := build_model D H (fst r1) (v_dm D H v)) in *.
    destruct (build_closed (v_em D H v) _ C2) as (C3 & B3 & L3). set (r3 := build_model D H (fst r2) (v_em D H v)) in *.
    assert (G : closed (fst (build_opt D H (fst r3) (v_goal D H v))) /\ length (fst r3) <= length (fst (build_opt D H (fst r3) (v_goal D H v))) /\
      forall y, In y (match snd (build_opt D H (fst r3) (v_goal D H v)) with Some g => [g] | None => [] end) -> y < length (fst (build_opt D H (fst r3) (v_goal D H v)))).
    { destruct (v_goal D H v) as [g|]; cbn.
      - destruct (build_closed g _ C3) as (C4 & B4 & L4). split; [exact C4|]. split; [exact L4|]. intros y [<-|[]]. exact B4.
      - split; [exact C3|]. split; [lia|]. intros y []. }
    destruct G as (C4 & L4 & B4). set (r4 := build_opt D H (fst r3) (v_goal D H v)) in *.
    split; [|rewrite app_length; lia]. apply closed_app; [exact C4|]. cbn [refs ha_bm ha_dm ha_em ha_goal].
    intros y [<-|[<-|[<-|Hy]]]; [eapply Nat.lt_le_trans; [exact B1|lia]|eapply Nat.lt_le_trans; [exact B2|lia]|eapply Nat.lt_le_trans; [exact B3|lia]|auto].
  Qed.

  Lemma copy_agents_are l : forall memo (h h' : heap D H) l', closed h ->
    (forall x y, lookup x memo = Some y -> exists v, agent_is h y v) ->
    copy_agents D H pa memo h l = Some (h', l') ->
    closed h' /\ ext h h' /\ (forall y, In y l' -> exists v, agent_is h' y v).
  Proof.
    induction l as [|x r IH]; intros memo h h' l' Hc HM E; cbn [copy_agents] in E.
    - injection E as <- <-. split; [exact Hc|]. split; [apply ext_refl|]. intros y [].
    - destruct (lookup x memo) as [y|] eqn:El.
      + destruct (copy_agents D H pa memo h r) as [[h1 l1]|] eqn:Er; [|discriminate]. injection E as <- <-.
        destruct (IH memo h h1 l1 Hc HM Er) as (A & B & C). split; [exact A|]. split; [exact B|].
        intros z [<-|Hz]; [|auto]. destruct (HM x y El) as (v & Hv). exists v. eapply agent_is_ext; eassumption.
      + destruct (read_agent D H (length h) h x) as [v|]; [|discriminate].
        destruct (pa v) as [v'|]; [|discriminate]. cbv zeta in E.
        destruct (build_agent_closed v' h Hc) as [C1 L1].
        destruct (build_agent_good (fun _ => False) h ltac:(intros ? []) v' h) as (_ & _ & X1 & _ & _ & V1).
        { split; [lia|intros ? []|]. intros l0 c _ _ y Hy []. }
        set (b := build_agent D H h v') in *.
        destruct (copy_agents D H pa ((x, snd b) :: memo) (fst b) r) as [[h1 l1]|] eqn:Er; [|discriminate]. injection E as <- <-.
        assert (HM' : forall z y, lookup z ((x, snd b) :: memo) = Some y -> exists v, agent_is (fst b) y v).
        { intros z y Hz. unfold lookup in Hz. cbn [find fst] in Hz. destruct (Nat.eqb_spec z x) as [->|Ne].
          - injection Hz as <-. eauto.
          - destruct (HM z y Hz) as (u & Hu). exists u. eapply agent_is_ext; eassumption. }
        destruct (IH _ (fst b) h1 l1 C1 HM' Er) as (A & B & C). split; [exact A|]. split; [eapply ext_trans; eassumption|].
        intros z [<-|Hz]; [|auto]. exists v'. eapply agent_is_ext; eassumption.
  Qed.

  Lemma agent_is_good (h : heap D H) l v : agent_is h l v -> exists a, hget D H h l = Some (CAgent D H a) /\ good_agent h (ha_id H a) l.
  Proof.
    intros (n & E). apply read_agent_iff in E as (a & E & I & _ & _ & R1 & R2 & R3 & R4).
    assert (Mo : forall n x u, read_model D H n h x = Some u -> is_model h x).
    { intros [|k] x u Ex; [discriminate|]. cbn in Ex. destruct (hget D H h x) as [[d ss|aa]|] eqn:Eh; try discriminate. exists d, ss. exact Eh. }
    exists a. split; [exact E|]. exists a. split; [exact E|]. split; [reflexivity|].
    repeat (split; [eapply Mo; eassumption|]). intros g Eg. rewrite Eg in R4. cbn in R4.
    destruct (read_model D H n h g) eqn:Er; [|discriminate]. eapply Mo; eassumption.
  Qed.

  Theorem C82_reset_ready (m m' : mem) (r r' : rt) : closed (heapof m) -> reset m r None = (m', r', Fine) ->
    exists w, r_world M r' = Some w /\ hwf (heapof m') w /\ closed (heapof m').
  Proof.
    intros Hc E. unfold rt_reset in E. destruct (r_gen M r) as [g|]; [|discriminate].
    destruct (get_next D H M pa pm m g) as [g' [[[m1 s] i]|]] eqn:En; [|discriminate].
    assert (Es0 : exists s0, scen_copy D H M pa pm m s0 = Some (m1, s)).
    { unfold get_next in En. set (i0 := if Nat.leb _ _ then _ else _) in En.
      destruct (get_scenario D H M pa pm m g (Z.of_nat i0)) as [[m3 s3]|] eqn:E3; [|discriminate].
      injection En as _ <- <- _. unfold get_scenario in E3. destruct (py_index (g_stored M g) (Z.of_nat i0)) as [s0|]; [|discriminate]. eauto. }
    destruct Es0 as (s0 & Es0).
    assert (G : closed (heapof m1) /\ (forall y, In y (s_agents M s) -> exists v, agent_is (heapof m1) y v) /\
      (forall o, s_observer M s = Some o -> is_model (heapof m1) o)).
    { unfold scen_copy in Es0. cbv zeta in Es0. set (oo := match s_observer M s0 with None => _ | Some _ => _ end) in Es0.
      assert (Go : forall h1 ob, oo = Some (h1, ob) -> closed h1 /\ forall x, ob = Some x -> is_model h1 x).
      { intros h1 ob Eoo. unfold oo in Eoo. destruct (s_observer M s0) as [l|]; [|injection Eoo as <- <-; split; [exact Hc|discriminate]].
        destruct (read_model D H (length (heapof m)) (heapof m) l) as [v|]; [|discriminate].
        destruct (pm v) as [v'|]; [|discriminate]. injection Eoo as <- <-.
        split; [exact (proj1 (build_closed v' _ Hc))|]. intros x Ex. injection Ex as <-.
        destruct v' as [d l']. rewrite build_model_eq. unfold alloc. cbn [fst snd]. eexists _, _. apply hget_app_new. }
      destruct oo as [[h1 ob]|]; [|discriminate]. destruct (Go h1 ob eq_refl) as [C1 Mo].
      destruct (copy_agents D H pa [] h1 (s_agents M s0)) as [[h2 ags]|] eqn:Ec; [|discriminate].
      destruct (s_json M s0); [|discriminate]. destruct (nth_error (jsonof m) n); [|discriminate].
      injection Es0 as <- <-. cbn [m_h s_agents s_observer].
      destruct (copy_agents_are (s_agents M s0) [] h1 h2 ags C1 ltac:(discriminate) Ec) as (C2 & X2 & V2).
      split; [exact C2|]. split; [exact V2|]. intros o Eo. destruct (Mo o Eo) as (d & ss & Ed). exists d, ss. exact (X2 _ _ Ed). }
    destruct G as (C1 & V1 & Mo).
    unfold world_state in E. cbv zeta in E.
    destruct (match s_map M s with Some x => Some x | None => load (s_file M s) end) as [mp|]; [|discriminate].
    injection E as <- <-. eexists. split; [reflexivity|]. cbn [m_h].
    set (ob := match s_observer M s with Some l => (wr_model D H (heapof m1) l (only (s_eval M s)), l) | None => alloc D H (heapof m1) (CModel D H none_obs []) end).
    assert (G : closed (fst ob) /\ is_model (fst ob) (snd ob) /\
      (forall y, In y (s_agents M s) -> exists a, hget D H (fst ob) y = Some (CAgent D H a) /\ good_agent (fst ob) (ha_id H a) y)).
    { unfold ob. destruct (s_observer M s) as [o|] eqn:Eo; cbn [fst snd].
      - pose proof (reshaped_wr (heapof m1) o (only (s_eval M s))) as Rs.
        split; [eapply reshaped_closed; eassumption|]. split; [eapply reshaped_model; [exact Rs|auto]|].
        intros y Hy. destruct (V1 y Hy) as (v & Hv). destruct (agent_is_good _ _ _ Hv) as (a & Ea & (a0 & E0 & I0 & B & Dm & Em & Go)).
        rewrite Ea in E0. injection E0 as <-.
        destruct (reshaped_get _ _ y _ Rs Ea) as ([d' s'|a'] & E' & Es); [discriminate|].
        cbn in Es. injection Es as E1 E2 E3 E4 E5. exists a'. split; [exact E'|]. exists a'. split; [exact E'|]. split; [reflexivity|].
        rewrite E2, E3, E4. repeat (split; [eapply reshaped_model; eassumption|]).
        intros g0 Eg. eapply reshaped_model; [exact Rs|]. apply Go. rewrite Eg in E5. destruct (ha_goal H a); [|discriminate]. congruence.
      - split; [apply closed_app; [exact C1|intros y []]|]. split; [exists none_obs, []; apply hget_app_new|].
        intros y Hy. destruct (V1 y Hy) as (v & Hv). destruct (agent_is_good _ _ _ Hv) as (a & Ea & Ga).
        exists a. split; [exact (ext_app _ _ _ _ Ea)|]. eapply good_grows; [apply grows_alloc|exact Ga]. }
    destruct G as (C2 & Mob & Ga). split; [|exact C2].
    split; [|split; [intros k x []|split; [intros x []|exact Mob]]]. cbn [hw_agents].
    intros id x Hin. fold ob in Hin.
    assert (Q : forall l acc, (forall z, In z l -> In z (s_agents M s)) -> (forall id x, In (id, x) acc -> good_agent (fst ob) id x) ->
      In (id, x) (fold_left (fun m0 z => match hget D H (fst ob) z with Some (CAgent _ _ a) => m_insert (ha_id H a) z m0 | _ => m0 end) l acc) ->
      good_agent (fst ob) id x).
    { clear Hin. induction l as [|z rr IH]; intros acc Hl Ha; cbn [fold_left]; [apply Ha|].
      apply IH; [intros; apply Hl; cbn; auto|]. intros id0 x0 Hin. destruct (Ga z (Hl z (or_introl eq_refl))) as (a & Ea & Gz).
      rewrite Ea in Hin. apply m_insert_In_keys in Hin as [E|Hin]; [injection E as -> ->; exact Gz|auto]. }
    apply (Q (s_agents M s) [] ltac:(auto) ltac:(intros ? ? []) Hin).
  Qed.
End C82.

Print Assumptions C82_step_needs_reset.
Print Assumptions C82_run_raises_refuted.
Print Assumptions C82_history_records.
Print Assumptions C82_history_length.
Print Assumptions C82_no_history.
Print Assumptions C82_time_series.
Print Assumptions C82_failed_reset.
Print Assumptions C82_reset_clears.
Print Assumptions C82_reset_restarts.
Print Assumptions C82_reset_ready.

(* ** A case: two steps with a history; the scenario of Props_Scenario. *)
Section Case.
  Let Dz := Z.
  Definition ex_R : oracles Z Z :=
    mkOr Z Z (fun _ _ _ d => d) (fun _ _ _ _ _ d => (d + 1)%Z) (fun _ _ _ d => (d + 10)%Z) (fun e b => (e + b)%Z)
      (fun _ _ _ => true) (fun _ _ => true) (fun _ _ _ => false) (fun _ _ d => d).
  Definition ex_load (f : string) : option nat := Some 77.
  Definition ex_rt : rt nat := mkRt nat (Some ex_gen) None None None false [].
  Definition ex_reset (m : mem Z Z) (r : rt nat) g := rt_reset Z Z nat ex_pa ex_pm ex_load 0%Z (fun _ d => d) m r g.
  Definition ex_step := rt_step Z Z nat (fun d => d) (1#5)%Q true.
  Definition ex_m1 := fst (fst (ex_reset ex_mem ex_rt None)).
  Definition ex_r1 := snd (fst (ex_reset ex_mem ex_rt None)).
  Definition ex_evs : list (@ev Z Z) := [EStep (StepOk Z Z ex_R 3); EStep (StepRaises Z Z ex_R 3 1); EDo (HRemove Z Z 99%N); EStep (StepOk Z Z ex_R 3)].

  Lemma ex_closed : closed (m_h Z Z ex_mem).
  Proof.
    intros x c y E Hy. cbn. do 10 (destruct x as [|x]; [cbn in E; injection E as <-; cbn in Hy; lia|]).
    destruct x; discriminate.
  Qed.

  Example C82_nonvacuous : exists w,
    ex_reset ex_mem ex_rt None = (ex_m1, ex_r1, Fine) /\ r_sidx nat ex_r1 = Some 1 /\
    r_reset nat ex_r1 = true /\ r_world nat ex_r1 = Some w /\ r_hist nat ex_r1 = [] /\
    hwf (m_h Z Z ex_m1) w /\ closed (m_h Z Z ex_m1) /\ Forall no_handover ex_evs /\
    let f := run_evs (fun d => d) (1#5)%Q true ex_m1 ex_r1 ex_evs in
    length (r_hist nat (snd f)) = 3 /\
    map (fun e => option_map (fun x => snd (fst (fst x))) (seen (m_h Z Z (fst f)) e 6%N)) (r_hist nat (snd f)) =
      [Some [20%Z]; Some [20%Z; 20%Z]; Some [20%Z; 20%Z; 42%Z]] /\
    series Z Z nat (m_h Z Z (fst f)) (snd f) = Some [(20, 9)%Z; (20, 10)%Z; (42, 12)%Z].
  Proof.
    destruct (C82_reset_ready ex_pa ex_pm ex_load 0%Z (fun _ d => d) ex_mem ex_m1 ex_rt ex_r1 ex_closed) as (w & Ew & Hw & Hc).
    { vm_compute. reflexivity. }
    exists w. split; [vm_compute; reflexivity|]. split; [vm_compute; reflexivity|]. split; [vm_compute; reflexivity|].
    split; [exact Ew|]. split; [vm_compute; reflexivity|]. split; [exact Hw|]. split; [exact Hc|].
    split; [repeat constructor|]. cbv zeta. split; [vm_compute; reflexivity|]. split; vm_compute; reflexivity.
  Qed.

  (* reset(s) twice with the same scenario object continues with the agents the first run has moved. *)
  Theorem C82_reset_same_scenario_refuted : exists (s : scen nat) m r m2 r2 w w2,
    ex_reset ex_mem ex_rt (Some s) = (m, r, Fine) /\ r_world nat r = Some w /\
    ex_reset (fst (fst (ex_step m r (StepOk Z Z ex_R 3)))) (snd (fst (ex_step m r (StepOk Z Z ex_R 3)))) (Some s) = (m2, r2, Fine) /\
    r_world nat r2 = Some w2 /\
    option_map (fun x => snd (fst (fst x))) (seen (m_h Z Z m) w 6%N) = Some [20%Z] /\
    option_map (fun x => snd (fst (fst x))) (seen (m_h Z Z m2) w2 6%N) = Some [20%Z; 23%Z].
  Proof.
    exists ex_s1. eexists _, _, _, _, _, _. split; [vm_compute; reflexivity|]. split; [vm_compute; reflexivity|].
    split; [vm_compute; reflexivity|]. split; [vm_compute; reflexivity|]. split; vm_compute; reflexivity.
  Qed.
End Case.
Print Assumptions C82_reset_same_scenario_refuted.
