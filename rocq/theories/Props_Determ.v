(* C101: scenarios from a fixed list of agents. *)
From Coq Require Import String List ZArith QArith NArith Bool Lia Lqa.
From Verif Require Import Model_Map Proof_Map Model_Goal Spec_Goal Props_Goal Model_ScenGen Model_Determ.
Import ListNotations.
Local Open Scope nat_scope.

(* x lies between the two bounds, in whatever order they are given *)
Definition between_bounds (a b x : Q) : Prop := (a <= x <= b \/ b <= x <= a)%Q.

Section C101.
  Context {O Mod Shape MapT : Type}.
  Context (inside : list (Q * Q) -> O -> bool) (within : list (Q * Q) -> Q * Q -> O -> bool).
  Context (make1 make2 : string -> gres Mod) (rnd : nat -> Q).
  Notation vspec := (vspec (Shape:=Shape)).
  Notation dagent := (dagent (O:=O) (Mod:=Mod) (Shape:=Shape)).
  Notation dparams := (dparams (Shape:=Shape)).
  Notation create := (create_scenarios inside within make1 make2 rnd).
  Implicit Types (v : vspec) (p : dparams) (lm : gres MapT).

  (* the state of an agent: as given, or every entry between the bounds given for it *)
  Definition state_matches (s : jstate) (st : list Q) : Prop :=
    match s with
    | Flat l => st = l
    | Rows rows => Forall2 (fun row x => exists lo hi more, row = lo :: hi :: more /\ between_bounds lo hi x) rows st
    end.
  (* the region of the goal: the given points moved by the first two entries of center_pose; the test is the one
     for orientation limits (always 1.49 to 1.65) exactly if the goal type says so *)
  Definition region (v : vspec) (r : O -> bool) : Prop :=
    exists cx cy more, v_center v = cx :: cy :: more /\
      let poly := map (fun q => (fst q + cx, snd q + cy)%Q) (v_points v) in
      (v_type v = Some "GoalDefinitionStateLimits"%string /\ r = within poly (149 # 100, 165 # 100)%Q \/
       v_type v <> Some "GoalDefinitionStateLimits"%string /\ r = inside poly).
  (* the model of that name: built from the parameters, or else from (None, parameters) *)
  Definition model_of (name : string) (m : Mod) : Prop :=
    make1 name = inl m \/ (exists e, make1 name = inr e) /\ make2 name = inl m.
  (* asked again and again, the goal says true as soon as the agent was in the region at n of the calls *)
  Definition reached_after (n : nat) (r : O -> bool) (g : goal O) : Prop :=
    forall h : list O, exists answers g', run_goal g h = Some (answers, g') /\ length answers = length h /\
      forall i, i < length h -> (nth_error answers i = Some true <-> n <= length (filter r (firstn (S i) h))).

  Definition agent_matches (n : nat) (v : vspec) (a : dagent) : Prop :=
    d_id a = v_id v /\ d_shape a = v_shape v /\ state_matches (v_state v) (d_state a) /\
    (exists r, region v r /\ (0 < n -> reached_after n r (d_goal a))) /\
    model_of (v_beh v) (d_beh a) /\ model_of (v_dyn v) (d_dyn a) /\ model_of (v_exec v) (d_exec a).
  Definition reached_times p : nat := match p_num_reached p with Some n => n | None => 5 end.
  Definition controlled p : list N := match p_controlled p with Some c => c | None => [0%N] end.
  Definition scenario_matches p (mp : MapT) (s : dscen) : Prop :=
    ds_map s = mp /\ Forall2 (agent_matches (reached_times p)) (p_agents p) (ds_agents s) /\ ds_eval s = controlled p.

  Lemma visits_all (r : O -> bool) n : forall h, accomplished_all (map Visit (repeat r n)) h <-> n <= length (filter r h).
  Proof.
    induction n as [|n IH]; intros h.
    - split; [lia|intros; constructor].
    - cbn [repeat map]. split.
      + intros A. inversion A as [|t ts h1 h2 V R]; subst. apply IH in R. inversion V as [q h x I E|]; subst.
        rewrite filter_app, app_length. assert (0 < length (filter r h1)); [|lia].
        assert (J : In x (filter r h1)) by (apply filter_In; auto). destruct (filter r h1); [destruct J|cbn; lia].
      + intros Le. assert (Sp : exists h1 x h2, h = h1 ++ x :: h2 /\ r x = true /\ filter r h1 = []).
        { clear IH. induction h as [|y h IHh]; cbn in Le; [lia|]. destruct (r y) eqn:E.
          - exists [], y, h. auto.
          - destruct (IHh Le) as (h1 & x & h2 & -> & A & B). exists (y :: h1), x, h2. cbn. rewrite E. auto. }
        destruct Sp as (h1 & x & h2 & -> & E & F). replace (h1 ++ x :: h2) with ((h1 ++ [x]) ++ h2) by now rewrite <- app_assoc.
        constructor.
        * apply (acc_visit r (h1 ++ [x]) x); [apply in_or_app; right; now left|exact E].
        * apply IH. rewrite filter_app, F in Le. cbn in Le. rewrite E in Le. cbn in Le. lia.
  Qed.
  Lemma visits_count (r : O -> bool) n h : visited_in_order (repeat r n) h <-> n <= length (filter r h).
  Proof. rewrite <- visits_all. symmetry. apply visited_accomplished. Qed.

  Lemma goal_reached n v poly r : 0 < n ->
    (v_type v = Some "GoalDefinitionStateLimits"%string /\ r = within poly (149 # 100, 165 # 100)%Q \/
     v_type v <> Some "GoalDefinitionStateLimits"%string /\ r = inside poly) ->
    reached_after n r (goal_of inside within n v poly).
  Proof.
    intros Hn Hr h.
    assert (E : goal_of inside within n v poly = fresh (InOrder (map Visit (repeat r n)))).
    { unfold goal_of. cbn [fresh]. f_equal. rewrite map_map. cbn [fresh].
      assert (One : match v_type v with
               | Some t => if String.eqb t "GoalDefinitionStateLimits" then GAtom (within poly (149 # 100, 165 # 100)%Q)
                           else GAtom (inside poly)
               | None => GAtom (inside poly) end = GAtom r).
      { destruct Hr as [(-> & ->)|(N & ->)]; [reflexivity|]. destruct (v_type v) as [t|]; [|reflexivity].
        destruct (String.eqb_spec t "GoalDefinitionStateLimits"); [congruence|reflexivity]. }
      rewrite One. clear. induction n; cbn; congruence. }
    rewrite E. destruct (C29_plain_subgoals_at_increasing_calls O (repeat r n) h) as (ans & g' & R & L & B).
    { destruct n; [lia|discriminate]. }
    exists ans, g'. split; auto. split; auto. intros i Hi. rewrite (B i Hi). apply visits_count.
  Qed.

  Lemma draw_spec rows : forall k st k', (forall i, (0 <= rnd i < 1)%Q) -> draw rnd k rows = inl (st, k') ->
    state_matches (Rows rows) st /\ k' = k + length rows.
  Proof.
    induction rows as [|row rows IH]; intros k st k' U E; cbn [draw] in E.
    - inversion E; subst. split; [constructor|cbn; lia].
    - destruct row as [|lo [|hi more]]; try discriminate. destruct (draw rnd (S k) rows) as [[s k2]|] eqn:D; [|discriminate].
      inversion E; subst. destruct (IH _ _ _ U D) as (A & ->). split; [|cbn; lia]. constructor; [|exact A].
      exists lo, hi, more. split; auto. destruct (U k) as (U0 & U1). unfold between_bounds.
      destruct (Qlt_le_dec hi lo) as [H|H]; [right|left]; split; nra.
  Qed.
  Lemma state_of_spec k s st k' : (forall i, (0 <= rnd i < 1)%Q) -> state_of rnd k s = inl (st, k') -> state_matches s st.
  Proof.
    intros U E. destruct s as [l|[|r0 rs]]; cbn [state_of] in E.
    - inversion E. reflexivity.
    - inversion E. constructor.
    - destruct (forallb _ rs); [|discriminate]. eapply draw_spec; eauto.
  Qed.
  Lemma convert_spec name m : convert_model make1 make2 name = inl m <-> model_of name m.
  Proof.
    unfold convert_model, model_of. destruct (make1 name) as [x|e]; split.
    - intros E; inversion E; auto.
    - intros [E|((e & E) & _)]; congruence.
    - intros E. right. eauto.
    - intros [E|(_ & E)]; congruence.
  Qed.
  Lemma one_agent_spec n k v a k' : (forall i, (0 <= rnd i < 1)%Q) ->
    one_agent inside within make1 make2 rnd n k v = inl (a, k') -> agent_matches n v a.
  Proof.
    intros U E. unfold one_agent, goal_polygon in E. destruct (v_center v) as [|cx [|cy more]] eqn:C; try discriminate.
    destruct (state_of rnd k (v_state v)) as [[st k2]|] eqn:S; [|discriminate].
    destruct (convert_model make1 make2 (v_beh v)) as [b|] eqn:B; [|discriminate].
    destruct (convert_model make1 make2 (v_dyn v)) as [d|] eqn:Dy; [|discriminate].
    destruct (convert_model make1 make2 (v_exec v)) as [x|] eqn:X; [|discriminate].
    inversion E; subst; clear E. repeat split; cbn [d_id d_shape d_state d_goal d_beh d_dyn d_exec]; auto; try (now apply convert_spec).
    - eapply state_of_spec; eauto.
    - assert (Dc : {v_type v = Some "GoalDefinitionStateLimits"%string} + {v_type v <> Some "GoalDefinitionStateLimits"%string}).
      { decide equality. apply string_dec. }
      set (poly := map (fun q => (fst q + cx, snd q + cy)%Q) (v_points v)).
      exists (if Dc then within poly (149 # 100, 165 # 100)%Q else inside poly).
      assert (Hr : v_type v = Some "GoalDefinitionStateLimits"%string /\ (if Dc then within poly (149 # 100, 165 # 100)%Q else inside poly) = within poly (149 # 100, 165 # 100)%Q \/
         v_type v <> Some "GoalDefinitionStateLimits"%string /\ (if Dc then within poly (149 # 100, 165 # 100)%Q else inside poly) = inside poly) by (destruct Dc; auto).
      split; [exists cx, cy, more; split; auto|]. intros Hn. apply goal_reached; auto.
  Qed.
  Lemma agents_spec n vs : forall k l k', (forall i, (0 <= rnd i < 1)%Q) ->
    agents inside within make1 make2 rnd n k vs = inl (l, k') -> Forall2 (agent_matches n) vs l.
  Proof.
    induction vs as [|v vs IH]; intros k l k' U E; cbn [agents] in E; [inversion E; constructor|].
    destruct (one_agent inside within make1 make2 rnd n k v) as [[a k1]|] eqn:A; [|discriminate].
    destruct (agents inside within make1 make2 rnd n k1 vs) as [[l' k2]|] eqn:R; [|discriminate].
    inversion E; subst. constructor; [eapply one_agent_spec; eauto|eauto].
  Qed.

  (* Every scenario of the generator: the map, one agent per entry, in order, with the entry's id, shape, models,
     state and goal; the controlled agents are those of the parameters. As many scenarios as asked for. *)
  Theorem C101_scenarios seed lm p n k l :
    (forall i, (0 <= rnd i < 1)%Q) ->
    generator inside within make1 make2 rnd seed lm p n k = inl l ->
    length l = n /\ forall s, In s l -> exists mp, lm = inl mp /\ scenario_matches p mp s.
  Proof.
    intros U E. unfold generator in E.
    destruct (create lm p n k) as [[l' k']|] eqn:C; [|discriminate]. assert (l' = l) as -> by congruence. clear E.
    revert k l k' C. induction n as [|n IH]; intros k l k' C; cbn [create_scenarios] in C; [inversion C; split; [auto|intros s []]|].
    destruct (create_single inside within make1 make2 rnd lm p k) as [[s1 k1]|] eqn:S; [|discriminate].
    destruct (create lm p n k1) as [[l2 k2]|] eqn:R; [|discriminate]. inversion C; subst.
    destruct (IH _ _ _ R) as (L & A). split; [cbn; congruence|]. intros s [<-|I]; [|auto].
    unfold create_single in S. destruct lm as [mp|]; [|discriminate].
    destruct (agents _ _ _ _ _ _ k (p_agents p)) as [[ag k3]|] eqn:G; [|discriminate]. inversion S; subst.
    exists mp. split; auto. repeat split. eapply agents_spec; eauto.
  Qed.

End C101.

Section C101b.
  Context {O Mod Shape MapT : Type}.
  Context (inside : list (Q * Q) -> O -> bool) (within : list (Q * Q) -> Q * Q -> O -> bool).
  Context (make1 make2 : string -> gres Mod).
  Notation dparams := (dparams (Shape:=Shape)).
  Notation create := (create_scenarios inside within make1 make2).
  Notation single := (create_single inside within make1 make2).
  Implicit Types (p : dparams) (lm : gres MapT) (rnd : nat -> Q).

  (* Without ranges nothing is random: all scenarios are equal, whatever the seed and the random stream; the seed
     is never used. *)
  Definition no_ranges p : Prop := forall v, In v (p_agents p) -> exists l, v_state v = Flat l.
  Theorem C101_random_seed_is_ignored rnd s1 s2 lm p n k :
    generator inside within make1 make2 rnd s1 lm p n k = generator inside within make1 make2 rnd s2 lm p n k.
  Proof. reflexivity. Qed.
  Lemma agents_fixed n (vs : list (vspec (Shape:=Shape))) k1 k2 rnd rnd' : (forall v, In v vs -> exists l, v_state v = Flat l) ->
    match agents inside within make1 make2 rnd n k1 vs, agents inside within make1 make2 rnd' n k2 vs with
    | inl (l1, k1'), inl (l2, k2') => l1 = l2 /\ k1' = k1 /\ k2' = k2
    | inr e1, inr e2 => e1 = e2
    | _, _ => False
    end.
  Proof.
    induction vs as [|v vs IH]; intros H; cbn [agents]; auto.
    unfold one_agent. destruct (goal_polygon v) as [pg|]; [|reflexivity]. destruct (H v (or_introl eq_refl)) as (l0 & ->). cbn [state_of].
    destruct (convert_model make1 make2 (v_beh v)); [|reflexivity]. destruct (convert_model make1 make2 (v_dyn v)); [|reflexivity].
    destruct (convert_model make1 make2 (v_exec v)); [|reflexivity].
    specialize (IH (fun w I => H w (or_intror I))).
    destruct (agents inside within make1 make2 rnd n k1 vs) as [[? ?]|]; destruct (agents inside within make1 make2 rnd' n k2 vs) as [[? ?]|]; auto.
    destruct IH as (-> & -> & ->). auto.
  Qed.
  Lemma single_fixed rnd rnd' lm p k k' : no_ranges p ->
    match single rnd lm p k, single rnd' lm p k' with
    | inl (a, k1), inl (b, k2) => a = b /\ k1 = k /\ k2 = k'
    | inr e1, inr e2 => e1 = e2
    | _, _ => False
    end.
  Proof.
    intros NR. unfold create_single. destruct lm as [mp|]; [|reflexivity].
    pose proof (agents_fixed (match p_num_reached p with Some n => n | None => 5 end) (p_agents p) k k' rnd rnd' NR) as F.
    destruct (agents inside within make1 make2 rnd _ k (p_agents p)) as [[l1 k1]|];
      destruct (agents inside within make1 make2 rnd' _ k' (p_agents p)) as [[l2 k2]|]; auto.
    destruct F as (-> & -> & ->). auto.
  Qed.
  Lemma create_fixed rnd lm p k n : no_ranges p ->
    create rnd lm p (S n) k = match single rnd lm p k with inl (s, _) => inl (repeat s (S n), k) | inr e => inr e end.
  Proof.
    intros NR. pose proof (single_fixed rnd rnd lm p k k NR) as G. cbn [create_scenarios].
    destruct (single rnd lm p k) as [[s k1]|e] eqn:E; [|reflexivity]. destruct G as (_ & -> & _).
    assert (A : create rnd lm p n k = inl (repeat s n, k)).
    { induction n as [|n IH]; cbn [create_scenarios]; [reflexivity|]. rewrite E, IH. reflexivity. }
    rewrite A. reflexivity.
  Qed.
  Theorem C101_fixed_states_are_deterministic rnd rnd' seed seed' lm p n k k' :
    no_ranges p ->
    generator inside within make1 make2 rnd seed lm p n k = generator inside within make1 make2 rnd' seed' lm p n k' /\
    forall l, generator inside within make1 make2 rnd seed lm p n k = inl l -> n = 0 \/ exists s, l = repeat s n.
  Proof.
    intros NR. unfold generator. destruct n as [|n]; [split; [reflexivity|auto]|]. rewrite !create_fixed by assumption.
    pose proof (single_fixed rnd rnd' lm p k k' NR) as F.
    destruct (single rnd lm p k) as [[s k1]|]; destruct (single rnd' lm p k') as [[s' k2]|]; try contradiction.
    - destruct F as (-> & _). split; auto. intros l E. right. exists s'. congruence.
    - subst. split; auto. intros l E. discriminate.
  Qed.

  (* When generation fails: no map, or an entry whose center_pose has less than two numbers, whose ranges are not
     rectangular or have less than two columns, or one of whose models cannot be built. *)
  Definition entry_valid (v : vspec (Shape:=Shape)) : Prop :=
    2 <= length (v_center v) /\
    match v_state v with
    | Flat _ => True
    | Rows rows => rows = [] \/ exists c, 2 <= c /\ Forall (fun r => length r = c) rows
    end /\
    (forall nm, In nm [v_beh v; v_dyn v; v_exec v] -> exists m, model_of make1 make2 nm m).
  Lemma draw_total rnd rows c : 2 <= c -> Forall (fun r => length r = c) rows -> forall k, exists st, draw rnd k rows = inl (st, k + length rows).
  Proof.
    intros Hc F. induction F as [|r rows E F IH]; intros k; cbn [draw].
    - exists []. rewrite Nat.add_0_r. reflexivity.
    - destruct r as [|lo [|hi more]]; cbn in E; try lia. destruct (IH (S k)) as (st & ->). eexists. cbn [length]. rewrite Nat.add_succ_r. reflexivity.
  Qed.
  Lemma draw_cols rnd rows : forall k st k', draw rnd k rows = inl (st, k') -> Forall (fun r => 2 <= length r) rows.
  Proof.
    induction rows as [|r rows IH]; intros k st k' E; [constructor|]. cbn [draw] in E.
    destruct r as [|lo [|hi more]]; try discriminate. destruct (draw rnd (S k) rows) as [[s k2]|] eqn:D; [|discriminate].
    constructor; [cbn; lia|eauto].
  Qed.
  Lemma one_agent_total rnd n k v : (exists a k', one_agent inside within make1 make2 rnd n k v = inl (a, k')) <-> entry_valid v.
  Proof.
    unfold one_agent, goal_polygon, entry_valid. split.
    - intros (a & k' & E). destruct (v_center v) as [|cx [|cy more]]; try discriminate.
      destruct (state_of rnd k (v_state v)) as [[st k2]|] eqn:S; [|discriminate].
      destruct (convert_model make1 make2 (v_beh v)) as [b|] eqn:B; [|discriminate].
      destruct (convert_model make1 make2 (v_dyn v)) as [d|] eqn:Dy; [|discriminate].
      destruct (convert_model make1 make2 (v_exec v)) as [x|] eqn:X; [|discriminate].
      split; [cbn; lia|]. split.
      + destruct (v_state v) as [l|[|r0 rs]]; auto. right. cbn [state_of] in S. destruct (forallb _ rs) eqn:F; [|discriminate].
        exists (length r0). apply draw_cols in S. inversion S; subst. split; auto. constructor; auto. apply Forall_forall.
        intros r I. rewrite forallb_forall in F. apply Nat.eqb_eq. auto.
      + intros nm [<-|[<-|[<-|[]]]]; eexists; apply convert_spec; eauto.
    - intros (L & S & M). destruct (v_center v) as [|cx [|cy more]]; cbn in L; try lia.
      assert (Ex : exists st k', state_of rnd k (v_state v) = inl (st, k')).
      { destruct (v_state v) as [l|[|r0 rs]]; cbn [state_of]; eauto. destruct S as [S|(c & Hc & F)]; [discriminate|].
        inversion F as [|x y Fx Fy]; subst. assert (forallb (fun r => Nat.eqb (length r) (length r0)) rs = true) as ->.
        { apply forallb_forall. intros r I. rewrite Forall_forall in Fy. apply Nat.eqb_eq. auto. }
        destruct (draw_total rnd (r0 :: rs) (length r0) Hc F k) as (st & ->). eauto. }
      destruct Ex as (st & k' & ->).
      destruct (M (v_beh v)) as (b & B); [cbn; auto|]. destruct (M (v_dyn v)) as (d & D); [cbn; auto|]. destruct (M (v_exec v)) as (x & X); [cbn; auto|].
      apply convert_spec in B, D, X. rewrite B, D, X. eauto.
  Qed.
  Lemma agents_total rnd n vs : forall k, (exists l k', agents inside within make1 make2 rnd n k vs = inl (l, k')) <-> Forall entry_valid vs.
  Proof.
    induction vs as [|v vs IH]; intros k; cbn [agents]; [split; eauto|]. split.
    - intros (l & k' & E). destruct (one_agent inside within make1 make2 rnd n k v) as [[a k1]|] eqn:A; [|discriminate].
      destruct (agents inside within make1 make2 rnd n k1 vs) as [[l' k2]|] eqn:R; [|discriminate].
      constructor; [apply (one_agent_total rnd n k); eauto|]. apply (IH k1). eauto.
    - intros F. inversion F as [|x y Fv Fs]; subst. apply (one_agent_total rnd n k) in Fv as (a & k1 & ->).
      apply (IH k1) in Fs as (l & k2 & ->). eauto.
  Qed.
  Theorem C101_when_generation_succeeds rnd seed lm p n k :
    (exists l, generator inside within make1 make2 rnd seed lm p n k = inl l) <->
    n = 0 \/ (exists mp, lm = inl mp) /\ Forall entry_valid (p_agents p).
  Proof.
    unfold generator. split.
    - intros (l & E). destruct n as [|n]; [auto|]. right. cbn [create_scenarios] in E. unfold create_single in E.
      destruct lm as [mp|]; [|discriminate]. split; [eauto|].
      destruct (agents inside within make1 make2 rnd _ k (p_agents p)) as [[ag k1]|] eqn:A; [|discriminate].
      eapply agents_total. eauto.
    - intros [->|((mp & ->) & F)]; [cbn; eauto|].
      assert (T : forall k, exists l k', create rnd (inl mp) p n k = inl (l, k')).
      { clear k. induction n as [|n IH]; intros k; cbn [create_scenarios]; [eauto|]. unfold create_single.
        apply (agents_total rnd (match p_num_reached p with Some n => n | None => 5 end) _ k) in F as (l & k1 & ->).
        destruct (IH k1) as (l2 & k2 & ->). eauto. }
      destruct (T k) as (l & k' & ->). eauto.
  Qed.

  (* The world of a scenario holds, for every id that occurs, the last agent of that id: entries that share an id
     silently lose all but the last. *)
  Theorem C101_world_has_one_agent_per_id (s : dscen (O:=O) (Mod:=Mod) (Shape:=Shape) (MapT:=MapT)) id a :
    m_find id (world_agents s) = Some a <->
    exists l r, ds_agents s = l ++ a :: r /\ d_id a = id /\ forall b, In b r -> d_id b <> id.
  Proof.
    unfold world_agents. generalize (ds_agents s). intros ags.
    assert (G : forall ags m, m_find id (fold_left (fun m a => m_insert (d_id a) a m) ags m) = Some a <->
       (exists l r, ags = l ++ a :: r /\ d_id a = id /\ forall b, In b r -> d_id b <> id) \/
       ((forall b, In b ags -> d_id b <> id) /\ m_find id m = Some a)).
    { clear. induction ags as [|x ags IH]; intros m; cbn [fold_left].
      - split; [intros E; right; split; [intros b []|exact E]|]. intros [(l & r & E & _)|(_ & E)]; [destruct l; discriminate|exact E].
      - rewrite IH. split.
        + intros [(l & r & -> & A & B)|(A & B)]; [left; exists (x :: l), r; auto|].
          destruct (N.eq_dec (d_id x) id) as [<-|Ne].
          * rewrite m_find_insert_same in B. inversion B; subst. left. exists [], ags. auto.
          * rewrite m_find_insert_other in B by auto. right. split; auto. intros b [<-|I]; auto.
        + intros [(l & r & E & A & B)|(A & B)].
          * destruct l as [|y l]; inversion E; subst; [|left; exists l, r; auto]. right. split; auto. apply m_find_insert_same.
          * right. split; [intros b I; apply A; now right|]. rewrite m_find_insert_other; auto. intros X. apply (A x); [now left|auto]. }
    rewrite G. split; [|auto]. intros [H|(_ & H)]; [exact H|discriminate].
  Qed.
End C101b.

(* ---- concrete cases ---- *)
Definition toy_inside (poly : list (Q * Q)) (x : Q * Q) : bool := existsb (fun q => Qeq_bool (fst q) (fst x) && Qeq_bool (snd q) (snd x)) poly.
Definition toy_within (poly : list (Q * Q)) (l : Q * Q) (x : Q * Q) : bool := toy_inside poly x.
Definition toy_make1 (s : string) : gres string := if String.eqb s "IDM" then inl s else inr TypeError.
Definition toy_make2 (s : string) : gres string := if String.eqb s "Interp" then inl s else inr NameError.
Definition toy_v id st : vspec (Shape:=unit) :=
  mkV id st [(1, 2)%Q] [10; 20; 5]%Q None "IDM" "Interp" "Interp" tt.
Definition toy_p : dparams (Shape:=unit) := mkDP [toy_v 3 (Flat [0; 1]%Q); toy_v 3 (Rows [[0; 2]; [5; 1]]%Q)] (Some 2) None.
Example C101_nonvacuous :
  match generator toy_inside toy_within toy_make1 toy_make2 (fun _ => 1 # 2)%Q (Some 4%Z) (inl tt) toy_p 2 0 with
  | inl [a; b] => map (@d_id _ _ _) (ds_agents a) = [3; 3]%N /\ ds_eval a = [0%N] /\
      map (fun x => map Qred (d_state x)) (ds_agents b) = [[0; 1]; [1; 3]]%Q /\
      length (world_agents a) = 1 /\
      match ds_agents a with
      | x :: _ => match run_goal (d_goal x) [(11, 22); (0, 0); (11, 22); (0, 0)]%Q with
                  | Some (ans, _) => ans = [false; false; true; true] | None => False end
      | [] => False
      end
  | _ => False
  end.
Proof. vm_compute. auto 10. Qed.
Example C101_valid_nonvacuous : Forall (entry_valid toy_make1 toy_make2) (p_agents toy_p) /\ ~ no_ranges toy_p.
Proof.
  split.
  - assert (M : forall nm, In nm ["IDM"; "Interp"; "Interp"]%string -> exists m, model_of toy_make1 toy_make2 nm m).
    { assert (I2 : exists m, model_of toy_make1 toy_make2 "Interp" m) by (exists "Interp"%string; right; split; [eexists; reflexivity|reflexivity]).
      assert (I1 : exists m, model_of toy_make1 toy_make2 "IDM" m) by (exists "IDM"%string; left; reflexivity).
      intros nm [<-|[<-|[<-|[]]]]; assumption. }
    constructor; [|constructor; [|constructor]]; split; cbn; auto; split; auto. right. exists 2. split; auto.
  - intros H. destruct (H (toy_v 3 (Rows [[0; 2]; [5; 1]]%Q))) as (l & E); [cbn; auto|discriminate].
Qed.
(* the controlled agents need not exist *)
Theorem C101_controlled_agents_exist_refuted :
  exists s, generator toy_inside toy_within toy_make1 toy_make2 (fun _ => 0%Q) None (inl tt) toy_p 1 0 = inl [s] /\
    ds_eval s = [0%N] /\ forall a, In a (ds_agents s) -> d_id a <> 0%N.
Proof.
  eexists. split; [vm_compute; reflexivity|]. split; [reflexivity|]. cbn [ds_agents In]. intros a [<-|[<-|[]]]; discriminate.
Qed.

Print Assumptions C101_scenarios.
Print Assumptions C101_fixed_states_are_deterministic.
Print Assumptions C101_when_generation_succeeds.
Print Assumptions C101_world_has_one_agent_per_id.
Print Assumptions C101_controlled_agents_exist_refuted.
