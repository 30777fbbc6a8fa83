(* C80: scenarios handed out by a scenario generator. *)
From Coq Require Import String List NArith ZArith QArith Bool Arith Lia.
From Verif Require Import Model_Map Proof_Map Model_Heap Spec_Heap Proof_Heap Model_Runtime Spec_Runtime Proof_Frame Props_Heap Proof_Scenario.
Import ListNotations.
Local Open Scope nat_scope.
Local Open Scope list_scope.

Section Height.
  Context {D H : Type}.
  Fixpoint height (v : mval D) : nat :=
    match v with MV _ _ l => S (list_max (map height l)) end.

  Lemma list_max_in l : l <> [] -> In (list_max l) l.
  Proof.
    induction l as [|x r IH]; [congruence|]. intros _. destruct r as [|y r].
    - cbn. left. lia.
    - assert (Hn : y :: r <> []) by discriminate. specialize (IH Hn).
      change (list_max (x :: y :: r)) with (Nat.max x (list_max (y :: r))).
      destruct (Nat.max_spec x (list_max (y :: r))) as [[_ ->]|[_ ->]]; [right; exact IH|left; reflexivity].
  Qed.

  Lemma list_max_ge l x : In x l -> x <= list_max l.
  Proof.
    induction l as [|y r IH]; [intros []|]. change (list_max (y :: r)) with (Nat.max y (list_max r)).
    intros [->|I]; [lia|]. specialize (IH I). lia.
  Qed.

  Lemma read_height n : forall (h : heap D H) l v, read_model D H n h l = Some v -> read_model D H (height v) h l = Some v.
  Proof.
    induction n as [|n IH]; intros h l v E; [discriminate|]. cbn [read_model] in E.
    destruct (hget D H h l) as [[d subs|a]|] eqn:Eh; try discriminate.
    destruct (all_some (map (read_model D H n h) subs)) as [vs|] eqn:Es; [|discriminate]. injection E as <-.
    cbn [height read_model]. rewrite Eh. apply all_some_iff in Es.
    assert (Es' : all_some (map (read_model D H (list_max (map height vs)) h) subs) = Some vs).
    { apply all_some_iff.
      assert (G : forall k, list_max (map height vs) <= k -> Forall2 (fun x v => read_model D H k h x = Some v) subs vs).
      { clear - Es IH. induction Es as [|x y lx ly Hx F IHF]; intros k Hk; constructor.
        - apply IH in Hx. eapply read_mono; [|apply ext_refl|exact Hx]. cbn in Hk. lia.
        - apply IHF. cbn in Hk. change (fold_right Nat.max 0 (map height ly)) with (list_max (map height ly)) in Hk. lia. }
      apply G. lia. }
    now rewrite Es'.
  Qed.

  Lemma chain v : forall (h : heap D H) l, model_is h l v -> exists L, length L = height v /\ NoDup L /\
    (forall x, In x L -> x < length h /\ exists u, model_is h x u /\ height u <= height v).
  Proof.
    induction v as [d vs IH] using mval_ind'. intros h l Hl.
    pose proof Hl as (n & E). destruct n as [|n]; [discriminate|]. cbn [read_model] in E.
    destruct (hget D H h l) as [[d' subs|a]|] eqn:Eh; try discriminate.
    destruct (all_some (map (read_model D H n h) subs)) as [vs'|] eqn:Es; [|discriminate]. injection E as -> ->.
    apply all_some_iff in Es. pose proof (hget_lt _ _ _ Eh) as Ll.
    destruct vs as [|v0 vr].
    - exists [l]. split; [reflexivity|]. split; [repeat constructor; intros []|].
      intros x [<-|[]]. split; [exact Ll|]. exists (MV D d []). split; [exact Hl|]. lia.
    - assert (Hmax : In (list_max (map height (v0 :: vr))) (map height (v0 :: vr))) by (apply list_max_in; discriminate).
      apply in_map_iff in Hmax as (u & Eu & Iu).
      assert (exists x, In x subs /\ read_model D H n h x = Some u) as (x & Ix & Ex).
      { clear - Es Iu. induction Es as [|x y lx ly Hx F IHF]; [destruct Iu|].
        destruct Iu as [->|Iu]; [exists x; cbn; auto|]. destruct (IHF Iu) as (z & Iz & Ez). exists z; cbn; auto. }
      rewrite Forall_forall in IH.
      destruct (IH u Iu h x (ex_intro _ n Ex)) as (L & LL & Nd & HL).
      exists (l :: L). split; [cbn [length height]; now rewrite LL, Eu|]. split.
      + constructor; [|exact Nd]. intros Il. destruct (HL l Il) as (_ & w & Hw & Hh).
        assert (w = MV D d (v0 :: vr)) by (eapply model_is_fun; eassumption). subst w.
        cbn [height] in Hh. rewrite Eu in Hh. lia.
      + intros y [<-|Iy].
        * split; [exact Ll|]. eexists. split; [exact Hl|]. lia.
        * destruct (HL y Iy) as (Ly & w & Hw & Hh). split; [exact Ly|]. exists w. split; [exact Hw|].
          cbn [height]. rewrite <- Eu. lia.
  Qed.

  (* the heap size is enough fuel *)
  Lemma height_bound (h : heap D H) l v : model_is h l v -> read_model D H (length h) h l = Some v.
  Proof.
    intros Hl. destruct (chain v h l Hl) as (L & LL & Nd & HL). destruct Hl as (n & E).
    apply read_height in E. eapply read_mono; [|apply ext_refl|exact E].
    assert (Hi : length L <= length (seq 0 (length h))).
    { apply NoDup_incl_length; [exact Nd|]. intros x Ix. apply in_seq. destruct (HL x Ix). lia. }
    rewrite seq_length in Hi. lia.
  Qed.

  Lemma agent_height_bound (h : heap D H) l v : agent_is h l v -> read_agent D H (length h) h l = Some v.
  Proof.
    intros (n & E). apply read_agent_iff in E as (a & Eh & I & Hh & Hm & R1 & R2 & R3 & R4).
    apply read_agent_iff. exists a. repeat (split; [assumption|]).
    repeat (split; [apply height_bound; eexists; eassumption|]).
    destruct (ha_goal H a) as [g|]; [|exact R4]. cbn in *.
    destruct (read_model D H n h g) as [x|] eqn:E; [|discriminate].
    now rewrite (height_bound h g x (ex_intro _ n E)).
  Qed.
End Height.

Section C80.
  Context {D H M : Type}.
  Variables (pa : aval D H -> option (aval D H)) (pm : mval D -> option (mval D)).
  Notation mem := (mem D H).
  Notation heapof := (m_h D H).
  Notation jsonof := (m_j D H).
  Notation gen := (gen M).
  Notation scen := (scen M).
  Notation sval := (@sval D H M).

  (* The returned scenario is made of new objects only, also below the agents, and nothing that existed
     before has changed. *)
  Definition all_new (m m' : mem) (s : scen) : Prop :=
    (forall x, In x (s_agents M s) \/ s_observer M s = Some x -> length (heapof m) <= x) /\
    (forall x c y, length (heapof m) <= x -> hget D H (heapof m') x = Some c -> In y (refs c) -> length (heapof m) <= y) /\
    (forall x, x < length (heapof m) -> hget D H (heapof m') x = hget D H (heapof m) x) /\
    (forall j, s_json M s = Some j -> length (jsonof m) <= j) /\
    (forall j, j < length (jsonof m) -> nth_error (jsonof m') j = nth_error (jsonof m) j).

  Variables (K : loc -> Prop) (J : nat -> Prop).

  Record Inv (m0 m : mem) : Prop := {
    iv_safe : Safe K (heapof m0) (heapof m);
    iv_jlen : length (jsonof m0) <= length (jsonof m);
    iv_json : forall j, J j -> nth_error (jsonof m) j = nth_error (jsonof m0) j }.

  Section Fixed.
    Variable m0 : mem.
    Variable stored : list scen.
    Hypothesis PV : private K J m0 stored.

    Lemma inv_init : Inv m0 m0.
    Proof.
      split; [|lia|reflexivity]. split; [lia|reflexivity|]. intros l c Nl E x Hx. exact (pv_hidden _ _ _ _ PV l c x Nl E Hx).
    Qed.

    Lemma safe_old (m : mem) : Inv m0 m -> forall l, K l -> l < length (heapof m).
    Proof. intros Iv l Kl. apply (pv_old _ _ _ _ PV) in Kl. pose proof (sf_len _ _ _ (iv_safe _ _ Iv)). lia. Qed.

    Lemma closed_now (m : mem) : Inv m0 m -> forall x c y, K x -> hget D H (heapof m) x = Some c -> In y (refs c) -> K y.
    Proof.
      intros Iv x c y Kx E Iy. rewrite (sf_same _ _ _ (iv_safe _ _ Iv) x Kx) in E. exact (pv_closed _ _ _ _ PV x c y Kx E Iy).
    Qed.

    Lemma agent_same (m : mem) x v : Inv m0 m -> K x -> agent_is (heapof m0) x v -> agent_is (heapof m) x v.
    Proof.
      intros Iv Kx (n & E). exists n.
      rewrite (read_agent_agree K (heapof m0) (heapof m) (sf_same _ _ _ (iv_safe _ _ Iv)) (pv_closed _ _ _ _ PV) n x Kx). exact E.
    Qed.
    Lemma model_same (m : mem) x v : Inv m0 m -> K x -> model_is (heapof m0) x v -> model_is (heapof m) x v.
    Proof.
      intros Iv Kx (n & E). exists n.
      rewrite (read_agree K (heapof m0) (heapof m) (sf_same _ _ _ (iv_safe _ _ Iv)) (pv_closed _ _ _ _ PV) n x Kx). exact E.
    Qed.

    Lemma safe_refl (m : mem) : Inv m0 m -> Safe K (heapof m) (heapof m).
    Proof. intros Iv. split; [lia|reflexivity|exact (sf_away _ _ _ (iv_safe _ _ Iv))]. Qed.

    (* copying never touches the private part *)
    Lemma scen_copy_inv (m : mem) s m' s' : Inv m0 m -> scen_copy D H M pa pm m s = Some (m', s') -> Inv m0 m' /\ all_new m m' s'.
    Proof.
      intros Iv E. unfold scen_copy in E. cbv zeta in E.
      set (o := match s_observer M s with None => _ | Some _ => _ end) in E.
      (* generic safety for any protected set *)
      assert (G : forall (P : loc -> Prop), (forall l, P l -> l < length (heapof m)) -> Safe P (heapof m) (heapof m) ->
        forall h1 ob, o = Some (h1, ob) -> Safe P (heapof m) h1 /\ ext (heapof m) h1 /\ length (heapof m) <= length h1 /\ (forall x, ob = Some x -> ~ P x)).
      { intros P Po PS h1 ob Eo. unfold o in Eo. destruct (s_observer M s) as [l|].
        - destruct (read_model D H (length (heapof m)) (heapof m) l) as [v|]; [|discriminate].
          destruct (pm v) as [v'|]; [|discriminate]. injection Eo as <- <-.
          destruct (build_good P (heapof m) Po v' (heapof m) PS) as (A & B & C & E1 & F & _).
          split; [exact A|]. split; [exact C|]. split; [exact E1|]. intros x Ex. injection Ex as <-. exact B.
        - injection Eo as <- <-. split; [exact PS|]. split; [apply ext_refl|]. split; [lia|]. discriminate. }
      destruct o as [[h1 ob]|]; [|discriminate].
      destruct (copy_agents D H pa [] h1 (s_agents M s)) as [[h2 ags]|] eqn:Ec; [|discriminate].
      destruct (s_json M s) as [j|] eqn:Ej; [|discriminate].
      destruct (nth_error (jsonof m) j) as [dj|] eqn:Edj; [|discriminate]. injection E as <- <-.
      (* the private set *)
      destruct (G K (safe_old m Iv) (safe_refl m Iv) h1 ob eq_refl) as (S1 & X1 & L1 & N1).
      destruct (copy_agents_safe pa K (heapof m) (safe_old m Iv) (s_agents M s) [] h1 h2 ags S1) as (S2 & X2 & L2 & N2); [discriminate|exact Ec|].
      (* the set of all old objects *)
      set (P := fun l : loc => l < length (heapof m)).
      assert (Po : forall l, P l -> l < length (heapof m)) by auto.
      assert (PS : Safe P (heapof m) (heapof m)).
      { split; [lia|reflexivity|]. intros l c Nl E. apply hget_lt in E. contradiction. }
      destruct (G P Po PS h1 ob eq_refl) as (S1' & X1' & L1' & N1').
      destruct (copy_agents_safe pa P (heapof m) Po (s_agents M s) [] h1 h2 ags S1') as (S2' & X2' & L2' & N2'); [discriminate|exact Ec|].
      split.
      - split; cbn.
        + pose proof (iv_safe _ _ Iv) as [A B C]. split; [lia| |exact (sf_away _ _ _ S2)].
          intros l Kl. rewrite (sf_same _ _ _ S2 l Kl). auto.
        + rewrite app_length. pose proof (iv_jlen _ _ Iv). lia.
        + intros j' Jj. rewrite nth_error_app1; [apply (iv_json _ _ Iv); exact Jj|].
          pose proof (pv_dicts _ _ _ _ PV j' Jj). pose proof (iv_jlen _ _ Iv). lia.
      - split; cbn.
        + intros x [Hx|Hx]; [specialize (N2' x Hx)|specialize (N1' x Hx)]; unfold P in *; lia.
        + split.
          * intros x c y Lx E Iy. assert (Nx : ~ P x) by (unfold P; lia).
            pose proof (sf_away _ _ _ S2' x c Nx E y Iy). unfold P in *. lia.
          * split; [intros x Lx; exact (sf_same _ _ _ S2' x Lx)|]. split; [intros x Ex; injection Ex as <-; lia|].
            intros x Lx. now rewrite nth_error_app1.
    Qed.

    Lemma scen_copy_value (m : mem) s v v' : Inv m0 m -> In s stored -> scen_is m0 s v -> copied pa pm v v' ->
      exists m' s', scen_copy D H M pa pm m s = Some (m', s') /\ scen_is m' s' v'.
    Proof.
      intros Iv Is (Va & Ve & Vf & Vm & (j & Ej & Edj) & Vo) (Ca & Ce & Cf & Cj & Cm & Co).
      unfold scen_copy. cbv zeta.
      set (o := match s_observer M s with None => _ | Some _ => _ end).
      assert (G : exists h1 ob, o = Some (h1, ob) /\ Safe K (heapof m) h1 /\ ext (heapof m) h1 /\
        match ob, sv_observer v' with None, None => True | Some l, Some x => model_is h1 l x | _, _ => False end).
      { unfold o. destruct (s_observer M s) as [l|] eqn:Eo; destruct (sv_observer v) as [x|]; try contradiction;
          destruct (sv_observer v') as [x'|]; try contradiction.
        - rewrite (height_bound (heapof m) l x), Co.
          2:{ apply model_same; [exact Iv|exact (pv_observer _ _ _ _ PV s l Is Eo)|exact Vo]. }
          cbv zeta. destruct (build_good K (heapof m) (safe_old m Iv) x' (heapof m) (safe_refl m Iv)) as (A & B & C & E1 & F & V).
          eexists _, _. split; [reflexivity|]. auto.
        - eexists _, _. split; [reflexivity|]. split; [exact (safe_refl m Iv)|]. split; [apply ext_refl|exact I]. }
      destruct G as (h1 & ob & -> & S1 & X1 & V1).
      destruct (copy_agents_good pa K (heapof m) (safe_old m Iv) (closed_now m Iv) (s_agents M s) [] h1 (sv_agents v) (sv_agents v'))
        as (h2 & ags & -> & S2 & X2 & L2 & V2 & _); auto.
      { intros a b E. discriminate. }
      { intros x Ix. exact (pv_agents _ _ _ _ PV s x Is Ix). }
      { eapply Forall2_imp; [|exact Va]. intros x w Ix Hw. apply agent_height_bound.
        apply agent_same; [exact Iv|exact (pv_agents _ _ _ _ PV s x Is Ix)|exact Hw]. }
      rewrite Ej. rewrite (iv_json _ _ Iv j) by exact (pv_json _ _ _ _ PV s j Is Ej). rewrite Edj.
      eexists _, _. split; [reflexivity|]. split; [exact V2|]. cbn [s_eval s_file s_map s_json s_observer m_h m_j].
      split; [congruence|]. split; [congruence|]. split; [congruence|]. split.
      - eexists. split; [reflexivity|]. rewrite nth_error_app2, Nat.sub_diag by lia. cbn. congruence.
      - destruct ob, (sv_observer v'); auto. eapply model_is_ext; eassumption.
    Qed.
  End Fixed.

  Lemma py_index_nat {A} (l : list A) i : py_index l (Z.of_nat i) = nth_error l i.
  Proof.
    unfold py_index. destruct (Z.ltb_spec (Z.of_nat i) 0); [lia|]. destruct (Z.ltb_spec (Z.of_nat i) 0); [lia|].
    now rewrite Nat2Z.id.
  Qed.

  Lemma get_inv (m0 m : mem) (g : gen) i m' s' : private K J m0 (g_stored M g) -> Inv m0 m ->
    get_scenario D H M pa pm m g i = Some (m', s') -> Inv m0 m' /\ all_new m m' s'.
  Proof.
    intros PV Iv. unfold get_scenario. destruct (py_index (g_stored M g) i) as [s|]; [|discriminate].
    intros E. eapply scen_copy_inv; eassumption.
  Qed.

  Lemma step_inv (m0 m m' : mem) (g g' : gen) c r : private K J m0 (g_stored M g) -> Inv m0 m ->
    gstep pa pm K J m g c r m' g' -> Inv m0 m' /\ g_stored M g' = g_stored M g.
  Proof.
    intros PV Iv E. destruct E as [m g i m' s E|m g i E|m g g' m' s i E|m g g' E|m g|m g g' m' s i E|m g g' b E|m g m' E].
    - split; [exact (proj1 (get_inv m0 m g i m' s PV Iv E))|reflexivity].
    - auto.
    - unfold get_next in E. set (i0 := if Nat.leb _ _ then _ else _) in E.
      destruct (get_scenario D H M pa pm m g (Z.of_nat i0)) as [[m1 s1]|] eqn:Eg; [|discriminate].
      injection E as <- <- <- <-. split; [exact (proj1 (get_inv m0 m g _ _ _ PV Iv Eg))|reflexivity].
    - unfold get_next in E. set (i0 := if Nat.leb _ _ then _ else _) in E.
      destruct (get_scenario D H M pa pm m g (Z.of_nat i0)) as [[m1 s1]|] eqn:Eg; [discriminate|].
      injection E as <-. auto.
    - auto.
    - unfold iter_next in E. destruct (g_iter M g) as [i0|]; [|discriminate].
      destruct (Nat.ltb i0 (length (g_stored M g))); [|discriminate].
      destruct (get_scenario D H M pa pm m g (Z.of_nat i0)) as [[m1 s1]|] eqn:Eg; [|discriminate].
      injection E as <- <- <- <-. split; [exact (proj1 (get_inv m0 m g _ _ _ PV Iv Eg))|reflexivity].
    - unfold iter_next in E. destruct (g_iter M g) as [i0|]; [|injection E as <- _; auto].
      destruct (Nat.ltb i0 (length (g_stored M g))); [|injection E as <- _; auto].
      destruct (get_scenario D H M pa pm m g (Z.of_nat i0)) as [[m1 s1]|] eqn:Eg; [discriminate|].
      injection E as <- _. auto.
    - destruct E as (L1 & L2 & Hk & Hj & Ha). split; [|reflexivity]. destruct Iv as [[A B C] Bj Cj]. split.
      + split; [lia| |].
        * intros l Kl. rewrite (Hk l Kl). auto.
        * intros l cc Nl E x Hx. exact (Ha l cc x Nl E Hx).
      + lia.
      + intros j Jj. rewrite (Hj j Jj). auto.
  Qed.

  Lemma trace_inv (m0 m m' : mem) (g g' : gen) l : private K J m0 (g_stored M g) -> Inv m0 m ->
    gtrace pa pm K J m g l m' g' -> Inv m0 m' /\ g_stored M g' = g_stored M g.
  Proof.
    intros PV Iv T. induction T as [m g|m g c r m1 g1 l m2 g2 E T IH]; [auto|].
    destruct (step_inv m0 m m1 g g1 c r PV Iv E) as [I1 E1]. rewrite E1 in IH. destruct (IH PV I1) as [I2 E2]. split; congruence.
  Qed.

  (* Whatever was done before with the generator, with scenarios it handed out, with worlds built from
     them, or anywhere else in the program: get_scenario(i) returns a copy of the i-th scenario as it was
     created, made of new objects. *)
  Theorem C80_get_scenario_unaffected (m0 m : mem) (g0 g : gen) l i s v v' :
    private K J m0 (g_stored M g0) -> gtrace pa pm K J m0 g0 l m g ->
    nth_error (g_stored M g0) i = Some s -> scen_is m0 s v -> copied pa pm v v' ->
    exists m' s', get_scenario D H M pa pm m g (Z.of_nat i) = Some (m', s') /\ scen_is m' s' v' /\ all_new m m' s'.
  Proof.
    intros PV T Ei Hv Hc. destruct (trace_inv m0 m0 m g0 g l PV (inv_init m0 _ PV) T) as [Iv Es].
    destruct (scen_copy_value m0 _ PV m s v v' Iv (nth_error_In _ _ Ei) Hv Hc) as (m' & s' & E & Hs').
    exists m', s'. unfold get_scenario. rewrite py_index_nat, Es, Ei, E. split; [reflexivity|]. split; [exact Hs'|].
    exact (proj2 (scen_copy_inv m0 _ PV m s m' s' Iv E)).
  Qed.

  (* Indices as in Python: -1 is the last scenario; outside of -n .. n-1 it raises. *)
  Theorem C80_get_scenario_index (m : mem) (g : gen) (i : Z) :
    let n := Z.of_nat (length (g_stored M g)) in
    ((- n <= i < 0)%Z -> get_scenario D H M pa pm m g i = get_scenario D H M pa pm m g (n + i)) /\
    ((i < - n \/ n <= i)%Z -> get_scenario D H M pa pm m g i = None).
  Proof.
    cbv zeta. set (n := Z.of_nat (length (g_stored M g))). split; intros Hi; unfold get_scenario, py_index; fold n.
    - assert (E1 : (i <? 0)%Z = true) by (apply Z.ltb_lt; lia).
      assert (E2 : (n + i <? 0)%Z = false) by (apply Z.ltb_ge; lia).
      now rewrite E1, !E2.
    - destruct Hi as [Hi|Hi].
      + assert (E1 : (i <? 0)%Z = true) by (apply Z.ltb_lt; unfold n in *; lia).
        assert (E2 : (n + i <? 0)%Z = true) by (apply Z.ltb_lt; lia).
        now rewrite E1, E2.
      + assert (E1 : (i <? 0)%Z = false) by (apply Z.ltb_ge; unfold n in *; lia).
        rewrite E1, E1.
        replace (nth_error (g_stored M g) (Z.to_nat i)) with (@None scen); [reflexivity|].
        symmetry. apply nth_error_None. unfold n in *. lia.
  Qed.

  (* All stored scenarios can be copied. *)
  Definition all_copyable (m0 : mem) (g0 : gen) (val : nat -> sval) : Prop :=
    forall i s, nth_error (g_stored M g0) i = Some s -> exists v, scen_is m0 s v /\ copied pa pm v (val i).

  Definition is_next (c : call * ret (M := M)) : bool := match fst c with CNext => true | _ => false end.
  Definition is_iter_next (c : call * ret (M := M)) : bool := match fst c with CIterNext => true | _ => false end.
  Definition is_iter (c : call * ret (M := M)) : bool := match fst c with CIter => true | _ => false end.
  Definition count {A} (f : A -> bool) (l : list A) : nat := length (filter f l).

  Definition cursor (g : gen) : nat := if Nat.leb (length (g_stored M g)) (g_idx M g) then 0 else g_idx M g.

  Lemma next_ok (m0 m : mem) (g0 g : gen) val : private K J m0 (g_stored M g0) -> Inv m0 m -> g_stored M g = g_stored M g0 ->
    all_copyable m0 g0 val -> 0 < length (g_stored M g0) ->
    exists m' s', get_next D H M pa pm m g = (mkGen M (g_stored M g) (S (cursor g)) (g_iter M g), Some (m', s', cursor g)) /\
      scen_is m' s' (val (cursor g)) /\ all_new m m' s'.
  Proof.
    intros PV Iv Es Hc Hn. unfold get_next. fold (cursor g).
    assert (Hi : cursor g < length (g_stored M g)).
    { unfold cursor. destruct (Nat.leb_spec (length (g_stored M g)) (g_idx M g)); rewrite ?Es in *; lia. }
    destruct (nth_error (g_stored M g0) (cursor g)) as [s|] eqn:Ei.
    2:{ apply nth_error_None in Ei. rewrite Es in Hi. lia. }
    destruct (Hc _ _ Ei) as (v & Hv & Hv').
    destruct (scen_copy_value m0 _ PV m s v _ Iv (nth_error_In _ _ Ei) Hv Hv') as (m' & s' & E & Hs').
    assert (Eg : get_scenario D H M pa pm m g (Z.of_nat (cursor g)) = Some (m', s')).
    { unfold get_scenario. now rewrite py_index_nat, Es, Ei. }
    rewrite Eg. exists m', s'. split; [reflexivity|]. split; [exact Hs'|].
    exact (proj2 (get_inv m0 m g _ _ _ ltac:(now rewrite Es) Iv Eg)).
  Qed.

  Lemma cursor_step n c : 0 < n -> c < n -> (if Nat.leb n (S c) then 0 else S c) = (S c) mod n.
  Proof.
    intros Hn Hc. destruct (Nat.leb_spec n (S c)).
    - replace (S c) with n by lia. now rewrite Nat.mod_same by lia.
    - now rewrite Nat.mod_small by lia.
  Qed.

  Lemma cursor_trace (m0 : mem) (g0 : gen) val l : private K J m0 (g_stored M g0) -> all_copyable m0 g0 val -> 0 < length (g_stored M g0) ->
    forall m g m' g', Inv m0 m -> g_stored M g = g_stored M g0 -> gtrace pa pm K J m g l m' g' ->
    cursor g' = (cursor g + count is_next l) mod length (g_stored M g0).
  Proof.
    intros PV Hc Hn m g m' g' Iv Es T. induction T as [m g|m g c r m1 g1 l m2 g2 E T IH].
    - unfold count; cbn. rewrite Nat.add_0_r, Nat.mod_small; [reflexivity|].
      unfold cursor. destruct (Nat.leb_spec (length (g_stored M g)) (g_idx M g)); rewrite ?Es in *; lia.
    - destruct (step_inv m0 m m1 g g1 c r ltac:(now rewrite Es) Iv E) as [I1 E1].
      rewrite (IH I1 ltac:(congruence)). unfold count. cbn [filter].
      assert (Same : is_next (c, r) = false -> g_idx M g1 = g_idx M g -> cursor g1 = cursor g).
      { intros _ Ei. unfold cursor. now rewrite E1, Ei. }
      destruct E as [m g i m' s E|m g i E|m g g' m' s i E|m g g' E|m g|m g g' m' s i E|m g g' b E|m g m' E]; cbn [is_next fst].
      + reflexivity.
      + reflexivity.
      + destruct (next_ok m0 m g0 g val PV Iv Es Hc Hn) as (m3 & s3 & E3 & _). rewrite E3 in E. injection E as <- <- <- <-.
        cbn [length]. unfold cursor at 1. cbn [g_stored g_idx]. rewrite Es.
        assert (Hlt : cursor g < length (g_stored M g0)).
        { unfold cursor. destruct (Nat.leb_spec (length (g_stored M g)) (g_idx M g)); rewrite ?Es in *; lia. }
        rewrite (cursor_step _ _ Hn Hlt). rewrite Nat.add_mod_idemp_l by lia. f_equal. lia.
      + destruct (next_ok m0 m g0 g val PV Iv Es Hc Hn) as (m3 & s3 & E3 & _). rewrite E3 in E. discriminate.
      + reflexivity.
      + rewrite Same; [reflexivity|reflexivity|]. unfold iter_next in E. destruct (g_iter M g) as [i0|]; [|discriminate].
        destruct (Nat.ltb i0 (length (g_stored M g))); [|discriminate].
        destruct (get_scenario D H M pa pm m g (Z.of_nat i0)) as [[m3 s3]|]; [|discriminate]. now injection E as <- _ _ _.
      + rewrite Same; [reflexivity|reflexivity|]. unfold iter_next in E. destruct (g_iter M g) as [i0|]; [|now injection E as <- _].
        destruct (Nat.ltb i0 (length (g_stored M g))); [|now injection E as <- _].
        destruct (get_scenario D H M pa pm m g (Z.of_nat i0)) as [[m3 s3]|]; [discriminate|]. now injection E as <- _.
      + reflexivity.
  Qed.

  (* get_next_scenario goes through the scenarios in order and starts over after the last, whatever happens
     in between; every scenario returned is a copy of the stored one as it was created. *)
  Theorem C80_next_cycles (m0 m : mem) (g0 g : gen) l val :
    private K J m0 (g_stored M g0) -> all_copyable m0 g0 val -> 0 < length (g_stored M g0) ->
    gtrace pa pm K J m0 g0 l m g ->
    let i := (cursor g0 + count is_next l) mod length (g_stored M g0) in
    exists g' m' s', get_next D H M pa pm m g = (g', Some (m', s', i)) /\ scen_is m' s' (val i) /\ all_new m m' s'.
  Proof.
    intros PV Hc Hn T i. destruct (trace_inv m0 m0 m g0 g l PV (inv_init m0 _ PV) T) as [Iv Es].
    destruct (next_ok m0 m g0 g val PV Iv Es Hc Hn) as (m' & s' & E & Hs & Hnew).
    assert (Ei : cursor g = i) by exact (cursor_trace m0 g0 val l PV Hc Hn m0 g0 m g (inv_init m0 _ PV) eq_refl T).
    rewrite Ei in *. eexists _, m', s'. eauto.
  Qed.

  (* An empty generator raises. *)
  Theorem C80_empty_raises (m : mem) (g : gen) : g_stored M g = [] -> snd (get_next D H M pa pm m g) = None.
  Proof.
    intros E. unfold get_next. rewrite E. cbn [length Nat.leb]. unfold get_scenario. rewrite py_index_nat, E. reflexivity.
  Qed.

  Lemma iter_trace (m0 : mem) (g0 : gen) val l : private K J m0 (g_stored M g0) -> all_copyable m0 g0 val ->
    forall m g m' g' k, Inv m0 m -> g_stored M g = g_stored M g0 -> g_iter M g = Some k -> k <= length (g_stored M g0) ->
    gtrace pa pm K J m g l m' g' -> Forall (fun c => is_iter c = false) l ->
    g_iter M g' = Some (Nat.min (k + count is_iter_next l) (length (g_stored M g0))).
  Proof.
    intros PV Hc m g m' g' k Iv Es Ek Lk T. revert k Ek Lk. induction T as [m g|m g c r m1 g1 l m2 g2 E T IH]; intros k Ek Lk F.
    - unfold count; cbn. rewrite Ek. f_equal. lia.
    - inversion F as [|? ? Fc Fl]; subst. destruct (step_inv m0 m m1 g g1 c r ltac:(now rewrite Es) Iv E) as [I1 E1].
      specialize (IH I1 ltac:(congruence)). unfold count. cbn [filter].
      destruct E as [m g i m' s E|m g i E|m g g' m' s i E|m g g' E|m g|m g g' m' s i E|m g g' b E|m g m' E]; cbn [is_iter_next fst].
      + apply IH; auto.
      + apply IH; auto.
      + apply IH; auto. unfold get_next in E. set (i0 := if Nat.leb _ _ then _ else _) in E.
        destruct (get_scenario D H M pa pm m g (Z.of_nat i0)) as [[m3 s3]|] eqn:Eg; [|discriminate]. now injection E as <- _ _ _.
      + apply IH; auto. unfold get_next in E. set (i0 := if Nat.leb _ _ then _ else _) in E.
        destruct (get_scenario D H M pa pm m g (Z.of_nat i0)) as [[m3 s3]|] eqn:Eg; [discriminate|]. now injection E as <-.
      + discriminate Fc.
      + unfold iter_next in E. rewrite Ek in E. destruct (Nat.ltb_spec k (length (g_stored M g))) as [Lt|]; [|discriminate].
        destruct (get_scenario D H M pa pm m g (Z.of_nat k)) as [[m3 s3]|] eqn:Eg; [|discriminate]. injection E as <- <- <- <-.
        rewrite (IH (S k) eq_refl ltac:(rewrite Es in Lt; lia) Fl). cbn [length]. f_equal. unfold count. lia.
      + unfold iter_next in E. rewrite Ek in E. destruct (Nat.ltb_spec k (length (g_stored M g))) as [Lt|Ge].
        * destruct (nth_error (g_stored M g0) k) as [s|] eqn:Ei.
          2:{ apply nth_error_None in Ei. rewrite Es in Lt. lia. }
          destruct (Hc _ _ Ei) as (v & Hv & Hv').
          destruct (scen_copy_value m0 _ PV m s v _ Iv (nth_error_In _ _ Ei) Hv Hv') as (m3 & s3 & E3 & Hs').
          unfold get_scenario in E. rewrite py_index_nat, Es, Ei, E3 in E. discriminate.
        * injection E as <- _. rewrite (IH k Ek Lk Fl). cbn [length]. rewrite Es in Ge. f_equal. unfold count. lia.
      + apply IH; auto.
  Qed.

  (* A loop over the generator yields the scenarios 0, 1, ..., n-1 in order and stops: after k values since
     the loop was started, the next one is k, or the end. No other loop may be started meanwhile. *)
  Theorem C80_loop (m0 m1 m : mem) (g0 g1 g : gen) l0 l val :
    private K J m0 (g_stored M g0) -> all_copyable m0 g0 val ->
    gtrace pa pm K J m0 g0 l0 m1 g1 ->
    gtrace pa pm K J m1 (iter_start M g1) l m g -> Forall (fun c => is_iter c = false) l ->
    let k := count is_iter_next l in
    if Nat.ltb k (length (g_stored M g0)) then
      exists g' m' s', iter_next D H M pa pm m g = (g', inr (m', s', k)) /\ scen_is m' s' (val k) /\ all_new m m' s'
    else exists g', iter_next D H M pa pm m g = (g', inl true).
  Proof.
    intros PV Hc T0 T F k. destruct (trace_inv m0 m0 m1 g0 g1 l0 PV (inv_init m0 _ PV) T0) as [Iv1 Es1].
    assert (Es1' : g_stored M (iter_start M g1) = g_stored M g0) by exact Es1.
    destruct (trace_inv m0 m1 m (iter_start M g1) g l ltac:(now rewrite Es1') Iv1 T) as [Iv Es].
    pose proof (iter_trace m0 g0 val l PV Hc m1 (iter_start M g1) m g 0 Iv1 Es1' eq_refl (Nat.le_0_l _) T F) as Ek.
    fold k in Ek. cbn [Nat.add] in Ek. rewrite Es1' in Es. unfold iter_next. rewrite Ek, Es.
    destruct (Nat.ltb_spec k (length (g_stored M g0))) as [Lt|Ge].
    - rewrite Nat.min_l by lia. destruct (Nat.ltb_spec k (length (g_stored M g0))); [|lia].
      destruct (nth_error (g_stored M g0) k) as [s|] eqn:Ei.
      2:{ apply nth_error_None in Ei. lia. }
      destruct (Hc _ _ Ei) as (v & Hv & Hv').
      destruct (scen_copy_value m0 _ PV m s v _ Iv (nth_error_In _ _ Ei) Hv Hv') as (m3 & s3 & E3 & Hs').
      assert (Eg : get_scenario D H M pa pm m g (Z.of_nat k) = Some (m3, s3)).
      { unfold get_scenario. now rewrite py_index_nat, Es, Ei. }
      rewrite Eg. eexists _, m3, s3. split; [reflexivity|]. split; [exact Hs'|].
      exact (proj2 (get_inv m0 m g _ _ _ ltac:(now rewrite Es) Iv Eg)).
    - rewrite Nat.min_r by lia. rewrite Nat.ltb_irrefl. eauto.
  Qed.

  (* A loop inside a loop: once the inner loop has run to its end, the outer one ends too. *)
  Theorem C80_nested_loop_refuted (m0 m1 m : mem) (g0 g1 g : gen) l0 l val :
    private K J m0 (g_stored M g0) -> all_copyable m0 g0 val ->
    gtrace pa pm K J m0 g0 l0 m1 g1 ->
    gtrace pa pm K J m1 (iter_start M g1) l m g -> Forall (fun c => is_iter c = false) l ->
    length (g_stored M g0) <= count is_iter_next l ->
    exists g', iter_next D H M pa pm m g = (g', inl true).
  Proof.
    intros PV Hc T0 T F L. pose proof (C80_loop m0 m1 m g0 g1 g l0 l val PV Hc T0 T F) as Q. cbv zeta in Q.
    destruct (Nat.ltb_spec (count is_iter_next l) (length (g_stored M g0))); [lia|exact Q].
  Qed.

  (* Building a world from a scenario that was handed out, and doing anything with that world, is one of
     the things the rest of the program may do. *)
  Theorem C80_worlds_are_harmless (copy : D -> D) load none only (m m1 : mem) (g g1 : gen) stored l
      (s s' : scen) h w ops :
    private K J m stored -> stored = g_stored M g -> gtrace pa pm K J m g l m1 g1 ->
    (forall x, In x (s_agents M s) \/ s_observer M s = Some x -> ~ K x) ->
    world_state D H M load none only (heapof m1) s = Some (h, s', w) ->
    (forall id b, In (HSetBehavior D H id b) ops -> ~ K b) ->
    client K J m1 (mkMem D H (fst (hrun D H copy h w ops)) (jsonof m1)).
  Proof.
    intros PV -> T Hs E Hop. destruct (trace_inv m m m1 g g1 l PV (inv_init m _ PV) T) as [Iv _].
    pose proof (safe_refl m m1 Iv) as S1. pose proof (safe_old m _ PV m1 Iv) as Ko.
    unfold world_state in E. cbv zeta in E.
    set (ob := match s_observer M s with Some _ => _ | None => _ end) in E.
    assert (G : Safe K (heapof m1) (fst ob) /\ ~ K (snd ob)).
    { unfold ob. destruct (s_observer M s) as [o|] eqn:Eo; cbn [fst snd].
      - split; [apply S_wr; auto|auto].
      - unfold alloc. cbn [fst snd]. apply S_alloc; auto. intros x []. }
    destruct G as [S2 N2].
    destruct (match s_map M s with Some x => Some x | None => load (s_file M s) end) as [mp|]; [|discriminate].
    injection E as <- <- <-.
    assert (A : Away K (mkHW 0 (add_agents D H (fst ob) (s_agents M s)) [] [] (snd ob))).
    { split; [|split; [intros x []|split; [intros x []|exact N2]]]. cbn [hw_agents].
      intros x Hx. apply in_map_iff in Hx as ([k y] & <- & Hy). cbn [snd]. apply Hs. left.
      unfold add_agents in Hy.
      assert (Q : forall l acc, (forall p, In p acc -> In (snd p) (s_agents M s)) -> (forall z, In z l -> In z (s_agents M s)) ->
        forall p, In p (fold_left (fun mm z => match hget D H (fst ob) z with Some (CAgent _ _ a) => m_insert (ha_id H a) z mm | _ => mm end) l acc) ->
        In (snd p) (s_agents M s)).
      { clear. induction l as [|z r IH]; intros acc Ha Hl p; cbn [fold_left]; [auto|].
        apply IH; [|intros; apply Hl; cbn; auto]. intros q Hq.
        destruct (hget D H (fst ob) z) as [[d ss|a]|]; auto.
        apply m_insert_In_keys in Hq as [->|Hq]; [apply Hl; cbn; auto|auto]. }
      apply (Q (s_agents M s) [] ltac:(intros p []) ltac:(auto) (k, y) Hy). }
    destruct (S_run copy K (heapof m1) Ko ops (fst ob) _ S2 A Hop) as [S3 _].
    split; [exact (sf_len _ _ _ S3)|]. split; [cbn; lia|]. split; [exact (sf_same _ _ _ S3)|].
    split; [reflexivity|]. intros x c y Nx Ex Iy. exact (sf_away _ _ _ S3 x c Nx Ex y Iy).
  Qed.

  (* Reading a dumped scenario list back: the map is not stored, it is loaded again from its file. *)
  Theorem C80_reloaded_without_map (m m' : mem) (s s' : scen) load none only h s2 w :
    scen_reload D H M pa pm m s = Some (m', s') ->
    s_map M s' = None /\ s_file M s' = s_file M s /\ s_eval M s' = s_eval M s /\
    (world_state D H M load none only (heapof m') s' = Some (h, s2, w) -> exists mp, load (s_file M s) = Some mp /\ s_map M s2 = Some mp).
  Proof.
    unfold scen_reload. destruct (scen_copy D H M pa pm m s) as [[m1 s1]|] eqn:E; [|discriminate].
    intros X. injection X as <- <-.
    assert (Ef : s_file M s1 = s_file M s /\ s_eval M s1 = s_eval M s).
    { unfold scen_copy in E. cbv zeta in E.
      match type of E with match ?o with _ => _ end = _ => destruct o as [[h1 ob]|]; [|discriminate] end.
      destruct (copy_agents D H pa [] h1 (s_agents M s)) as [[h2 ags]|]; [|discriminate].
      destruct (s_json M s); [|discriminate]. destruct (nth_error (jsonof m) n); [|discriminate].
      injection E as _ <-. cbn; auto. }
    cbn [s_map s_file s_eval]. repeat split; try tauto.
    unfold world_state. cbn [s_map s_file]. destruct Ef as [-> _]. destruct (load (s_file M s)) as [mp|]; [|discriminate].
    intros X. injection X as <- <- <-. exists mp. auto.
  Qed.
End C80.

Print Assumptions C80_get_scenario_unaffected.
Print Assumptions C80_get_scenario_index.
Print Assumptions C80_next_cycles.
Print Assumptions C80_empty_raises.
Print Assumptions C80_loop.
Print Assumptions C80_nested_loop_refuted.
Print Assumptions C80_worlds_are_harmless.
Print Assumptions C80_reloaded_without_map.

(* ** A case: two scenarios with one agent each (composite behavior model, goal), parameters with a nested
   dictionary. Pickling resets the execution model's payload to 0. *)
Section Case.
  Local Open Scope string_scope. Local Open Scope list_scope.
  Let D := Z. Let H := Z. Let M := nat.
  Definition ex_heap : heap Z Z :=
    [CModel Z Z 7%Z [1]; CModel Z Z 8%Z []; CModel Z Z 2%Z []; CModel Z Z 3%Z []; CModel Z Z 4%Z [];
     CAgent Z Z (mkHA Z 5%N 0 2 3 (Some 4) [10%Z; 11%Z] 30);
     CModel Z Z 9%Z []; CModel Z Z 2%Z []; CModel Z Z 3%Z []; CAgent Z Z (mkHA Z 6%N 6 7 8 None [20%Z] 30)].
  Definition ex_json : jheap := [[("World", JRef 2)]; [("World", JRef 3)]; [("dt", JVal "0.2")]; [("dt", JVal "0.2")]].
  Definition ex_mem : mem Z Z := mkMem Z Z ex_heap ex_json.
  Definition ex_s0 : scen nat := mkScen nat [5] [5%N] "a.xodr" (Some 0) None None.
  Definition ex_s1 : scen nat := mkScen nat [9] [6%N] "b.xodr" (Some 1) (Some 3) None.
  Definition ex_gen : gen nat := mkGen nat [ex_s0; ex_s1] 1 None.
  Definition ex_pa (v : aval Z Z) : option (aval Z Z) :=
    Some (mkAV Z Z (v_id Z Z v) (v_bm Z Z v) (v_dm Z Z v) (MV Z 0%Z []) (v_goal Z Z v) (v_hist Z Z v) 30).
  Definition ex_pm (v : mval Z) : option (mval Z) := Some v.
  Definition ex_K (l : loc) : Prop := l < 10.
  Definition ex_J (j : nat) : Prop := j < 2.
  Definition ex_v0 : sval := mkSV (M := nat)
    [mkAV Z Z 5%N (MV Z 7%Z [MV Z 8%Z []]) (MV Z 2%Z []) (MV Z 3%Z []) (Some (MV Z 4%Z [])) [10%Z; 11%Z] 30]
    [5%N] "a.xodr" [("World", JRef 2)] None None.
  Definition ex_v1 : sval := mkSV (M := nat)
    [mkAV Z Z 6%N (MV Z 9%Z []) (MV Z 2%Z []) (MV Z 3%Z []) None [20%Z] 30]
    [6%N] "b.xodr" [("World", JRef 3)] (Some 3) None.
  Definition ex_c0 : sval := mkSV (M := nat)
    [mkAV Z Z 5%N (MV Z 7%Z [MV Z 8%Z []]) (MV Z 2%Z []) (MV Z 0%Z []) (Some (MV Z 4%Z [])) [10%Z; 11%Z] 30]
    [5%N] "a.xodr" [("World", JRef 2)] None None.
  Definition ex_c1 : sval := mkSV (M := nat)
    [mkAV Z Z 6%N (MV Z 9%Z []) (MV Z 2%Z []) (MV Z 0%Z []) None [20%Z] 30]
    [6%N] "b.xodr" [("World", JRef 3)] (Some 3) None.

  Lemma ex_private : private ex_K ex_J ex_mem (g_stored nat ex_gen).
  Proof.
    unfold ex_K, ex_J. split.
    - cbn. intros x Hx. exact Hx.
    - intros x c y Hx E Hy.
      do 10 (destruct x as [|x]; [cbn in E; injection E as <-; cbn in Hy; lia|]). lia.
    - intros x c y Hx E Hy. apply hget_lt in E. cbn in E. lia.
    - intros s x [<-|[<-|[]]] [<-|[]]; cbv; lia.
    - intros s x [<-|[<-|[]]]; discriminate.
    - intros s x [<-|[<-|[]]] E; injection E as <-; lia.
    - cbn. lia.
  Qed.

  Lemma ex_copyable : all_copyable ex_pa ex_pm ex_mem ex_gen (fun i => match i with 0 => ex_c0 | _ => ex_c1 end).
  Proof.
    intros i s E. destruct i as [|[|i]]; cbn in E.
    - injection E as <-. exists ex_v0. split.
      + split; [constructor; [now exists 3|constructor]|]. split; [reflexivity|]. split; [reflexivity|]. split; [reflexivity|]. split; [eexists; split; reflexivity|exact I].
      + split; [repeat constructor|]. repeat split.
    - injection E as <-. exists ex_v1. split.
      + split; [constructor; [now exists 3|constructor]|]. split; [reflexivity|]. split; [reflexivity|]. split; [reflexivity|]. split; [eexists; split; reflexivity|exact I].
      + split; [repeat constructor|]. repeat split.
    - destruct i; discriminate.
  Qed.

  (* The generator starts with scenario 1 and then returns 0; the second call happens after the first
     scenario's agent was overwritten by its user. *)
  Example C80_nonvacuous : exists m1 s1 m2 g m3 s3 g',
    gtrace ex_pa ex_pm ex_K ex_J ex_mem ex_gen [(CNext, RScen s1 1); (COther, RNone)] m2 g /\
    m_h Z Z m2 = firstn 13 (m_h Z Z m1) ++ [CAgent Z Z (mkHA Z 6%N 10 11 12 None [999%Z] 30)] /\ length (m_h Z Z m1) = 14 /\
    get_next Z Z nat ex_pa ex_pm m2 g = (g', Some (m3, s3, 0)) /\ scen_is m3 s3 ex_c0.
  Proof.
    pose proof (next_ok ex_pa ex_pm ex_K ex_J ex_mem ex_mem ex_gen ex_gen _ ex_private (inv_init _ _ ex_mem _ ex_private) eq_refl ex_copyable ltac:(cbn; lia))
      as (m1 & s1 & E1 & V1 & _).
    assert (E1' : exists s, get_next Z Z nat ex_pa ex_pm ex_mem ex_gen = (mkGen nat [ex_s0; ex_s1] 2 None, Some (m1, s, 1)) /\ s = s1) by (exists s1; auto).
    assert (Em : m_h Z Z m1 = ex_heap ++ [CModel Z Z 9%Z []; CModel Z Z 2%Z []; CModel Z Z 0%Z []; CAgent Z Z (mkHA Z 6%N 10 11 12 None [20%Z] 30)]).
    { vm_compute in E1. injection E1 as <- _. reflexivity. }
    set (m2 := mkMem Z Z (firstn 13 (m_h Z Z m1) ++ [CAgent Z Z (mkHA Z 6%N 10 11 12 None [999%Z] 30)]) (m_j Z Z m1)).
    assert (T : gtrace ex_pa ex_pm ex_K ex_J ex_mem ex_gen [(CNext, RScen s1 1); (COther, RNone)] m2 (mkGen nat [ex_s0; ex_s1] 2 None)).
    { econstructor; [apply g_next; exact E1|]. econstructor; [|constructor]. apply g_other.
      unfold m2. split; [cbn; rewrite Em; vm_compute; lia|]. split; [cbn; lia|]. split; [|split; [reflexivity|]].
      - intros x Hx. unfold ex_K in Hx. cbn [m_h]. rewrite Em.
        do 10 (destruct x as [|x]; [reflexivity|]). lia.
      - intros x c y Hx E Hy. unfold ex_K in *. cbn [m_h] in E. rewrite Em in E.
        do 10 (destruct x as [|x]; [lia|]). do 4 (destruct x as [|x]; [cbn in E; injection E as <-; cbn in Hy; lia|]).
        cbn in E. destruct x; discriminate. }
    destruct (C80_next_cycles ex_pa ex_pm ex_K ex_J ex_mem m2 ex_gen _ _ _ ex_private ex_copyable ltac:(cbn; lia) T) as (g' & m3 & s3 & E3 & V3 & _).
    exists m1, s1, m2, (mkGen nat [ex_s0; ex_s1] 2 None), m3, s3, g'.
    split; [exact T|]. split; [reflexivity|]. split; [rewrite Em; reflexivity|]. split; [exact E3|exact V3].
  Qed.

  (* Looking up a path of keys in nested dictionaries. *)
  Fixpoint jpath (j : jheap) (l : nat) (p : list string) : option string :=
    match p with
    | [] => None
    | k :: r =>
        match nth_error j l with
        | None => None
        | Some d =>
            match find (fun e => String.eqb k (fst e)) d with
            | None => None
            | Some (_, JVal s) => match r with [] => Some s | _ => None end
            | Some (_, JRef l') => jpath j l' r
            end
        end
    end.

  (* dict.copy() is shallow: a change of a nested parameter in a scenario that was handed out shows in the
     scenarios handed out later. *)
  Theorem C80_nested_parameters_shared_refuted : exists m1 s1 m2 g m3 s3,
    gtrace ex_pa ex_pm ex_K ex_J ex_mem ex_gen [(CGet 0, RScen s1 0); (COther, RNone)] m2 g /\
    (exists j d, s_json nat s1 = Some j /\ nth_error (m_j Z Z m1) j = Some d /\ d = [("World", JRef 2)] /\
       m_h Z Z m2 = m_h Z Z m1 /\ m_j Z Z m2 = firstn 2 (m_j Z Z m1) ++ [[("dt", JVal "0.5")]] ++ skipn 3 (m_j Z Z m1)) /\
    get_scenario Z Z nat ex_pa ex_pm m2 g 0 = Some (m3, s3) /\
    jpath ex_json 0 ["World"; "dt"] = Some "0.2" /\
    exists j3, s_json nat s3 = Some j3 /\ jpath (m_j Z Z m3) j3 ["World"; "dt"] = Some "0.5".
  Proof.
    destruct (get_scenario Z Z nat ex_pa ex_pm ex_mem ex_gen 0) as [[m1 s1]|] eqn:E1; [|vm_compute in E1; discriminate].
    destruct (get_inv ex_pa ex_pm ex_K ex_J ex_mem ex_mem ex_gen 0%Z m1 s1 ex_private (inv_init _ _ ex_mem _ ex_private) E1) as [I1 _].
    assert (Ej : m_j Z Z m1 = ex_json ++ [[("World", JRef 2)]] /\ s_json nat s1 = Some 4).
    { vm_compute in E1. injection E1 as <- <-. split; reflexivity. }
    destruct Ej as [Ej Es].
    set (m2 := mkMem Z Z (m_h Z Z m1) (firstn 2 (m_j Z Z m1) ++ [[("dt", JVal "0.5")]] ++ skipn 3 (m_j Z Z m1))).
    assert (T : gtrace ex_pa ex_pm ex_K ex_J ex_mem ex_gen [(CGet 0, RScen s1 0); (COther, RNone)] m2 ex_gen).
    { econstructor; [apply g_get; exact E1|]. econstructor; [|constructor]. apply g_other.
      unfold m2. split; [cbn; lia|]. split; [cbn [m_j]; rewrite Ej; vm_compute; lia|]. split; [reflexivity|]. split.
      - intros j Hj. unfold ex_J in Hj. cbn [m_j]. rewrite Ej. do 2 (destruct j as [|j]; [reflexivity|]). lia.
      - intros x c y Nx E Hy. exact (sf_away _ _ _ (iv_safe _ _ _ _ I1) x c Nx E y Hy). }
    destruct (get_scenario Z Z nat ex_pa ex_pm m2 ex_gen 0) as [[m3 s3]|] eqn:E3.
    - exists m1, s1, m2, ex_gen, m3, s3. split; [exact T|]. split.
      { exists 4, [("World", JRef 2)]. rewrite Ej. split; [exact Es|]. split; [reflexivity|]. split; [reflexivity|].
        unfold m2. cbn [m_h m_j]. rewrite Ej. split; reflexivity. }
      split; [exact E3|]. split; [reflexivity|].
      unfold m2 in E3. rewrite Ej in E3. vm_compute in E1. injection E1 as <- <-. vm_compute in E3. injection E3 as <- <-.
      eexists. split; reflexivity.
    - exfalso. unfold m2 in E3. rewrite Ej in E3. vm_compute in E1. injection E1 as <- <-. vm_compute in E3. discriminate.
  Qed.
End Case.
Print Assumptions C80_nested_parameters_shared_refuted.
