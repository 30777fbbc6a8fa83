From Coq Require Import String List NArith ZArith QArith Bool Arith Lia.
From Verif Require Import Model_Map Proof_Map Model_Heap Spec_Heap Proof_Heap Model_Runtime Spec_Runtime Proof_Frame Props_Heap.
Import ListNotations.
Local Open Scope nat_scope.
Local Open Scope list_scope.

Lemma all_some_iff {A B} (f : A -> option B) l : forall vs,
  all_some (map f l) = Some vs <-> Forall2 (fun x v => f x = Some v) l vs.
Proof.
  induction l as [|x r IH]; intros vs; cbn.
  - split; [intros E; injection E as <-; constructor|]. intros F. inversion F; reflexivity.
  - destruct (f x) as [v|] eqn:E.
    + destruct (all_some (map f r)) as [y|] eqn:Er.
      * split.
        -- intros E2. injection E2 as <-. constructor; [exact E|]. now apply IH.
        -- intros F. inversion F as [|? v' ? vs' Hv Hr]; subst. apply IH in Hr. congruence.
      * split; [discriminate|]. intros F. inversion F as [|? v' ? vs' Hv Hr]; subst. apply IH in Hr. congruence.
    + split; [discriminate|]. intros F. inversion F; congruence.
Qed.

Lemma Forall2_imp {A B} (P Q : A -> B -> Prop) l1 l2 : (forall x y, In x l1 -> P x y -> Q x y) ->
  Forall2 P l1 l2 -> Forall2 Q l1 l2.
Proof.
  intros HI F. induction F as [|x y l l' Hxy F IH]; constructor; [apply HI; cbn; auto|].
  apply IH. intros; apply HI; cbn; auto.
Qed.

Section Scen.
  Context {D H M : Type}.
  Notation heap := (heap D H).
  Notation hget := (hget D H).
  Notation CModel := (CModel D H).
  Notation CAgent := (CAgent D H).
  Notation read_model := (read_model D H).
  Notation read_agent := (read_agent D H).
  Notation build_model := (build_model D H).

  Definition ext (h h' : heap) : Prop := forall x c, hget h x = Some c -> hget h' x = Some c.
  Lemma ext_refl h : ext h h. Proof. intros x c E; exact E. Qed.
  Lemma ext_trans a b c : ext a b -> ext b c -> ext a c. Proof. intros X Y x e E. auto. Qed.
  Lemma ext_app h c : ext h (h ++ [c]).
  Proof. intros x e E. rewrite hget_app_l; [exact E|exact (hget_lt _ _ _ E)]. Qed.

  Lemma read_mono n : forall m h h' l v, n <= m -> ext h h' -> read_model n h l = Some v -> read_model m h' l = Some v.
  Proof.
    induction n as [|n IH]; intros m h h' l v L X E; [discriminate|].
    destruct m as [|m]; [lia|]. cbn [Model_Runtime.read_model] in *.
    destruct (Model_Heap.hget D H h l) as [[d subs|a]|] eqn:Eh; try discriminate.
    rewrite (X l _ Eh).
    destruct (all_some (map (read_model n h) subs)) as [vs|] eqn:Es; [|discriminate]. injection E as <-.
    apply all_some_iff in Es.
    assert (Es' : all_some (map (read_model m h') subs) = Some vs).
    { apply all_some_iff. eapply Forall2_imp; [|exact Es]. intros x y _ Hx. apply (IH m h h' x y); auto. lia. }
    now rewrite Es'.
  Qed.

  Lemma model_is_ext h h' l v : ext h h' -> model_is h l v -> model_is h' l v.
  Proof. intros X [n E]. exists n. eapply read_mono; eauto. Qed.

  (* fuel of an agent's parts can be taken equal *)
  Lemma read_agent_iff n h l v : read_agent n h l = Some v <->
    exists a, hget h l = Some (CAgent a) /\ v_id D H v = ha_id H a /\ v_hist D H v = ha_hist H a /\ v_max D H v = ha_max H a /\
      read_model n h (ha_bm H a) = Some (v_bm D H v) /\ read_model n h (ha_dm H a) = Some (v_dm D H v) /\
      read_model n h (ha_em H a) = Some (v_em D H v) /\ read_opt D H n h (ha_goal H a) = Some (v_goal D H v).
  Proof.
    unfold Model_Runtime.read_agent. split.
    - destruct (Model_Heap.hget D H h l) as [[d subs|a]|] eqn:E; try discriminate.
      destruct (Model_Runtime.read_model D H n h (ha_bm H a)) as [b|] eqn:E1; [|discriminate].
      destruct (Model_Runtime.read_model D H n h (ha_dm H a)) as [dd|] eqn:E2; [|discriminate].
      destruct (Model_Runtime.read_model D H n h (ha_em H a)) as [e|] eqn:E3; [|discriminate].
      destruct (read_opt D H n h (ha_goal H a)) as [g|] eqn:E4; [|discriminate].
      intros X. injection X as <-. exists a. cbn. rewrite E1, E2, E3, E4. repeat split; auto.
    - intros (a & -> & I & Hh & Hm & -> & -> & -> & ->). destruct v; cbn in *. subst. reflexivity.
  Qed.

  Lemma read_opt_mono n m h h' o v : n <= m -> ext h h' -> read_opt D H n h o = Some v -> read_opt D H m h' o = Some v.
  Proof.
    intros L X. destruct o as [l|]; cbn; [|auto].
    destruct (read_model n h l) as [x|] eqn:E; [|discriminate].
    rewrite (read_mono n m h h' l x L X E). auto.
  Qed.

  Lemma read_agent_mono n m h h' l v : n <= m -> ext h h' -> read_agent n h l = Some v -> read_agent m h' l = Some v.
  Proof.
    intros L X. rewrite !read_agent_iff. intros (a & E & I & Hh & Hm & R1 & R2 & R3 & R4).
    exists a. split; [exact (X _ _ E)|]. repeat (split; [assumption|]).
    repeat (split; [eapply read_mono; eassumption|]). eapply read_opt_mono; eassumption.
  Qed.

  Lemma agent_is_ext h h' l v : ext h h' -> agent_is h l v -> agent_is h' l v.
  Proof. intros X [n E]. exists n. eapply read_agent_mono; eauto. Qed.

  (* a value is determined by the object *)
  Lemma model_is_fun (h : heap) l v v' : model_is h l v -> model_is h l v' -> v = v'.
  Proof.
    intros [n E] [m E'].
    pose proof (read_mono n (max n m) h h l v (Nat.le_max_l _ _) (ext_refl h) E) as A.
    pose proof (read_mono m (max n m) h h l v' (Nat.le_max_r _ _) (ext_refl h) E') as B. congruence.
  Qed.
  Lemma agent_is_fun (h : heap) l v v' : agent_is h l v -> agent_is h l v' -> v = v'.
  Proof.
    intros [n E] [m E'].
    pose proof (read_agent_mono n (max n m) h h l v (Nat.le_max_l _ _) (ext_refl h) E) as A.
    pose proof (read_agent_mono m (max n m) h h l v' (Nat.le_max_r _ _) (ext_refl h) E') as B. congruence.
  Qed.

  (* reading inside a closed set depends on that set only *)
  Lemma read_agree (K : loc -> Prop) h h' : (forall x, K x -> hget h' x = hget h x) ->
    (forall x c y, K x -> hget h x = Some c -> In y (refs c) -> K y) ->
    forall n l, K l -> read_model n h' l = read_model n h l.
  Proof.
    intros S Cl n. induction n as [|n IH]; intros l Kl; [reflexivity|]. cbn [Model_Runtime.read_model].
    rewrite (S l Kl). destruct (Model_Heap.hget D H h l) as [[d subs|a]|] eqn:E; auto.
    replace (map (read_model n h') subs) with (map (read_model n h) subs); [reflexivity|].
    apply map_ext_in. intros x Hx. symmetry. apply IH. exact (Cl l _ x Kl E Hx).
  Qed.

  Lemma read_agent_agree (K : loc -> Prop) h h' : (forall x, K x -> hget h' x = hget h x) ->
    (forall x c y, K x -> hget h x = Some c -> In y (refs c) -> K y) ->
    forall n l, K l -> read_agent n h' l = read_agent n h l.
  Proof.
    intros S Cl n l Kl. unfold Model_Runtime.read_agent. rewrite (S l Kl).
    destruct (Model_Heap.hget D H h l) as [[d subs|a]|] eqn:E; auto.
    pose proof (fun y Hy => Cl l _ y Kl E Hy) as Ky. cbn [refs] in Ky.
    rewrite !(read_agree K h h' S Cl n) by (apply Ky; cbn; auto).
    assert (Eg : read_opt D H n h' (ha_goal H a) = read_opt D H n h (ha_goal H a)).
    { destruct (ha_goal H a) as [g|]; [|reflexivity]. cbn. rewrite (read_agree K h h' S Cl n); auto. apply Ky; cbn; auto. }
    now rewrite Eg.
  Qed.

  (* ** building *)
  Fixpoint build_list (h : heap) (l : list (mval D)) : heap * list loc :=
    match l with
    | [] => (h, [])
    | x :: r => let a := build_model h x in let b := build_list (fst a) r in (fst b, snd a :: snd b)
    end.
  Lemma build_model_eq h d subs : build_model h (MV D d subs) =
    alloc D H (fst (build_list h subs)) (CModel d (snd (build_list h subs))).
  Proof. reflexivity. Qed.

  Fixpoint mval_ind' (Q : mval D -> Prop) (Hs : forall d l, Forall Q l -> Q (MV D d l)) (v : mval D) : Q v :=
    match v with
    | MV _ d l => Hs d l ((fix go l : Forall Q l :=
        match l with [] => Forall_nil Q | x :: r => Forall_cons x (mval_ind' Q Hs x) (go r) end) l)
    end.

  Section Build.
    Variable P : loc -> Prop.
    Variable h0 : heap.
    Hypothesis P_old : forall l, P l -> l < length h0.
    Notation Safe := (Safe P h0).

    Definition built (h : heap) (r : heap * loc) (v : mval D) : Prop :=
      Safe (fst r) /\ ~ P (snd r) /\ ext h (fst r) /\ length h <= length (fst r) /\ length h <= snd r /\
      model_is (fst r) (snd r) v.

    Lemma build_good v : forall h, Safe h -> built h (build_model h v) v.
    Proof.
      induction v as [d l IH] using mval_ind'. intros h HS. rewrite build_model_eq.
      assert (G : Safe (fst (build_list h l)) /\ away P (snd (build_list h l)) /\ ext h (fst (build_list h l)) /\
                  length h <= length (fst (build_list h l)) /\
                  Forall2 (model_is (fst (build_list h l))) (snd (build_list h l)) l).
      { revert h HS. induction l as [|x r IHr]; intros h HS; cbn [build_list fst snd].
        - split; [exact HS|]. split; [intros x []|]. split; [apply ext_refl|]. split; [lia|constructor].
        - inversion IH as [|? ? Hx Hr]; subst. destruct (Hx h HS) as (S1 & N1 & X1 & L1 & F1 & V1).
          destruct (IHr Hr (fst (build_model h x)) S1) as (S2 & N2 & X2 & L2 & V2).
          split; [exact S2|]. split; [intros y [<-|Hy]; auto|]. split; [eapply ext_trans; eassumption|].
          split; [lia|]. constructor; [eapply model_is_ext; eassumption|exact V2]. }
      destruct G as (S1 & N1 & X1 & L1 & V1). set (r := build_list h l) in *. clearbody r.
      unfold alloc. destruct (S_alloc P h0 P_old (fst r) (CModel d (snd r)) S1 N1) as [S2 N2].
      split; [exact S2|]. split; [exact N2|].
      split; [eapply ext_trans; [exact X1|apply ext_app]|]. cbn [fst snd].
      split; [rewrite app_length; lia|]. split; [lia|].
      assert (V : exists n, Forall2 (fun x y => read_model n (fst r ++ [CModel d (snd r)]) x = Some y) (snd r) l).
      { clear - V1. pose proof (ext_app (fst r) (CModel d (snd r))) as X.
        set (h' := fst r ++ [CModel d (snd r)]) in *. clearbody h'. revert V1. set (hh := fst r) in *. clearbody hh.
        induction 1 as [|x y lx ly Hx F IH]; [exists 0; constructor|].
        destruct IH as [n IH]. destruct (model_is_ext _ _ _ _ X Hx) as [k Ek].
        exists (max n k). constructor.
        - eapply read_mono; [|apply ext_refl|exact Ek]. lia.
        - eapply Forall2_imp; [|exact IH]. intros a b _ Hab. cbn in Hab. eapply read_mono; [|apply ext_refl|exact Hab]. lia. }
      destruct V as [n V]. exists (S n). cbn [Model_Runtime.read_model]. rewrite hget_app_new.
      apply all_some_iff in V. now rewrite V.
    Qed.

    Definition built_agent (h : heap) (r : heap * loc) (v : aval D H) : Prop :=
      Safe (fst r) /\ ~ P (snd r) /\ ext h (fst r) /\ length h <= length (fst r) /\ length h <= snd r /\
      agent_is (fst r) (snd r) v.

    Lemma build_agent_good v h : Safe h -> built_agent h (build_agent D H h v) v.
    Proof.
      intros HS. unfold build_agent, alloc. cbv zeta.
      destruct (build_good (v_bm D H v) h HS) as (S1 & N1 & X1 & L1 & F1 & V1).
      set (r1 := build_model h (v_bm D H v)) in *.
      destruct (build_good (v_dm D H v) (fst r1) S1) as (S2 & N2 & X2 & L2 & F2 & V2).
      set (r2 := build_model (fst r1) (v_dm D H v)) in *.
      destruct (build_good (v_em D H v) (fst r2) S2) as (S3 & N3 & X3 & L3 & F3 & V3).
      set (r3 := build_model (fst r2) (v_em D H v)) in *.
      assert (G : Safe (fst (build_opt D H (fst r3) (v_goal D H v))) /\
        away P (match snd (build_opt D H (fst r3) (v_goal D H v)) with Some g => [g] | None => [] end) /\
        ext (fst r3) (fst (build_opt D H (fst r3) (v_goal D H v))) /\
        length (fst r3) <= length (fst (build_opt D H (fst r3) (v_goal D H v))) /\
        exists n, read_opt D H n (fst (build_opt D H (fst r3) (v_goal D H v))) (snd (build_opt D H (fst r3) (v_goal D H v))) = Some (v_goal D H v)).
      { destruct (v_goal D H v) as [g|]; cbn.
        - destruct (build_good g (fst r3) S3) as (S4 & N4 & X4 & L4 & F4 & (n & V4)).
          split; [exact S4|]. split; [intros x [<-|[]]; exact N4|]. split; [exact X4|]. split; [exact L4|].
          exists n. now rewrite V4.
        - split; [exact S3|]. split; [intros x []|]. split; [apply ext_refl|]. split; [lia|]. now exists 0. }
      set (r4 := build_opt D H (fst r3) (v_goal D H v)) in *.
      destruct G as (S4 & N4 & X4 & L4 & (n4 & V4)).
      match goal with |- context [fst r4 ++ [?c]] => set (nc := c) end.
      destruct (S_alloc P h0 P_old (fst r4) nc S4) as [S5 N5].
      { unfold nc. cbn [ptrs ha_bm ha_dm ha_em ha_goal]. intros x [<-|[<-|[<-|Hx]]]; auto. }
      split; [exact S5|]. split; [exact N5|]. cbn [fst snd].
      pose proof (ext_app (fst r4) nc) as X5.
      split; [intros x c E; auto 10|]. split; [rewrite app_length; lia|]. split; [lia|].
      destruct V1 as [n1 V1], V2 as [n2 V2], V3 as [n3 V3].
      exists (n1 + n2 + n3 + n4). apply read_agent_iff. eexists. split; [apply hget_app_new|]. cbn.
      repeat (split; [reflexivity|]).
      split; [eapply read_mono; [|intros x c E; apply X5, X4, X3, X2; exact E|exact V1]; lia|].
      split; [eapply read_mono; [|intros x c E; apply X5, X4, X3; exact E|exact V2]; lia|].
      split; [eapply read_mono; [|intros x c E; apply X5, X4; exact E|exact V3]; lia|].
      eapply read_opt_mono; [|exact X5|exact V4]. lia.
    Qed.
  End Build.

  (* ** copying a list of agents *)
  Variables (pa : aval D H -> option (aval D H)) (pm : mval D -> option (mval D)).

  Section Copy.
    Variable K : loc -> Prop.
    Variable h0 : heap.
    Hypothesis K_old : forall l, K l -> l < length h0.
    Hypothesis K_closed : forall x c y, K x -> hget h0 x = Some c -> In y (refs c) -> K y.
    Notation Safe := (Safe K h0).

    Definition memo_ok (h : heap) (memo : list (loc * loc)) : Prop :=
      forall x y, lookup x memo = Some y -> ~ K y /\ length h0 <= y /\ exists v v', agent_is h0 x v /\ pa v = Some v' /\ agent_is h y v'.

    (* the copies succeed if the originals can be read with some fuel below the heap size *)
    Lemma copy_agents_good l : forall memo h vs vs', Safe h -> memo_ok h memo ->
      (forall x, In x l -> K x) ->
      Forall2 (fun x v => read_agent (length h0) h0 x = Some v) l vs -> Forall2 (fun a b => pa a = Some b) vs vs' ->
      exists h' l', copy_agents D H pa memo h l = Some (h', l') /\ Safe h' /\ ext h h' /\ length h <= length h' /\
        Forall2 (agent_is h') l' vs' /\ (forall y, In y l' -> ~ K y /\ length h0 <= y).
    Proof.
      induction l as [|x r IH]; intros memo h vs vs' HS HM HK F1 F2; inversion F1 as [|? v ? vr Hx Fr]; subst.
      - inversion F2; subst. exists h, []. cbn. repeat split; auto using ext_refl; try apply HS; try (intros; contradiction).
      - inversion F2 as [|? v' ? vr' Hp Fr']; subst. cbn [copy_agents].
        destruct (lookup x memo) as [y|] eqn:El.
        + destruct (IH memo h vr vr' HS HM (fun z Hz => HK z (or_intror Hz)) Fr Fr') as (h' & l' & -> & S' & X' & L' & V' & N').
          destruct (HM x y El) as (Ny & Fy & u & u' & Eu & Epu & Ey).
          exists h', (y :: l'). split; [reflexivity|]. split; [exact S'|]. split; [exact X'|]. split; [exact L'|]. split.
          * constructor; [|exact V']. assert (u = v) by (eapply agent_is_fun; [exact Eu|eexists; exact Hx]). subst u.
            assert (u' = v') by congruence. subst u'. eapply agent_is_ext; eassumption.
          * intros z [<-|Hz]; auto.
        + assert (Ex : read_agent (length h) h x = Some v).
          { rewrite (read_agent_agree K h0 h (sf_same K h0 h HS) K_closed (length h) x (HK x (or_introl eq_refl))).
            eapply read_agent_mono; [exact (sf_len K h0 h HS)|apply ext_refl|exact Hx]. }
          rewrite Ex, Hp. cbv zeta.
          destruct (build_agent_good K h0 K_old v' h HS) as (S1 & N1 & X1 & L1 & F1' & V1).
          set (b := build_agent D H h v') in *.
          pose proof (sf_len K h0 h HS) as L0.
          destruct (IH ((x, snd b) :: memo) (fst b) vr vr' S1) as (h' & l' & -> & S' & X' & L' & V' & N'); auto.
          { intros z y Hz. unfold lookup in Hz. cbn [find fst] in Hz. destruct (Nat.eqb_spec z x) as [->|Ne].
            - injection Hz as <-. split; [exact N1|]. split; [exact (Nat.le_trans _ _ _ L0 F1')|]. exists v, v'. split; [eexists; exact Hx|]. auto.
            - destruct (HM z y Hz) as (Ny & Fy & u & u' & Eu & Epu & Ey). split; [exact Ny|]. split; [exact Fy|].
              exists u, u'. repeat split; auto. eapply agent_is_ext; eassumption. }
          { intros z Hz. apply HK. now right. }
          exists h', (snd b :: l'). split; [reflexivity|]. split; [exact S'|].
          split; [eapply ext_trans; eassumption|]. split; [lia|]. split.
          * constructor; [eapply agent_is_ext; eassumption|exact V'].
          * intros z [<-|Hz]; [split; [exact N1|exact (Nat.le_trans _ _ _ L0 F1')]|auto].
    Qed.

    (* and whatever they do, nothing private is touched or exposed *)
    Lemma copy_agents_safe l : forall memo h h' l', Safe h -> (forall x y, lookup x memo = Some y -> ~ K y) ->
      copy_agents D H pa memo h l = Some (h', l') ->
      Safe h' /\ ext h h' /\ length h <= length h' /\ (forall y, In y l' -> ~ K y).
    Proof.
      induction l as [|x r IH]; intros memo h h' l' HS HM E; cbn [copy_agents] in E.
      - injection E as <- <-. repeat split; auto using ext_refl; try apply HS; try (intros; contradiction).
      - destruct (lookup x memo) as [y|] eqn:El.
        + destruct (copy_agents D H pa memo h r) as [[h1 l1]|] eqn:Er; [|discriminate]. injection E as <- <-.
          destruct (IH memo h h1 l1 HS HM Er) as (A & B & C & E). repeat split; auto; try apply A.
          intros z [<-|Hz]; eauto.
        + destruct (Model_Runtime.read_agent D H (length h) h x) as [v|]; [|discriminate].
          destruct (pa v) as [v'|]; [|discriminate]. cbv zeta in E.
          destruct (build_agent_good K h0 K_old v' h HS) as (S1 & N1 & X1 & L1 & F1' & V1).
          set (b := build_agent D H h v') in *.
          destruct (copy_agents D H pa ((x, snd b) :: memo) (fst b) r) as [[h1 l1]|] eqn:Er; [|discriminate].
          injection E as <- <-.
          assert (HM' : forall z y, lookup z ((x, snd b) :: memo) = Some y -> ~ K y).
          { intros z y Hz. unfold lookup in Hz. cbn [find fst] in Hz. destruct (Nat.eqb_spec z x) as [->|Ne].
            - injection Hz as <-. exact N1.
            - exact (HM z y Hz). }
          destruct (IH _ (fst b) h1 l1 S1 HM' Er) as (A & B & C & E).
          split; [exact A|]. split; [eapply ext_trans; eassumption|]. split; [cbn; lia|].
          intros z [<-|Hz]; auto.
    Qed.
  End Copy.
End Scen.
