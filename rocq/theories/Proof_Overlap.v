(** Lemmas about finding and deleting overlapping agents. *)

From Coq Require Import String List Arith Lia Bool QArith Sorting.Sorted.
Import ListNotations.
From Verif Require Import Model_BenchRun Model_ScenGen Spec_ScenGen.
Local Open Scope nat_scope.
Local Open Scope list_scope.

Lemma name_eqb_eq a b : name_eqb a b = true <-> a = b.
Proof.
  unfold name_eqb. rewrite andb_true_iff, !Nat.eqb_eq. destruct a, b; cbn. split; [intros []; congruence|].
  intros H; injection H; auto.
Qed.

Lemma cget_cset d k v k' : cget (cset d k v) k' = if name_eqb k k' then Some v else cget d k'.
Proof.
  induction d as [|[j w] d IH]; cbn.
  - destruct (name_eqb k k'); reflexivity.
  - destruct (name_eqb j k) eqn:J.
    + apply name_eqb_eq in J. subst j. cbn. destruct (name_eqb k k'); reflexivity.
    + cbn. destruct (name_eqb j k') eqn:J2; [|exact IH].
      apply name_eqb_eq in J2. subst k'. destruct (name_eqb k j) eqn:K; [|reflexivity].
      apply name_eqb_eq in K. subst. rewrite (proj2 (name_eqb_eq j j) eq_refl) in J. discriminate.
Qed.

Lemma cset_in d k v k' l : In (k', l) (cset d k v) -> (k' = k /\ l = v) \/ In (k', l) d.
Proof.
  induction d as [|[j w] d IH]; cbn.
  - intros [H|[]]. injection H as <- <-. auto.
  - destruct (name_eqb j k) eqn:J; cbn.
    + intros [H|H]; [injection H as <- <-; auto|auto].
    + intros [H|H]; [injection H as <- <-; auto|]. destruct (IH H); auto.
Qed.

Lemma cget_in d k l : cget d k = Some l -> In (k, l) d.
Proof.
  induction d as [|[j w] d IH]; cbn; [discriminate|].
  destruct (name_eqb j k) eqn:J; intros H; [|right; auto].
  apply name_eqb_eq in J. injection H as <-. subst. auto.
Qed.

Lemma cset_keys d k v x : In x (map fst (cset d k v)) <-> x = k \/ In x (map fst d).
Proof.
  induction d as [|[j w] d IH]; cbn.
  - intuition congruence.
  - destruct (name_eqb j k) eqn:J; cbn.
    + apply name_eqb_eq in J. subst. intuition congruence.
    + rewrite IH. tauto.
Qed.

Lemma cset_nodup d k v : NoDup (map fst d) -> NoDup (map fst (cset d k v)).
Proof.
  induction d as [|[j w] d IH]; cbn; intros H.
  - repeat constructor; auto.
  - inversion H as [|? ? N1 N2]; subst. destruct (name_eqb j k) eqn:J; cbn.
    + apply name_eqb_eq in J. subst. constructor; assumption.
    + constructor; [|auto]. rewrite cset_keys. intros [E|E]; [|contradiction].
      subst. rewrite (proj2 (name_eqb_eq k k) eq_refl) in J. discriminate.
Qed.

Lemma nodup_cget d k l : NoDup (map fst d) -> In (k, l) d -> cget d k = Some l.
Proof.
  induction d as [|[j w] d IH]; cbn; [tauto|]. intros H [E|E].
  - injection E as -> ->. now rewrite (proj2 (name_eqb_eq k k) eq_refl).
  - inversion H as [|? ? N1 N2]; subst. destruct (name_eqb j k) eqn:J; [|auto].
    apply name_eqb_eq in J. subst. exfalso. apply N1. change k with (fst (k, l)). now apply in_map.
Qed.

(* ------------------------------------------------------------------ *)

Lemma names_of_in i : forall n j a, In a (names_of i j n) <-> fst a = i /\ j <= snd a < j + n.
Proof.
  induction n as [|n IH]; intros j a; cbn; [lia|]. rewrite IH. destruct a as [x y]; cbn. split.
  - intros [H|H]; [injection H; intros; subst; lia|lia].
  - intros [-> H]. destruct (Nat.eq_dec y j); [left; subst; reflexivity|right; lia].
Qed.

Section Find.
Context {St Geo : Type}.
Variables (l : list (list St * list Geo)) (bb collide : name -> name -> bool) (ov : name -> list name).

Lemma names_from_in : forall (l : list (list St * list Geo)) i a, In a (names_from i l) <->
  i <= fst a /\ exists sts gs, nth_error l (fst a - i) = Some (sts, gs) /\ snd a < length sts.
Proof.
  induction l0 as [|[sts gs] r IH]; intros i a; cbn.
  - split; [tauto|]. intros (_ & sts & gs & H & _). destruct (fst a - i); discriminate.
  - rewrite in_app_iff, names_of_in, IH. split.
    + intros [[H1 H2]|(H1 & s & g & H2 & H3)].
      * split; [lia|]. rewrite H1, Nat.sub_diag. cbn. eexists _, _; split; [reflexivity|lia].
      * split; [lia|]. replace (fst a - i) with (S (fst a - S i)) by lia. cbn. eauto.
    + intros (H1 & s & g & H2 & H3). destruct (Nat.eq_dec (fst a) i) as [E|N].
      * rewrite E, Nat.sub_diag in H2. cbn in H2. injection H2 as <- <-. left. lia.
      * right. split; [lia|]. replace (fst a - i) with (S (fst a - S i)) in H2 by lia. cbn in H2. eauto.
Qed.

Lemma names_in a : In a (names l) <-> exists_in l a.
Proof.
  unfold names, exists_in. rewrite names_from_in, Nat.sub_0_r. split; [tauto|]. intros H; split; [lia|exact H].
Qed.

(** Positions of sources do not decrease along the loop. *)
Lemma names_order : forall (l : list (list St * list Geo)) i pre a post o,
  names_from i l = pre ++ a :: post -> In o post -> fst a <= fst o.
Proof.
  assert (S1 : forall n i j, StronglySorted (fun a b : name => fst a <= fst b) (names_of i j n)).
  { induction n as [|n IH]; intros i j; cbn; constructor; auto. rewrite Forall_forall. intros x Hx.
    apply names_of_in in Hx. cbn. lia. }
  assert (S2 : forall (l : list (list St * list Geo)) i, StronglySorted (fun a b : name => fst a <= fst b) (names_from i l)).
  { induction l0 as [|[sts gs] r IH]; intros i; cbn; [constructor|].
    generalize (S1 (length sts) i 0). assert (A : forall x, In x (names_of i 0 (length sts)) -> fst x = i).
    { intros x Hx. apply names_of_in in Hx. lia. }
    induction (names_of i 0 (length sts)) as [|x m IHm]; intros Hs; cbn; [apply IH|].
    inversion Hs as [|? ? Hs1 Hs2]; subst. constructor; [apply IHm; [intros; apply A; now right|assumption]|].
    rewrite Forall_forall. intros y Hy. apply in_app_iff in Hy as [Hy|Hy].
    - rewrite Forall_forall in Hs2. auto.
    - apply names_from_in in Hy. rewrite (A x (or_introl eq_refl)). lia. }
  intros l0 i pre a post o E Ho. specialize (S2 l0 i). rewrite E in S2. clear E.
  induction pre as [|x pre IH]; cbn in S2; inversion S2 as [|? ? H1 H2]; subst.
  - rewrite Forall_forall in H2. auto.
  - auto.
Qed.

Hypothesis G : geometry_contract l bb collide ov.

Definition inv (d : coll) (D : name -> name -> Prop) : Prop :=
  NoDup (map fst d) /\
  (forall k m, In (k, m) d -> (fst k < snd k /\
      exists a o, exists_in l a /\ exists_in l o /\ fst a = fst k /\ fst o = snd k /\ bb a o = true) /\
     forall a o, In (a, o) m ->
     fst a = fst k /\ fst o = snd k /\ collide a o = true /\ exists_in l a /\ exists_in l o) /\
  (forall a o, D a o -> fst a < fst o -> exists m, cget d (fst a, fst o) = Some m /\ (collide a o = true -> In (a, o) m)).

Lemma inv_weaken d (D D' : name -> name -> Prop) : (forall a o, D' a o -> D a o) -> inv d D -> inv d D'.
Proof. intros S (I1 & I2 & I3). split; [exact I1|]. split; [exact I2|]. intros a o HD. apply I3. auto. Qed.

Lemma step_inv d D a o : inv d D -> exists_in l a -> In o (ov a) -> fst a <> fst o -> (fst o < fst a -> D o a) ->
  exists d', step_overlap collide d a o = Some d' /\ inv d' (fun x y => D x y \/ (x = a /\ y = o)).
Proof.
  destruct G as (Gb & Gc & Gcb & Go). intros (I1 & I2 & I3) Ha Ho Hne HD.
  assert (Ho' : exists_in l o) by (apply Go in Ho; tauto).
  unfold step_overlap. rewrite (proj2 (Nat.eqb_neq _ _) Hne). cbv zeta.
  destruct (Nat.lt_ge_cases (fst a) (fst o)) as [Lt|Ge].
  - (* forward *)
    assert (K2 : cget d (fst o, fst a) = None).
    { destruct (cget d (fst o, fst a)) as [m|] eqn:K; [|reflexivity]. apply cget_in, I2 in K as [[K _] _].
      cbn in K. lia. }
    assert (PK : pick_key d a o = (fst a, fst o)).
    { unfold pick_key. cbv zeta. rewrite K2. destruct (cget d (fst a, fst o)); reflexivity. }
    rewrite PK. set (pc := match cget d (fst a, fst o) with Some v => v | None => [] end).
    assert (HP : forall x y, In (x, y) pc -> fst x = fst a /\ fst y = fst o /\ collide x y = true /\ exists_in l x /\ exists_in l y).
    { unfold pc. destruct (cget d (fst a, fst o)) as [m|] eqn:K; [|intros ? ? []].
      apply cget_in, I2 in K as [_ K]. intros x y H. apply K in H. exact H. }
    assert (EX : existsb (fun c => name_eqb o (fst c)) pc = false).
    { apply not_true_is_false. rewrite existsb_exists. intros ([x y] & H & E). apply name_eqb_eq in E. cbn in E. subst.
      apply HP in H. lia. }
    rewrite EX.
    assert (KEEP : forall v, (forall x y, In (x, y) pc -> In (x, y) v) ->
       (forall x y, In (x, y) v -> fst x = fst a /\ fst y = fst o /\ collide x y = true /\ exists_in l x /\ exists_in l y) ->
       (collide a o = true -> In (a, o) v) ->
       inv (cset d (fst a, fst o) v) (fun x y => D x y \/ (x = a /\ y = o))).
    { intros v Hv1 Hv2 Hv3. split; [now apply cset_nodup|]. split.
      - intros k m H. apply cset_in in H as [[-> ->]|H]; [|auto]. cbn. split; [split; [assumption|]|exact Hv2]. exists a, o. apply Go in Ho. tauto.
      - intros x y [Hxy|[-> ->]] Lxy.
        + destruct (I3 x y Hxy Lxy) as (m & Hm & Hm2). rewrite cget_cset.
          destruct (name_eqb (fst a, fst o) (fst x, fst y)) eqn:K; [|eauto].
          exists v. split; [reflexivity|]. intros Hc. apply Hv1. unfold pc. apply name_eqb_eq in K.
          rewrite K, Hm. auto.
        + rewrite cget_cset, (proj2 (name_eqb_eq _ _) eq_refl). eauto. }
    destruct (collide a o) eqn:Cc; (eexists; split; [reflexivity|]); apply KEEP.
    + intros; apply in_or_app; auto.
    + intros x y H. apply in_app_iff in H as [H|[H|[]]]; [auto|]. injection H as <- <-. auto.
    + intros _. apply in_or_app. right. now left.
    + auto.
    + exact HP.
    + discriminate.
  - (* backward *)
    assert (Lt : fst o < fst a) by lia.
    destruct (I3 o a (HD Lt) Lt) as (m & Hm & Hm2).
    assert (K1 : cget d (fst a, fst o) = None).
    { destruct (cget d (fst a, fst o)) as [w|] eqn:K; [|reflexivity]. apply cget_in, I2 in K as [[K _] _].
      cbn in K. lia. }
    assert (PK : pick_key d a o = (fst o, fst a)).
    { unfold pick_key. cbv zeta. rewrite K1, Hm. reflexivity. }
    rewrite PK, Hm.
    assert (KEEP : inv (cset d (fst o, fst a) m) (fun x y => D x y \/ (x = a /\ y = o))).
    { split; [now apply cset_nodup|]. split.
      - intros k w H. apply cset_in in H as [[-> ->]|H]; [|auto]. apply cget_in in Hm. exact (I2 _ _ Hm).
      - intros x y [Hxy|[-> ->]] Lxy; [|lia].
        destruct (I3 x y Hxy Lxy) as (w & Hw & Hw2). rewrite cget_cset.
        destruct (name_eqb (fst o, fst a) (fst x, fst y)) eqn:K; [|eauto].
        apply name_eqb_eq in K. rewrite K in Hm. rewrite Hm in Hw. injection Hw as <-. eauto. }
    destruct (existsb _ m) eqn:EX; [eexists; split; [reflexivity|assumption]|].
    destruct (collide a o) eqn:Cc; [|eexists; split; [reflexivity|assumption]].
    exfalso. rewrite Gc in Cc. specialize (Hm2 Cc).
    assert (T : existsb (fun c => name_eqb o (fst c)) m = true).
    { apply existsb_exists. exists (o, a). split; [assumption|]. now apply name_eqb_eq. }
    congruence.
Qed.

Definition clean : Prop := forall a o, exists_in l a -> exists_in l o -> fst a = fst o -> bb a o = true -> a = o.

Lemma inner_inv a (D : name -> name -> Prop) : clean -> exists_in l a -> (forall o, In o (ov a) -> fst o < fst a -> D o a) ->
  forall os d, (forall o, In o os -> In o (ov a)) -> inv d D ->
  exists d', fold_opt (fun d o => step_overlap collide d a o) d os = Some d' /\
    inv d' (fun x y => D x y \/ (x = a /\ In y os)).
Proof.
  intros Hclean Ha HD os. revert D HD. induction os as [|o os IH]; intros D HD d Hos I; cbn.
  - exists d. split; [reflexivity|]. eapply inv_weaken; [|exact I]. intros ? ? [?|[_ []]]; auto.
  - assert (Ho : In o (ov a)) by (apply Hos; now left).
    destruct (Nat.eq_dec (fst a) (fst o)) as [E|N].
    + assert (EQ : a = o).
      { destruct G as (Gb & _ & _ & Go). apply Go in Ho as [Ho1 Ho2]. apply Hclean; assumption. }
      subst o. unfold step_overlap at 1. rewrite !Nat.eqb_refl.
      destruct (IH D HD d) as (d' & E1 & I1); [intros; apply Hos; now right|assumption|].
      exists d'. split; [exact E1|]. destruct I1 as (J1 & J2 & J3). split; [exact J1|]. split; [exact J2|].
      intros x y Hxy Lxy. destruct Hxy as [Hxy|[-> [Hy|Hy]]]; [apply J3; auto|subst; lia|apply J3; auto].
    + destruct (step_inv d D a o I Ha Ho N (HD o Ho)) as (d1 & E1 & I1). rewrite E1.
      destruct (IH (fun x y => D x y \/ (x = a /\ y = o))) with (d := d1) as (d' & E2 & I2).
      * intros o1 H1 H2. left. auto.
      * intros; apply Hos; now right.
      * exact I1.
      * exists d'. split; [exact E2|]. eapply inv_weaken; [|exact I2]. cbn.
        intros x y [?|[-> [?|?]]]; subst; auto.
Qed.

Lemma outer_inv : clean -> forall post pre d, names l = pre ++ post ->
  inv d (fun x y => In x pre /\ In y (ov x)) ->
  exists d', fold_opt (fun d a => fold_opt (fun d o => step_overlap collide d a o) d (ov a)) d post = Some d' /\
    inv d' (fun x y => In x (names l) /\ In y (ov x)).
Proof.
  intros Hclean. induction post as [|a post IH]; intros pre d E I; cbn.
  - exists d. split; [reflexivity|]. rewrite E, app_nil_r. exact I.
  - assert (Ha : exists_in l a) by (apply names_in; rewrite E; apply in_or_app; right; now left).
    destruct (inner_inv a (fun x y => In x pre /\ In y (ov x)) Hclean Ha) with (os := ov a) (d := d) as (d1 & E1 & I1).
    + intros o Ho Lo. destruct G as (Gb & _ & _ & Go).
      pose proof (proj1 (Go a o) Ho) as [Ho1 Ho2]. split.
      * assert (Hin : In o (names l)) by now apply names_in. rewrite E in Hin.
        apply in_app_iff in Hin as [Hin|[Hin|Hin]]; [assumption|subst; lia|].
        pose proof (names_order l 0 pre a post o E Hin). lia.
      * apply Go. split; [assumption|]. now rewrite Gb.
    + auto.
    + exact I.
    + rewrite E1. apply (IH (pre ++ [a])); [now rewrite <- app_assoc|].
      eapply inv_weaken; [|exact I1]. cbn. intros x y [Hx Hy]. apply in_app_iff in Hx as [Hx|[->|[]]]; auto.
Qed.

Lemma find_clean : clean -> exists d, find_overlaps collide ov l = Some d /\
  forall a o, recorded d a o <-> exists_in l a /\ exists_in l o /\ fst a < fst o /\ collide a o = true.
Proof.
  intros Hclean. destruct (outer_inv Hclean (names l) [] []) as (d & E & I1 & I2 & I3); [reflexivity| |].
  { split; [constructor|]. split; [intros ? ? []|]. intros ? ? [[] _]. }
  exists d. split; [exact E|]. intros a o. split.
  - intros (k & m & Hk & Hm). destruct (I2 k m Hk) as [[K1 K3] K2]. destruct (K2 a o Hm) as (A1 & A2 & A3 & A4 & A5).
    repeat split; auto. lia.
  - intros (Ha & Ho & Lt & Cc). destruct G as (Gb & _ & Gcb & Go).
    destruct (I3 a o) as (m & M1 & M2); [|assumption|].
    + split; [now apply names_in|]. apply Go. auto.
    + exists (fst a, fst o), m. split; [now apply cget_in|auto].
Qed.

(** Keys of the result are ordered pairs of sources, each once. *)
Lemma find_keys d : find_overlaps collide ov l = Some d -> clean ->
  NoDup (map fst d) /\ forall k m, In (k, m) d -> fst k < snd k /\
    (exists a o, exists_in l a /\ exists_in l o /\ fst a = fst k /\ fst o = snd k /\ bb a o = true) /\
    forall a o, In (a, o) m -> fst a = fst k /\ fst o = snd k.
Proof.
  intros Hf Hclean. destruct (outer_inv Hclean (names l) [] []) as (d' & E & I1 & I2 & I3); [reflexivity| |].
  { split; [constructor|]. split; [intros ? ? []|]. intros ? ? [[] _]. }
  unfold find_overlaps in Hf. rewrite E in Hf. injection Hf as ->. split; [exact I1|].
  intros k m Hk. destruct (I2 k m Hk) as [[K1 K3] K2]. split; [exact K1|]. split; [exact K3|]. intros a o Hao. destruct (K2 a o Hao). tauto.
Qed.

Lemma fold_opt_none {A B} (f : A -> B -> option A) b : (forall a, f a b = None) ->
  forall m a, In b m -> fold_opt f a m = None.
Proof.
  intros H. induction m as [|x m IH]; intros a Hb; [destruct Hb|]. destruct Hb as [->|Hm]; cbn; [now rewrite H|]. destruct (f a x); auto.
Qed.

Lemma find_none : find_overlaps collide ov l = None <->
  exists a o, exists_in l a /\ exists_in l o /\ fst a = fst o /\ a <> o /\ bb a o = true.
Proof.
  split.
  - intros H.
    assert (D : (exists a, In a (names l) /\ exists o, In o (ov a) /\ fst a = fst o /\ a <> o) \/
                ~ (exists a, In a (names l) /\ exists o, In o (ov a) /\ fst a = fst o /\ a <> o)).
    { induction (names l) as [|a r IHr].
      - right. intros (? & [] & _).
      - assert (Da : (exists o, In o (ov a) /\ fst a = fst o /\ a <> o) \/ ~ (exists o, In o (ov a) /\ fst a = fst o /\ a <> o)).
        { induction (ov a) as [|o os IHo]; [right; intros (? & [] & _)|].
          destruct (Nat.eq_dec (fst a) (fst o)) as [E|N].
          - destruct (name_eqb a o) eqn:Q.
            + apply name_eqb_eq in Q. destruct IHo as [(y & Hy1 & Hy2)|IHo].
              * left. exists y. split; [now right|assumption].
              * right. intros (y & [Hy|Hy] & H1 & H2); [congruence|]. apply IHo. eauto.
            + left. exists o. split; [now left|]. split; [assumption|]. intros ->.
              rewrite (proj2 (name_eqb_eq o o) eq_refl) in Q. discriminate.
          - destruct IHo as [(y & Hy1 & Hy2)|IHo].
            + left. exists y. split; [now right|assumption].
            + right. intros (y & [Hy|Hy] & H1 & H2); [congruence|]. apply IHo. eauto. }
        destruct Da as [Da|Da]; [left; exists a; split; [now left|exact Da]|].
        destruct IHr as [(x & Hx1 & Hx2)|IHr]; [left; exists x; split; [now right|exact Hx2]|].
        right. intros (x & [<-|Hx] & Hx2); [auto|]. apply IHr. eauto. }
    destruct D as [(a & Ha & o & Ho & E & N)|D].
    + exists a, o. destruct G as (_ & _ & _ & Go). apply Go in Ho as [Ho1 Ho2]. rewrite <- names_in. auto.
    + assert (Hclean : clean).
      { intros a o Ha Ho E B. destruct (name_eqb a o) eqn:Q; [now apply name_eqb_eq|]. exfalso. apply D.
        exists a. split; [now apply names_in|]. exists o. destruct G as (_ & _ & _ & Go). split; [apply Go; auto|].
        split; [assumption|]. intros ->. rewrite (proj2 (name_eqb_eq o o) eq_refl) in Q. discriminate. }
      destruct (find_clean Hclean) as (d & Hd & _). congruence.
  - intros (a & o & Ha & Ho & E & N & B). unfold find_overlaps.
    apply fold_opt_none with (b := a); [|now apply names_in].
    intros d. apply fold_opt_none with (b := o).
    + intros d0. unfold step_overlap. rewrite E, Nat.eqb_refl. destruct (snd a =? snd o) eqn:S2; [|reflexivity].
      apply Nat.eqb_eq in S2. destruct a, o; cbn in *. congruence.
    + destruct G as (_ & _ & _ & Go). apply Go. auto.
Qed.
End Find.

(* ------------------------------------------------------------------ *)

Definition marked (d : dels) (a : name) : Prop := In (snd a) (dels_get d (fst a)).

Lemma dels_get_put d k v k' : dels_get (dels_put d k v) k' = if k =? k' then v else dels_get d k'.
Proof.
  induction d as [|[j w] d IH]; cbn.
  - destruct (k =? k'); reflexivity.
  - destruct (j =? k) eqn:J.
    + apply Nat.eqb_eq in J. subst. cbn. destruct (k =? k'); reflexivity.
    + cbn. destruct (j =? k') eqn:J2; [|exact IH]. apply Nat.eqb_eq in J2. subst.
      rewrite Nat.eqb_sym, J. reflexivity.
Qed.

Lemma dels_put_keys d k v x : In x (map fst (dels_put d k v)) <-> x = k \/ In x (map fst d).
Proof.
  induction d as [|[j w] d IH]; cbn.
  - intuition congruence.
  - destruct (j =? k) eqn:J; cbn.
    + apply Nat.eqb_eq in J. subst. intuition congruence.
    + rewrite IH. tauto.
Qed.

Definition okdels (d : dels) : Prop := NoDup (map fst d) /\ forall k, NoDup (dels_get d k).

Lemma dels_put_nodup d k v : NoDup (map fst d) -> NoDup (map fst (dels_put d k v)).
Proof.
  induction d as [|[j w] d IH]; cbn; intros H.
  - repeat constructor; auto.
  - inversion H as [|? ? N1 N2]; subst. destruct (j =? k) eqn:J; cbn.
    + apply Nat.eqb_eq in J. subst. constructor; assumption.
    + constructor; [|auto]. rewrite dels_put_keys. intros [E|E]; [|contradiction].
      subst. rewrite Nat.eqb_refl in J. discriminate.
Qed.


Lemma NoDup_snoc {A} (l : list A) x : NoDup l -> ~ In x l -> NoDup (l ++ [x]).
Proof.
  induction l as [|y l IH]; cbn; intros H N; [repeat constructor; auto|].
  inversion H as [|? ? N1 N2]; subst. constructor.
  - rewrite in_app_iff. cbn. intros [?|[?|[]]]; [auto|subst; apply N; auto].
  - apply IH; auto.
Qed.

Lemma mark_ok d a : okdels d -> okdels (mark d a) /\ forall x, marked (mark d a) x <-> marked d x \/ x = a.
Proof.
  intros [N1 N2]. unfold mark, marked. cbv zeta.
  destruct (existsb (Nat.eqb (snd a)) (dels_get d (fst a))) eqn:X.
  - apply existsb_exists in X as (y & Hy & Ey). apply Nat.eqb_eq in Ey. subst y. split.
    + split; [now apply dels_put_nodup|]. intros k. rewrite dels_get_put. destruct (fst a =? k); auto.
    + intros x. rewrite dels_get_put. destruct (fst a =? fst x) eqn:E.
      * apply Nat.eqb_eq in E. rewrite E. split; [auto|]. intros [H|H]; [auto|]. subst x. exact Hy.
      * split; [auto|]. intros [H|H]; [auto|]. subst. rewrite Nat.eqb_refl in E. discriminate.
  - assert (Nin : ~ In (snd a) (dels_get d (fst a))).
    { intros H. assert (T : existsb (Nat.eqb (snd a)) (dels_get d (fst a)) = true); [|congruence].
      apply existsb_exists. exists (snd a). split; [assumption|apply Nat.eqb_refl]. }
    split.
    + split; [now apply dels_put_nodup|]. intros k. rewrite dels_get_put. destruct (fst a =? k); auto.
      apply NoDup_snoc; auto.
    + intros x. rewrite dels_get_put. destruct (fst a =? fst x) eqn:E.
      * apply Nat.eqb_eq in E. rewrite in_app_iff, E. cbn. split.
        -- intros [H|[H|[]]]; [auto|right]. destruct a, x; cbn in *; congruence.
        -- intros [H|H]; [auto|]. subst. auto.
      * split; [auto|]. intros [H|H]; [auto|]. subst. rewrite Nat.eqb_refl in E. discriminate.
Qed.

Lemma mark_pair_ok r1 r2 s d c : okdels d -> okdels (mark_pair r1 r2 s d c) /\
  (forall x, marked d x -> marked (mark_pair r1 r2 s d c) x) /\
  (forall x, marked (mark_pair r1 r2 s d c) x -> marked d x \/ x = fst c \/ x = snd c) /\
  (marked (mark_pair r1 r2 s d c) (fst c) \/ marked (mark_pair r1 r2 s d c) (snd c)).
Proof.
  intros O. unfold mark_pair. destruct (_ && _).
  - destruct (mark_ok d (fst c) O) as [O1 M1]. split; [assumption|]. repeat split; intros; rewrite ?M1 in *; intuition.
  - destruct (_ && _).
    + destruct (mark_ok d (snd c) O) as [O1 M1]. split; [assumption|]. repeat split; intros; rewrite ?M1 in *; intuition.
    + destruct (mark_ok d (fst c) O) as [O1 M1]. destruct (mark_ok _ (snd c) O1) as [O2 M2].
      split; [assumption|]. repeat split; intros; rewrite ?M2, ?M1 in *; intuition.
Qed.

Lemma mark_all_ok r1 r2 smp : forall m k d, okdels d ->
  let d' := snd (mark_all r1 r2 smp k d m) in okdels d' /\
  (forall x, marked d x -> marked d' x) /\
  (forall x, marked d' x -> marked d x \/ exists c, In c m /\ (x = fst c \/ x = snd c)) /\
  (forall c, In c m -> marked d' (fst c) \/ marked d' (snd c)).
Proof.
  induction m as [|c m IH]; intros k d O; cbn.
  - repeat split; try apply O; auto. intros ? [].
  - destruct (mark_pair_ok r1 r2 (smp k) d c O) as (O1 & A1 & B1 & C1).
    destruct (IH (S k) _ O1) as (O2 & A2 & B2 & C2). split; [assumption|]. split; [auto|]. split.
    + intros x Hx. destruct (B2 x Hx) as [H|(c' & Hc & H)]; [|eauto 6].
      destruct (B1 x H) as [|H']; [auto|]. right. exists c. auto.
    + intros c' [<-|Hc]; [|auto]. destruct C1; auto.
Qed.

Lemma mark_keys_ok descs rs smp : forall cs k d d', okdels d ->
  mark_keys descs rs smp k d cs = inl d' -> okdels d' /\
  (forall x, marked d x -> marked d' x) /\
  (forall x, marked d' x -> marked d x \/ exists a o, recorded cs a o /\ (x = a \/ x = o)) /\
  (forall a o, recorded cs a o -> marked d' a \/ marked d' o).
Proof.
  induction cs as [|[[i j] m] cs IH]; intros k d d' O H; cbn [mark_keys] in H.
  - injection H as <-. repeat split; try apply O; auto. intros a o (? & ? & [] & _).
  - destruct (nth_error descs i) as [di|]; [|discriminate]. destruct (nth_error descs j) as [dj|]; [|discriminate].
    destruct (parse_resolution rs di dj) as [[[r1 r2] [|]]|]; try discriminate. cbv zeta in H.
    destruct (mark_all_ok r1 r2 smp m k d O) as (O1 & A1 & B1 & C1).
    destruct (IH _ _ _ O1 H) as (O2 & A2 & B2 & C2). split; [assumption|]. split; [auto|]. split.
    + intros x Hx. destruct (B2 x Hx) as [Hx1|(a & o & (k0 & m0 & Hk & Hm) & Hx1)].
      * destruct (B1 x Hx1) as [|([a o] & Hc & Hx2)]; [auto|]. right. exists a, o. split; [|exact Hx2].
        exists (i, j), m. split; [now left|assumption].
      * right. exists a, o. split; [|assumption]. exists k0, m0. split; [now right|assumption].
    + intros a o (k0 & m0 & [Hk|Hk] & Hm).
      * injection Hk as <- <-. destruct (C1 _ Hm); auto.
      * apply C2. exists k0, m0. auto.
Qed.

(* ------------------------------------------------------------------ *)

Lemma keep_from_ext {A} (l : list A) : forall i p q, (forall j, i <= j -> p j = q j) -> keep_from i p l = keep_from i q l.
Proof.
  induction l as [|x l IH]; intros i p q H; cbn; [reflexivity|]. rewrite (H i) by lia. f_equal.
  apply IH. intros; apply H; lia.
Qed.

Lemma keep_all {A} (l : list A) : forall i p, (forall j, i <= j -> p j = true) -> keep_from i p l = l.
Proof.
  induction l as [|x l IH]; intros i p H; cbn; [reflexivity|]. rewrite (H i) by lia. cbn. f_equal.
  apply IH. intros; apply H; lia.
Qed.

Lemma del_keep {A} (l : list A) : forall i j0 p l', (forall j, j0 + i <= j -> p j = true) ->
  del_at l i = inl l' -> keep_from j0 p l' = keep_from j0 (fun j => p j && negb (j =? j0 + i)) l /\ i < length l.
Proof.
  induction l as [|x l IH]; intros [|i] j0 p l' H D; cbn in D; try discriminate.
  - injection D as <-. cbn. rewrite Nat.add_0_r, Nat.eqb_refl, andb_false_r. cbn. split; [|lia].
    rewrite !keep_all; auto.
    + intros j Hj. rewrite H by lia. cbn. apply negb_true_iff, Nat.eqb_neq. lia.
    + intros j Hj. apply H. lia.
  - destruct (del_at l i) as [r|] eqn:E; [|discriminate]. injection D as <-.
    destruct (IH i (S j0) p r) as [K L]; [intros; apply H; lia|assumption|]. cbn [keep_from length]. split; [|lia].
    rewrite K. replace (j0 =? j0 + S i) with false by (symmetry; apply Nat.eqb_neq; lia).
    cbn [negb]. rewrite andb_true_r. f_equal. apply keep_from_ext. intros j Hj. do 2 f_equal. f_equal. lia.
Qed.

Lemma insert_desc_in x l y : In y (insert_desc x l) <-> y = x \/ In y l.
Proof.
  induction l as [|z l IH]; cbn; [intuition|]. destruct (z <=? x); cbn; [intuition|]. rewrite IH. intuition.
Qed.

Lemma sort_desc_in l y : In y (sort_desc l) <-> In y l.
Proof. unfold sort_desc. induction l as [|x l IH]; cbn; [tauto|]. rewrite insert_desc_in, IH. intuition. Qed.

Lemma insert_desc_sorted x l : StronglySorted gt l -> ~ In x l -> StronglySorted gt (insert_desc x l).
Proof.
  induction l as [|z l IH]; cbn; intros H N; [repeat constructor|]. inversion H as [|? ? H1 H2]; subst.
  destruct (z <=? x) eqn:Z.
  - apply Nat.leb_le in Z. constructor; [assumption|]. rewrite Forall_forall in *. intros y [<-|Hy].
    + assert (z <> x) by (intros ->; apply N; auto). lia.
    + specialize (H2 y Hy). lia.
  - apply Nat.leb_gt in Z. constructor; [apply IH; auto|]. rewrite Forall_forall in *. intros y Hy.
    apply insert_desc_in in Hy as [->|Hy]; [lia|auto].
Qed.

Lemma sort_desc_sorted l : NoDup l -> StronglySorted gt (sort_desc l).
Proof.
  induction 1 as [|x l N H IH]; cbn; [constructor|]. apply insert_desc_sorted; [exact IH|].
  change (fold_right insert_desc [] l) with (sort_desc l). now rewrite sort_desc_in.
Qed.

Section Del.
Context {St Geo : Type}.

Lemma del_both_ok : forall is_ (sts : list St) (gs : list Geo) x, StronglySorted gt is_ ->
  del_both sts gs is_ = inl x ->
  x = (keep (fun j => negb (existsb (Nat.eqb j) is_)) sts, keep (fun j => negb (existsb (Nat.eqb j) is_)) gs).
Proof.
  induction is_ as [|i r IH]; intros sts gs x H D; cbn [del_both] in D.
  - injection D as <-. unfold keep. rewrite !keep_all; auto.
  - destruct (del_at sts i) as [s1|] eqn:E1; [|discriminate].
    destruct (del_at gs i) as [g1|] eqn:E2; [|discriminate].
    inversion H as [|? ? H1 H2]; subst. rewrite (IH _ _ _ H1 D).
    assert (P : forall j, 0 + i <= j -> negb (existsb (Nat.eqb j) r) = true).
    { intros j Hj. apply negb_true_iff, not_true_is_false. rewrite existsb_exists. intros (y & Hy & Ey).
      apply Nat.eqb_eq in Ey. subst. rewrite Forall_forall in H2. specialize (H2 y Hy). lia. }
    unfold keep. destruct (del_keep _ _ _ _ _ P E1) as [-> _]. destruct (del_keep _ _ _ _ _ P E2) as [-> _].
    f_equal; apply keep_from_ext; intros j _; cbn; rewrite negb_orb; apply andb_comm.
Qed.

Lemma nth_replace {A} : forall (l : list A) i x j, nth_error (replace_nth l i x) j =
  if (i =? j) then match nth_error l i with Some _ => Some x | None => None end else nth_error l j.
Proof.
  induction l as [|y l IH]; intros [|i] x [|j]; cbn; auto.
  - destruct (i =? j); reflexivity.
Qed.

Lemma replace_len {A} : forall (l : list A) i x, length (replace_nth l i x) = length l.
Proof. induction l as [|y l IH]; intros [|i] x; cbn; auto. Qed.

Lemma apply_dels_ok : forall d (l l' : list (list St * list Geo)), okdels d -> apply_dels l d = inl l' ->
  without (fun a => existsb (Nat.eqb (snd a)) (dels_get d (fst a))) l l'.
Proof.
  induction d as [|[i is_] d IH]; intros l l' O H; cbn [apply_dels] in H.
  - injection H as <-. split; [reflexivity|]. intros i sts gs E. rewrite E. unfold keep. cbn.
    rewrite !keep_all; auto.
  - destruct (nth_error l i) as [[sts0 gs0]|] eqn:E; [|discriminate].
    destruct (del_both sts0 gs0 (sort_desc is_)) as [x|] eqn:Ex; [|discriminate].
    destruct O as [O1 O2]. cbn in O1. inversion O1 as [|? ? N1 N2]; subst.
    assert (Hno : forall (d0 : dels) k, ~ In k (map fst d0) -> dels_get d0 k = []).
    { induction d0 as [|[j w] d0 IH0]; cbn; intros k Hk; [reflexivity|].
      destruct (j =? k) eqn:J; [apply Nat.eqb_eq in J; tauto|]. apply IH0. tauto. }
    assert (Od : okdels d).
    { split; [assumption|]. intros k. destruct (Nat.eq_dec k i) as [->|Nk].
      - rewrite (Hno d i N1). constructor.
      - specialize (O2 k). cbn in O2. replace (i =? k) with false in O2; [exact O2|]. symmetry. apply Nat.eqb_neq. lia. }
    destruct (IH _ _ Od H) as [L W]. rewrite replace_len in L. split; [assumption|].
    intros k sts gs Ek.
    assert (Si : NoDup is_) by (specialize (O2 i); cbn in O2; now rewrite Nat.eqb_refl in O2).
    apply del_both_ok in Ex; [|now apply sort_desc_sorted].
    destruct (Nat.eq_dec k i) as [->|Nk].
    + rewrite E in Ek. injection Ek as <- <-.
      specialize (W i (fst x) (snd x)). rewrite nth_replace, Nat.eqb_refl, E in W.
      rewrite W by now destruct x. rewrite Ex. cbn [fst snd]. rewrite (Hno d i N1). cbn.
      unfold keep. rewrite !(keep_all _ _ (fun _ => negb false)) by auto. rewrite Nat.eqb_refl.
      assert (EQ : forall j, existsb (Nat.eqb j) (sort_desc is_) = existsb (Nat.eqb j) is_).
      { intros j. apply eq_iff_eq_true. rewrite !existsb_exists. split; intros (y & Hy & Ey); exists y; split; auto; now apply sort_desc_in. }
      do 2 f_equal; apply keep_from_ext; intros; now rewrite EQ.
    + specialize (W k sts gs). rewrite nth_replace in W. replace (i =? k) with false in W by (symmetry; apply Nat.eqb_neq; lia).
      rewrite (W Ek). cbn. replace (i =? k) with false by (symmetry; apply Nat.eqb_neq; lia). reflexivity.
Qed.

Lemma delete_ok descs rs smp (l l' : list (list St * list Geo)) cs :
  delete_overlaps descs rs smp l cs = inl l' ->
  exists gone, without gone l l' /\
    (forall a o, recorded cs a o -> gone a = true \/ gone o = true) /\
    (forall x, gone x = true -> exists a o, recorded cs a o /\ (x = a \/ x = o)).
Proof.
  unfold delete_overlaps. destruct (mark_keys descs rs smp 0 [] cs) as [d|] eqn:M; [|discriminate]. intros H.
  apply mark_keys_ok in M as (O & _ & B1 & C1); [|split; [constructor|intros; constructor]].
  exists (fun a => existsb (Nat.eqb (snd a)) (dels_get d (fst a))).
  assert (EQ : forall a, existsb (Nat.eqb (snd a)) (dels_get d (fst a)) = true <-> marked d a).
  { intros a. rewrite existsb_exists. unfold marked. split.
    - intros (y & Hy & Ey). apply Nat.eqb_eq in Ey. now subst.
    - intros Hy. exists (snd a). split; [assumption|apply Nat.eqb_refl]. }
  split; [now apply apply_dels_ok|]. split.
  - intros a o R0. destruct (C1 a o R0) as [Hm|Hm]; [left|right]; now apply EQ.
  - intros x Hx. apply EQ in Hx. destruct (B1 x Hx) as [[]|]; auto.
Qed.

(** Deletion succeeds on agents that exist. *)
Lemma del_at_some {A} : forall (l : list A) i, i < length l -> exists l', del_at l i = inl l' /\ length l' = length l - 1.
Proof.
  induction l as [|x l IH]; intros [|i] H; cbn in *; try lia.
  - eexists; split; [reflexivity|lia].
  - destruct (IH i) as (r & -> & L); [lia|]. eexists; split; [reflexivity|]. cbn. lia.
Qed.

Lemma del_both_some : forall is_ (sts : list St) (gs : list Geo), StronglySorted gt is_ -> length gs = length sts ->
  (forall i, In i is_ -> i < length sts) -> exists x, del_both sts gs is_ = inl x.
Proof.
  induction is_ as [|i r IH]; intros sts gs H L B; cbn [del_both]; [eauto|].
  destruct (del_at_some sts i) as (s1 & -> & L1); [apply B; now left|].
  destruct (del_at_some gs i) as (g1 & -> & L2); [rewrite L; apply B; now left|].
  inversion H as [|? ? H1 H2]; subst. apply IH; [assumption|lia|].
  intros j Hj. rewrite Forall_forall in H2. specialize (H2 j Hj). specialize (B i (or_introl eq_refl)). lia.
Qed.

Lemma apply_dels_some : forall d (l : list (list St * list Geo)), okdels d ->
  (forall i sts gs, nth_error l i = Some (sts, gs) -> length gs = length sts) ->
  (forall i, In i (map fst d) -> exists x, nth_error l i = Some x) ->
  (forall a, marked d a -> exists_in l a) -> exists l', apply_dels l d = inl l'.
Proof.
  induction d as [|[i is_] d IH]; intros l O L K X; cbn [apply_dels]; [eauto|].
  destruct (K i (or_introl eq_refl)) as ([sts gs] & E). rewrite E.
  destruct O as [O1 O2]. cbn in O1. inversion O1 as [|? ? N1 N2]; subst.
  assert (Si : NoDup is_) by (specialize (O2 i); cbn in O2; now rewrite Nat.eqb_refl in O2).
  destruct (del_both_some (sort_desc is_) sts gs) as (x & Ex).
  - now apply sort_desc_sorted.
  - eauto.
  - intros j Hj. apply (proj1 (sort_desc_in _ _)) in Hj. destruct (X (i, j)) as (s1 & g1 & E1 & L1).
    + unfold marked. cbn [fst snd dels_get]. rewrite Nat.eqb_refl. exact Hj.
    + cbn in *. congruence.
  - rewrite Ex. assert (Hno : forall (d0 : dels) k, ~ In k (map fst d0) -> dels_get d0 k = []).
    { induction d0 as [|[j w] d0 IH0]; cbn; intros k Hk; [reflexivity|].
      destruct (j =? k) eqn:J; [apply Nat.eqb_eq in J; tauto|]. apply IH0. tauto. }
    apply IH.
    + split; [assumption|]. intros k. destruct (Nat.eq_dec k i) as [->|Nk].
      * rewrite (Hno d i N1). constructor.
      * specialize (O2 k). cbn in O2. replace (i =? k) with false in O2; [exact O2|]. symmetry. apply Nat.eqb_neq. lia.
    + intros k s1 g1 E1. rewrite nth_replace in E1. destruct (i =? k) eqn:Ik; [|eauto].
      rewrite E in E1. injection E1 as E1. rewrite (del_both_ok _ _ _ _ (sort_desc_sorted _ Si) Ex) in E1.
      injection E1 as <- <-. unfold keep. specialize (L i sts gs E). revert L. clear.
      generalize (fun j => negb (existsb (Nat.eqb j) (sort_desc is_))). generalize 0. revert gs.
      induction sts as [|s sts IH]; intros [|g gs] n p L; cbn in *; try discriminate; [reflexivity|].
      rewrite !app_length. rewrite (IH gs) by lia. destruct (p n); reflexivity.
    + intros k Hk. destruct (K k (or_intror Hk)) as (y & Ey). rewrite nth_replace.
      destruct (i =? k) eqn:Ik; [|eauto]. rewrite E. eauto.
    + intros a Ha. unfold marked in Ha. destruct (Nat.eq_dec (fst a) i) as [Ei|Ni].
      * rewrite Ei, (Hno d i N1) in Ha. destruct Ha.
      * destruct (X a) as (s1 & g1 & E1 & L1).
        { unfold marked. cbn. replace (i =? fst a) with false; [exact Ha|]. symmetry. apply Nat.eqb_neq. lia. }
        exists s1, g1. rewrite nth_replace. replace (i =? fst a) with false by (symmetry; apply Nat.eqb_neq; lia). auto.
Qed.
End Del.

Lemma mark_keys_some descs rs smp : forall cs k d,
  (forall i j m, In ((i, j), m) cs -> exists di dj r1 r2, nth_error descs i = Some di /\ nth_error descs j = Some dj /\
     parse_resolution rs di dj = inl (r1, r2, true)) ->
  exists d', mark_keys descs rs smp k d cs = inl d'.
Proof.
  induction cs as [|[[i j] m] cs IH]; intros k d H; cbn [mark_keys]; [eauto|].
  destruct (H i j m (or_introl eq_refl)) as (di & dj & r1 & r2 & -> & -> & ->). cbv zeta. apply IH.
  intros; eapply H. right; eassumption.
Qed.

(** Keys of must_delete name sources of recorded agents. *)
Lemma mark_keyset d a x : In x (map fst (mark d a)) -> In x (map fst d) \/ x = fst a.
Proof. unfold mark. cbv zeta. destruct (existsb _ _); rewrite dels_put_keys; tauto. Qed.

Lemma mark_pair_keyset r1 r2 s d c x : In x (map fst (mark_pair r1 r2 s d c)) ->
  In x (map fst d) \/ x = fst (fst c) \/ x = fst (snd c).
Proof.
  unfold mark_pair. destruct (_ && _); [intros Hx; apply mark_keyset in Hx; tauto|].
  destruct (_ && _); [intros Hx; apply mark_keyset in Hx; tauto|].
  intros Hx. apply mark_keyset in Hx as [Hx|Hx]; [apply mark_keyset in Hx; tauto|tauto].
Qed.

Lemma mark_all_keyset r1 r2 smp x : forall m k d, In x (map fst (snd (mark_all r1 r2 smp k d m))) ->
  In x (map fst d) \/ exists c, In c m /\ (x = fst (fst c) \/ x = fst (snd c)).
Proof.
  induction m as [|c m IH]; intros k d H; cbn in *; [auto|].
  destruct (IH _ _ H) as [H1|(c' & Hc & H1)]; [|eauto 6].
  destruct (mark_pair_keyset _ _ _ _ _ _ H1) as [|H2]; [auto|]. right. exists c. auto.
Qed.

Lemma mark_keys_keyset descs rs smp x : forall cs k d d', mark_keys descs rs smp k d cs = inl d' ->
  In x (map fst d') -> In x (map fst d) \/ exists a o, recorded cs a o /\ (x = fst a \/ x = fst o).
Proof.
  induction cs as [|[[i j] m] cs IH]; intros k d d' H Hx; cbn [mark_keys] in H.
  - injection H as <-. auto.
  - destruct (nth_error descs i); [|discriminate]. destruct (nth_error descs j); [|discriminate].
    destruct (parse_resolution _ _ _) as [[[r1 r2] [|]]|]; try discriminate. cbv zeta in H.
    destruct (IH _ _ _ H Hx) as [H1|(a & o & (k0 & m0 & Hk & Hm) & H1)].
    + destruct (mark_all_keyset _ _ _ _ _ _ _ H1) as [|([a o] & Hc & H2)]; [auto|].
      right. exists a, o. split; [|exact H2]. exists (i, j), m. split; [now left|assumption].
    + right. exists a, o. split; [|assumption]. exists k0, m0. split; [now right|assumption].
Qed.
