From Coq Require Import List NArith Bool Sorted Lia Permutation.
From Verif Require Import Model_Map.
Import ListNotations.
Local Open Scope N_scope.

Section Map.
  Context {V : Type}.
  Implicit Types (m : kmap V) (k : N) (v : V).

  Lemma m_find_In k v m : m_find k m = Some v -> In (k, v) m.
  Proof.
    induction m as [|[k' v'] r IH]; cbn; [discriminate|].
    destruct (N.eqb_spec k k') as [->|Hne]; intros H.
    - inversion H; subst; now left.
    - right; auto.
  Qed.

  Lemma m_find_None_notin k m : m_find k m = None <-> ~ In k (map fst m).
  Proof.
    induction m as [|[k' v'] r IH]; cbn; [tauto|].
    destruct (N.eqb_spec k k') as [->|Hne].
    - split; [discriminate|]. intros H; exfalso; apply H; now left.
    - rewrite IH. split; intros H; [intros [E|E]; [congruence|auto]|auto].
  Qed.

  Lemma sorted_tail p m : m_sorted (p :: m) -> m_sorted m.
  Proof. intros H; inversion H; auto. Qed.

  Lemma sorted_head_lt k v m : m_sorted ((k, v) :: m) -> forall q, In q m -> k < fst q.
  Proof.
    intros H q Hq; inversion H as [|? ? ? HF]; subst.
    rewrite Forall_forall in HF. exact (HF q Hq).
  Qed.

  Lemma m_sorted_NoDup m : m_sorted m -> NoDup (map fst m).
  Proof.
    induction m as [|[k v] r IH]; intros H; cbn; constructor.
    - intros Hin. apply in_map_iff in Hin as [q [E Hq]].
      pose proof (sorted_head_lt _ _ _ H q Hq) as L. cbn in *; lia.
    - apply IH; eapply sorted_tail; eauto.
  Qed.

  Lemma In_m_find k v m : NoDup (map fst m) -> In (k, v) m -> m_find k m = Some v.
  Proof.
    induction m as [|[k' v'] r IH]; cbn; [tauto|].
    intros HN [E|Hin]; inversion HN as [|? ? Hnot HN']; subst.
    - inversion E; subst. now rewrite N.eqb_refl.
    - destruct (N.eqb_spec k k') as [->|Hne]; [|auto].
      exfalso; apply Hnot. apply in_map_iff. exists (k', v); auto.
  Qed.

  Lemma m_find_iff k v m : m_sorted m -> (m_find k m = Some v <-> In (k, v) m).
  Proof.
    intros Hs; split; [apply m_find_In|apply In_m_find, m_sorted_NoDup, Hs].
  Qed.

  Lemma m_find_insert_same k v m : m_find k (m_insert k v m) = Some v.
  Proof.
    induction m as [|[k' v'] r IH]; cbn.
    - now rewrite N.eqb_refl.
    - destruct (k <? k') eqn:L; cbn; [now rewrite N.eqb_refl|].
      destruct (k =? k') eqn:E; cbn; [now rewrite N.eqb_refl|]. now rewrite E.
  Qed.

  Lemma m_find_insert_other k k2 v m : k2 <> k -> m_find k2 (m_insert k v m) = m_find k2 m.
  Proof.
    intros Hne; induction m as [|[k' v'] r IH]; cbn.
    - destruct (N.eqb_spec k2 k); [congruence|reflexivity].
    - destruct (k <? k') eqn:L; cbn.
      + destruct (N.eqb_spec k2 k); [congruence|reflexivity].
      + destruct (N.eqb_spec k k') as [->|Hkk]; cbn.
        * destruct (N.eqb_spec k2 k'); [congruence|reflexivity].
        * now rewrite IH.
  Qed.

  Lemma m_insert_In_keys k v m q : In q (m_insert k v m) -> q = (k, v) \/ In q m.
  Proof.
    induction m as [|[k' v'] r IH]; cbn; [intros [H|[]]; auto|].
    destruct (k <? k'); cbn; [intros [H|H]; auto|].
    destruct (k =? k'); cbn; intros [H|H]; auto.
    destruct (IH H); auto.
  Qed.

  Lemma m_insert_sorted k v m : m_sorted m -> m_sorted (m_insert k v m).
  Proof.
    induction m as [|[k' v'] r IH]; cbn; intros H.
    - repeat constructor.
    - destruct (N.ltb_spec k k') as [L|L].
      + constructor; [exact H|]. apply Forall_forall. intros q [<-|Hq]; cbn; [lia|].
        pose proof (sorted_head_lt _ _ _ H q Hq); lia.
      + destruct (N.eqb_spec k k') as [->|Hne].
        * constructor; [eapply sorted_tail; eauto|]. apply Forall_forall.
          intros q Hq; exact (sorted_head_lt _ _ _ H q Hq).
        * constructor; [apply IH; eapply sorted_tail; eauto|]. apply Forall_forall.
          intros q Hq. apply m_insert_In_keys in Hq as [->|Hq]; cbn; [lia|].
          exact (sorted_head_lt _ _ _ H q Hq).
  Qed.

  Lemma m_find_erase_same k m : m_find k (m_erase k m) = None.
  Proof.
    unfold m_erase; induction m as [|[k' v'] r IH]; cbn; [reflexivity|].
    destruct (N.eqb_spec k' k) as [->|Hne]; cbn; [exact IH|].
    destruct (N.eqb_spec k k'); [congruence|exact IH].
  Qed.

  Lemma m_find_erase_other k k2 m : k2 <> k -> m_find k2 (m_erase k m) = m_find k2 m.
  Proof.
    intros Hne; unfold m_erase; induction m as [|[k' v'] r IH]; cbn; [reflexivity|].
    destruct (N.eqb_spec k' k) as [->|Hk]; cbn.
    - destruct (N.eqb_spec k2 k); [congruence|exact IH].
    - destruct (N.eqb_spec k2 k'); [reflexivity|exact IH].
  Qed.

  Lemma m_filter_sorted (f : N * V -> bool) m : m_sorted m -> m_sorted (filter f m).
  Proof.
    induction m as [|p r IH]; cbn; intros H; [constructor|].
    inversion H as [|? ? Hs HF]; subst.
    destruct (f p); [|exact (IH Hs)]. constructor; [exact (IH Hs)|].
    rewrite Forall_forall in HF. apply Forall_forall. intros q Hq; apply filter_In in Hq as [Hq _]; auto.
  Qed.

  Lemma m_find_filter (f : N * V -> bool) k m : m_sorted m ->
    m_find k (filter f m) =
    match m_find k m with Some v => if f (k, v) then Some v else None | None => None end.
  Proof.
    induction m as [|[k' v'] r IH]; cbn; intros H; [reflexivity|].
    pose proof (sorted_tail _ _ H) as Ht.
    destruct (N.eqb_spec k k') as [->|Hne].
    - destruct (f (k', v')); cbn; [now rewrite N.eqb_refl|].
      rewrite IH by auto. destruct (m_find k' r) eqn:E; [|reflexivity].
      apply m_find_In in E. pose proof (sorted_head_lt _ _ _ H _ E); cbn in *; lia.
    - destruct (f (k', v')); cbn; [|auto].
      destruct (N.eqb_spec k k'); [congruence|auto].
  Qed.

  Lemma m_insert_keys_same k v m : In k (map fst m) -> m_sorted m ->
    map fst (m_insert k v m) = map fst m.
  Proof.
    induction m as [|[k' v'] r IH]; cbn; [tauto|].
    intros Hin Hs. destruct (N.ltb_spec k k') as [L|L].
    - exfalso. destruct Hin as [->|Hin]; [lia|].
      apply in_map_iff in Hin as [q [E Hq]].
      pose proof (sorted_head_lt _ _ _ Hs q Hq); lia.
    - destruct (N.eqb_spec k k') as [->|Hne]; cbn; [reflexivity|].
      f_equal. apply IH; [destruct Hin; congruence|eapply sorted_tail; eauto].
  Qed.

  Lemma m_ext m1 m2 : m_sorted m1 -> m_sorted m2 ->
    (forall k, m_find k m1 = m_find k m2) -> m1 = m2.
  Proof.
    revert m2; induction m1 as [|[k v] r IH]; intros [|[k2 v2] r2] H1 H2 HE; auto.
    - specialize (HE k2); cbn in HE; rewrite N.eqb_refl in HE; discriminate.
    - specialize (HE k); cbn in HE; rewrite N.eqb_refl in HE; discriminate.
    - assert (k = k2) as ->.
      { pose proof (HE k) as A; pose proof (HE k2) as B; cbn in A, B.
        rewrite N.eqb_refl in A, B.
        destruct (N.eqb_spec k k2) as [->|Hne]; [reflexivity|].
        destruct (N.eqb_spec k2 k) as [->|_]; [congruence|].
        symmetry in A. apply m_find_In in A. apply m_find_In in B.
        pose proof (sorted_head_lt _ _ _ H1 _ B). pose proof (sorted_head_lt _ _ _ H2 _ A).
        cbn in *; lia. }
      pose proof (HE k2) as A; cbn in A; rewrite N.eqb_refl in A; inversion A; subst.
      f_equal. apply IH; [eapply sorted_tail; eauto..|].
      intros j; specialize (HE j); cbn in HE.
      destruct (N.eqb_spec j k2) as [Ej|Hne]; [clear HE; subst j|exact HE].
      transitivity (@None V); [|symmetry]; apply m_find_None_notin; intros Hin;
        apply in_map_iff in Hin as [q [E Hq]];
        [pose proof (sorted_head_lt _ _ _ H1 q Hq)|pose proof (sorted_head_lt _ _ _ H2 q Hq)]; lia.
  Qed.

  Lemma m_sorted_map (W : Type) (f : N * V -> W) m :
    m_sorted m -> m_sorted (map (fun p => (fst p, f p)) m).
  Proof.
    induction m as [|p r IH]; cbn; intros H; [constructor|].
    inversion H as [|? ? Hs HF]; subst. constructor; [exact (IH Hs)|].
    rewrite Forall_forall in HF. apply Forall_forall. intros q Hq. apply in_map_iff in Hq as [q' [<- Hq']].
    cbn; auto.
  Qed.

  Lemma m_find_map (W : Type) (f : N * V -> W) k m :
    m_find k (map (fun p => (fst p, f p)) m) = option_map (fun v => f (k, v)) (m_find k m).
  Proof.
    induction m as [|[k' v'] r IH]; cbn; [reflexivity|].
    destruct (N.eqb_spec k k') as [->|]; [reflexivity|exact IH].
  Qed.
End Map.
