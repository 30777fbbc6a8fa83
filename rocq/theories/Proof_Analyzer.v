(* Lemmas about sorting and grouping for C81. *)
From Coq Require Import String List ZArith QArith Bool Arith Lia Permutation Sorted.
From Verif Require Import Model_Analyzer.
Import ListNotations.
Local Open Scope string_scope.
Local Open Scope nat_scope.
Local Open Scope list_scope.

Lemma isin_In x l : isin x l = true <-> In x l.
Proof.
  unfold isin. rewrite existsb_exists. split.
  - intros (y & I & E). apply Z.eqb_eq in E. now subst.
  - intros I. exists x. split; [exact I|apply Z.eqb_refl].
Qed.

Lemma sorted_unique {A} (le : A -> A -> Prop) l1 : forall l2, Permutation l1 l2 ->
  StronglySorted le l1 -> StronglySorted le l2 ->
  (forall x y, In x l1 -> In y l1 -> le x y -> le y x -> x = y) -> l1 = l2.
Proof.
  induction l1 as [|x r IH]; intros l2 P S1 S2 An.
  - now apply Permutation_nil in P.
  - destruct l2 as [|y t]; [now apply Permutation_sym, Permutation_nil in P|].
    inversion S1 as [|? ? S1' F1]; subst. inversion S2 as [|? ? S2' F2]; subst.
    assert (E : x = y).
    { assert (Iy : In y (x :: r)) by (eapply Permutation_in; [apply Permutation_sym; exact P|now left]).
      assert (Ix : In x (y :: t)) by (eapply Permutation_in; [exact P|now left]).
      destruct Iy as [->|Iy]; [reflexivity|]. destruct Ix as [->|Ix]; [reflexivity|].
      rewrite Forall_forall in F1, F2. apply An; [now left|now right|auto|auto]. }
    subst y. f_equal. apply IH; auto.
    + now apply Permutation_cons_inv in P.
    + intros a b Ia Ib. apply An; now right.
Qed.

Lemma filter_or_perm {A} (p q : A -> bool) l : (forall x, In x l -> p x = true -> q x = false) ->
  Permutation (filter (fun x => p x || q x) l) (filter p l ++ filter q l).
Proof.
  induction l as [|x r IH]; intros Hd; [constructor|]. cbn [filter].
  assert (IH' := IH (fun y Iy => Hd y (or_intror Iy))). specialize (Hd x (or_introl eq_refl)).
  destruct (p x); cbn [orb].
  - rewrite Hd by reflexivity. cbn [app]. now constructor.
  - destruct (q x); [|exact IH']. eapply Permutation_trans; [constructor; exact IH'|]. apply Permutation_middle.
Qed.

Section Grouping.
  Context {A : Type}.
  Variable k : A -> Z.

  Definition groups (L : list Z) (rows : list A) : list A :=
    flat_map (fun s => filter (fun r => Z.eqb (k r) s) rows) (nodup Z.eq_dec L).

  Lemma groups_perm_gen N : NoDup N -> forall rows,
    Permutation (flat_map (fun s => filter (fun r => Z.eqb (k r) s) rows) N) (filter (fun r => isin (k r) N) rows).
  Proof.
    induction N as [|s t IH]; intros Nd rows.
    - cbn. induction rows; [constructor|exact IHrows].
    - inversion Nd as [|? ? Ns Nd']; subst. cbn [flat_map].
      eapply Permutation_trans; [apply Permutation_app_head; apply IH; exact Nd'|].
      apply Permutation_sym. unfold isin at 1. cbn [existsb].
      apply (filter_or_perm (fun r => Z.eqb (k r) s) (fun r => isin (k r) t)).
      intros x _ E. apply Z.eqb_eq in E. rewrite E.
      destruct (isin s t) eqn:E2; [|reflexivity]. apply isin_In in E2. contradiction.
  Qed.

  Lemma groups_perm L rows : (forall r, In r rows -> In (k r) L) -> Permutation (groups L rows) rows.
  Proof.
    intros Hk. unfold groups. eapply Permutation_trans; [apply groups_perm_gen, NoDup_nodup|].
    replace (filter (fun r => isin (k r) (nodup Z.eq_dec L)) rows) with rows; [reflexivity|].
    symmetry. clear - Hk. induction rows as [|r t IH]; [reflexivity|]. cbn [filter].
    assert (E : isin (k r) (nodup Z.eq_dec L) = true) by (apply isin_In, nodup_In, Hk; now left).
    rewrite E. f_equal. apply IH. intros x Ix. apply Hk. now right.
  Qed.
End Grouping.

Definition key (l : list Z) (x : Z) : nat := match pos l x with Some i => i | None => length l end.

Lemma pos_from_nth x l : forall i j, pos_from x i l = Some j -> i <= j /\ nth_error l (j - i) = Some x.
Proof.
  induction l as [|y r IH]; intros i j E; [discriminate|]. cbn [pos_from] in E.
  destruct (pos_from x (S i) r) as [m|] eqn:E1.
  - injection E as <-. apply IH in E1 as [L N]. split; [lia|].
    replace (m - i) with (S (m - S i)) by lia. exact N.
  - destruct (Z.eqb_spec x y) as [->|]; [|discriminate]. injection E as <-. split; [lia|]. now rewrite Nat.sub_diag.
Qed.

Lemma pos_from_In x l : forall i, In x l -> exists j, pos_from x i l = Some j.
Proof.
  induction l as [|y r IH]; intros i I; [destruct I|]. cbn [pos_from].
  destruct (pos_from x (S i) r) as [m|] eqn:E1; [eauto|].
  destruct (Z.eqb_spec x y) as [->|N]; [eauto|]. destruct I as [->|I]; [congruence|].
  destruct (IH (S i) I) as [j E]. congruence.
Qed.

Lemma pos_from_notin x l i : ~ In x l -> pos_from x i l = None.
Proof.
  revert i. induction l as [|y r IH]; intros i N; [reflexivity|]. cbn [pos_from].
  rewrite IH by (intros I; apply N; now right).
  destruct (Z.eqb_spec x y) as [->|]; [exfalso; apply N; now left|reflexivity].
Qed.

Lemma key_inj l x y : In x l -> In y l -> key l x = key l y -> x = y.
Proof.
  intros Ix Iy. unfold key, pos. destruct (pos_from_In x l 0 Ix) as [i Ei], (pos_from_In y l 0 Iy) as [j Ej].
  rewrite Ei, Ej. intros ->. apply pos_from_nth in Ei as [_ Ei]. apply pos_from_nth in Ej as [_ Ej]. congruence.
Qed.

Definition before (i : nat) (l : list Z) (x y : Z) : Prop :=
  exists a b, pos_from x i l = Some a /\ pos_from y i l = Some b /\ a < b.

Lemma nodup_sorted l : forall i, StronglySorted (before i l) (nodup Z.eq_dec l).
Proof.
  induction l as [|y r IH]; intros i; [constructor|]. cbn [nodup].
  assert (G : forall N, (forall x, In x N -> In x r) -> StronglySorted (before (S i) r) N -> StronglySorted (before i (y :: r)) N).
  { intros N HN SS. induction SS as [|x t SS IHS F]; constructor.
    - apply IHS. intros z Iz. apply HN. now right.
    - rewrite Forall_forall in F |- *. intros z Iz. destruct (F z Iz) as (a & b & Ea & Eb & L).
      exists a, b. cbn [pos_from]. rewrite Ea, Eb. auto. }
  destruct (in_dec Z.eq_dec y r) as [I|N].
  - apply G; [|apply IH]. intros x Ix. now apply nodup_In in Ix.
  - constructor.
    + apply G; [|apply IH]. intros x Ix. now apply nodup_In in Ix.
    + apply Forall_forall. intros z Iz. apply nodup_In in Iz. destruct (pos_from_In z r (S i) Iz) as [b Eb].
      exists i, b. cbn [pos_from]. rewrite (pos_from_notin y r (S i) N), Z.eqb_refl, Eb.
      apply pos_from_nth in Eb as [L _]. repeat split. lia.
Qed.

Lemma groups_sorted {A} (k : A -> Z) l rows : StronglySorted (fun a b => key l (k a) <= key l (k b)) (groups k l rows).
Proof.
  unfold groups. pose proof (nodup_sorted l 0) as SS. induction SS as [|s N SS IH F]; [constructor|].
  cbn [flat_map].
  assert (G1 : forall a, In a (filter (fun r => Z.eqb (k r) s) rows) -> k a = s).
  { intros a Ia. apply filter_In in Ia as [_ E]. now apply Z.eqb_eq in E. }
  revert G1. generalize (filter (fun r => Z.eqb (k r) s) rows) as P. induction P as [|a P IHP]; intros G1; [exact IH|].
  cbn [app]. constructor; [apply IHP; intros x Ix; apply G1; now right|].
  apply Forall_forall. intros z Iz. rewrite (G1 a (or_introl eq_refl)). apply in_app_iff in Iz as [Iz|Iz].
  - rewrite (G1 z (or_intror Iz)). lia.
  - apply in_flat_map in Iz as (t & It & Iz). apply filter_In in Iz as [_ E]. apply Z.eqb_eq in E. rewrite E.
    rewrite Forall_forall in F. destruct (F t It) as (x & y & Ex & Ey & L). unfold key, pos. rewrite Ex, Ey. lia.
Qed.

Lemma sorted_map {A B} (f : A -> B) (le : B -> B -> Prop) l :
  StronglySorted (fun a b => le (f a) (f b)) l <-> StronglySorted le (map f l).
Proof.
  split.
  - intros SS. induction SS as [|x t SS IH F]; cbn [map]; constructor; auto.
    apply Forall_forall. intros z Iz. apply in_map_iff in Iz as (y & <- & Iy). rewrite Forall_forall in F. auto.
  - induction l as [|x t IH]; cbn [map]; intros SS; constructor; inversion SS as [|? ? S' F]; subst; auto.
    rewrite Forall_forall in F |- *. intros z Iz. apply F. now apply in_map.
Qed.

Lemma map_filter_repeat {A} (k : A -> Z) s rows :
  map k (filter (fun r => Z.eqb (k r) s) rows) = repeat s (count_occ Z.eq_dec (map k rows) s).
Proof.
  induction rows as [|r t IH]; [reflexivity|]. cbn [filter map count_occ].
  destruct (Z.eq_dec (k r) s) as [E|N].
  - rewrite (proj2 (Z.eqb_eq (k r) s) E). cbn [map repeat]. f_equal; [exact E|exact IH].
  - rewrite (proj2 (Z.eqb_neq (k r) s) N). exact IH.
Qed.

(* the scenarios (or configurations) of [rows] in the order of L *)
Definition in_order (L : list Z) (ks : list Z) : list Z :=
  flat_map (fun s => repeat s (count_occ Z.eq_dec ks s)) (nodup Z.eq_dec L).

Lemma map_groups {A} (k : A -> Z) L rows : map k (groups k L rows) = in_order L (map k rows).
Proof.
  unfold groups, in_order. induction (nodup Z.eq_dec L) as [|s N IH]; [reflexivity|].
  cbn [flat_map]. rewrite map_app, IH. f_equal. apply map_filter_repeat.
Qed.

Lemma nodup_filter (p : Z -> bool) l : nodup Z.eq_dec (filter p l) = filter p (nodup Z.eq_dec l).
Proof.
  induction l as [|x t IH]; [reflexivity|]. cbn [filter nodup].
  destruct (p x) eqn:E; cbn [nodup].
  - destruct (in_dec Z.eq_dec x t) as [I|N], (in_dec Z.eq_dec x (filter p t)) as [I'|N'].
    + exact IH.
    + exfalso. apply N', filter_In. auto.
    + exfalso. apply N. now apply filter_In in I'.
    + cbn [filter]. rewrite E. now f_equal.
  - destruct (in_dec Z.eq_dec x t); [exact IH|]. cbn [filter]. rewrite E. exact IH.
Qed.

Lemma in_order_found L ks : in_order (filter (fun s => isin s ks) L) ks = in_order L ks.
Proof.
  unfold in_order. rewrite nodup_filter. induction (nodup Z.eq_dec L) as [|s N IH]; [reflexivity|].
  cbn [filter flat_map]. destruct (isin s ks) eqn:E; cbn [flat_map]; [now rewrite IH|].
  assert (C : count_occ Z.eq_dec ks s = 0).
  { apply count_occ_not_In. intros I. apply isin_In in I. congruence. }
  now rewrite C, IH.
Qed.

Section Sorting.
  Context {V : Type}.
  (* sort_values: the rows by increasing position, rows with the same position in any order *)
  Definition sorts (srt : list (nat * row V) -> list (row V)) : Prop :=
    forall l, exists l', srt l = map snd l' /\ Permutation l l' /\ StronglySorted (fun a b => fst a <= fst b) l'.

  Variable srt : list (nat * row V) -> list (row V).
  Hypothesis Hs : sorts srt.

  Lemma reindex_ok (k : row V -> Z) L rows : 
    Permutation (reindex V srt k L rows) rows /\
    StronglySorted (fun a b => key L (k a) <= key L (k b)) (reindex V srt k L rows).
  Proof.
    unfold reindex. set (l := map _ rows). destruct (Hs l) as (l' & E & P & SS). rewrite E.
    assert (Hl : forall p, In p l' -> fst p = key L (k (snd p))).
    { intros p Ip. apply (Permutation_in _ (Permutation_sym P)) in Ip. unfold l in Ip.
      apply in_map_iff in Ip as (r & <- & _). reflexivity. }
    split.
    - apply Permutation_sym. replace rows with (map snd l); [now apply Permutation_map|].
      unfold l. rewrite map_map. cbn. apply map_id.
    - clear - SS Hl.
      induction SS as [|x t SS IH F]; cbn [map]; constructor.
      + apply IH. intros p Ip. apply Hl. now right.
      + apply Forall_forall. intros z Iz. apply in_map_iff in Iz as (y & <- & Iy).
        rewrite Forall_forall in F. rewrite <- (Hl x (or_introl eq_refl)), <- (Hl y (or_intror Iy)). auto.
  Qed.

  Lemma reindex_keys (k : row V -> Z) L rows : (forall r, In r rows -> In (k r) L) ->
    map k (reindex V srt k L rows) = in_order L (map k rows).
  Proof.
    intros Hk. destruct (reindex_ok k L rows) as [P SS]. rewrite <- map_groups.
    apply (sorted_unique (fun a b => key L a <= key L b)).
    - apply Permutation_map. eapply Permutation_trans; [exact P|]. apply Permutation_sym, groups_perm, Hk.
    - apply (proj1 (sorted_map k (fun a b => key L a <= key L b) _)). exact SS.
    - apply (proj1 (sorted_map k (fun a b => key L a <= key L b) _)). apply groups_sorted.
    - intros x y Ix Iy L1 L2.
      assert (G : forall z, In z (map k (reindex V srt k L rows)) -> In z L).
      { intros z Iz. apply in_map_iff in Iz as (r & <- & Ir). apply Hk. eapply Permutation_in; eauto. }
      apply (key_inj L); auto. lia.
  Qed.

  Lemma reindex_groups (k : row V -> Z) L rows : (forall r, In r rows -> In (k r) L) -> NoDup (map k rows) ->
    reindex V srt k L rows = groups k L rows.
  Proof.
    intros Hk Nd. destruct (reindex_ok k L rows) as [P SS].
    apply (sorted_unique (fun a b => key L (k a) <= key L (k b))); auto.
    - eapply Permutation_trans; [exact P|]. apply Permutation_sym, groups_perm, Hk.
    - apply groups_sorted.
    - intros x y Ix Iy L1 L2.
      apply (Permutation_in _ P) in Ix, Iy.
      assert (E : k x = k y) by (apply (key_inj L); auto; lia).
      clear - Nd E Ix Iy. induction rows as [|r t IH]; [destruct Ix|]. cbn [map] in Nd.
      inversion Nd as [|? ? N Nd']; subst.
      destruct Ix as [->|Ix], Iy as [->|Iy]; auto.
      + exfalso. apply N. rewrite E. now apply in_map.
      + exfalso. apply N. rewrite <- E. now apply in_map.
  Qed.
End Sorting.

Lemma insert_In x l y : In y (insert x l) <-> y = x \/ In y l.
Proof.
  induction l as [|z t IH]; cbn [insert]; [cbn; firstorder|].
  destruct (Z.ltb_spec x z); [cbn; firstorder|]. destruct (Z.eqb_spec x z) as [->|]; [cbn; firstorder|].
  cbn [In]. rewrite IH. firstorder.
Qed.

Lemma sort_set_In l y : In y (sort_set l) <-> In y l.
Proof.
  unfold sort_set. induction l as [|x t IH]; [reflexivity|]. cbn [fold_right]. rewrite insert_In, IH. cbn. firstorder.
Qed.

Lemma insert_sorted x l : StronglySorted Z.lt l -> StronglySorted Z.lt (insert x l).
Proof.
  induction l as [|z t IH]; intros SS; cbn [insert]; [repeat constructor|].
  inversion SS as [|? ? S' F]; subst. destruct (Z.ltb_spec x z) as [L|G].
  - constructor; [exact SS|]. constructor; [exact L|]. rewrite Forall_forall in F |- *. intros y Iy. specialize (F y Iy). lia.
  - destruct (Z.eqb_spec x z) as [->|N]; [exact SS|]. constructor; [auto|].
    rewrite Forall_forall in F |- *. intros y Iy. apply insert_In in Iy as [->|Iy]; [lia|auto].
Qed.

Lemma sort_set_sorted l : StronglySorted Z.lt (sort_set l).
Proof. unfold sort_set. induction l; [constructor|]. now apply insert_sorted. Qed.

Lemma zlist_eqb_eq a : forall b, zlist_eqb a b = true <-> a = b.
Proof.
  induction a as [|x a IH]; intros [|y b]; cbn [zlist_eqb]; try (split; congruence).
  rewrite andb_true_iff, Z.eqb_eq, IH. split; [intros [-> ->]; reflexivity|intros E; injection E; auto].
Qed.

Lemma sorted_lt_nodup l : StronglySorted Z.lt l -> NoDup l.
Proof.
  intros SS. induction SS as [|x t SS IH F]; constructor; auto. intros I. rewrite Forall_forall in F.
  specialize (F x I). lia.
Qed.
