(** Lemmas about the moving-window search. *)

From Coq Require Import String List Arith Lia Bool QArith ZArith.
Import ListNotations.
From Verif Require Import Model_Intersection Model_ScenGen Model_Dataset Spec_Dataset.
Local Open Scope Z_scope.
Local Open Scope list_scope.

Section Win.
Context {MS : Type}.
Variables (lanes_at : MS -> list nat) (inside : MS -> bool) (one : bool) (mins : list nat) (len skip max_time : Z).
Notation lane_of := (lane_of lanes_at inside one).
Notation stands_on := (stands_on lanes_at inside one).
Notation search := (search lanes_at inside one mins len skip max_time).
Notation covering := (covering len).
Notation covers := (covers len).

Lemma covering_in d ws (tr : track MS) : In tr (covering d ws) <-> In tr d /\ covers tr ws.
Proof.
  unfold covering, Model_Dataset.covering, covers, Spec_Dataset.covers. rewrite filter_In, andb_true_iff, !Z.leb_le. tauto.
Qed.

Lemma lane_of_some (tr : track MS) ws p : lane_of tr ws = Some (Some p) <-> stands_on tr ws p.
Proof.
  unfold lane_of, Model_Dataset.lane_of, stands_on, Spec_Dataset.stands_on. destruct (init_state tr ws) as [[t ms]|].
  - cbv zeta. split.
    + destruct (one && negb (length (lanes_at ms) =? 1)%nat) eqn:B; [discriminate|].
      destruct (lanes_at ms) as [|q r] eqn:L; [discriminate|]. destruct (inside ms) eqn:I; [|discriminate].
      intros H. injection H as <-. exists t, ms, r. repeat split; auto. intros ->. cbn in B.
      destruct r; [reflexivity|discriminate].
    + intros (t0 & ms0 & r & E & L & I & O). injection E as <- <-. rewrite L, I. destruct one; cbn [andb].
      * rewrite (O eq_refl). reflexivity.
      * reflexivity.
  - split; [discriminate|]. intros (? & ? & ? & E & _). discriminate.
Qed.

Definition laneb (ws : Z) (p : nat) (tr : track MS) : bool :=
  match lane_of tr ws with Some (Some q) => (q =? p)%nat | _ => false end.

Lemma laneb_ok ws p tr : laneb ws p tr = true <-> stands_on tr ws p.
Proof.
  unfold laneb. rewrite <- lane_of_some. destruct (lane_of tr ws) as [[q|]|]; try (split; discriminate).
  rewrite Nat.eqb_eq. split; congruence.
Qed.

Lemma lanes_of_on : forall l ws x, lanes_of lanes_at inside one l ws = Some x -> forall p,
  on_lane p x = map t_id (filter (laneb ws p) l).
Proof.
  induction l as [|tr l IH]; intros ws x H p; cbn [lanes_of] in H.
  - injection H as <-. reflexivity.
  - destruct (lane_of tr ws) as [o|] eqn:E; [|discriminate].
    destruct (lanes_of lanes_at inside one l ws) as [y|] eqn:Ey; [|discriminate]. injection H as <-.
    specialize (IH _ _ Ey p). cbn [filter]. unfold laneb at 1. rewrite E. destruct o as [q|].
    + unfold on_lane in *. cbn [filter fst]. destruct (q =? p)%nat; cbn [map]; [f_equal; assumption|assumption].
    + assumption.
Qed.

Lemma gather_ok : forall ms p x ids, gather p ms x = Some ids ->
  ids = flat_map (fun q => on_lane q x) (seq p (length ms)) /\
  forall k m, nth_error ms k = Some m -> (m <= length (on_lane (p + k) x))%nat.
Proof.
  induction ms as [|m ms IH]; intros p x ids H; cbn [gather] in H.
  - injection H as <-. split; [reflexivity|]. intros [|k]; discriminate.
  - destruct (length (on_lane p x) <? m)%nat eqn:B; [discriminate|]. apply Nat.ltb_ge in B.
    destruct (gather (S p) ms x) as [y|] eqn:Gy; [|discriminate]. injection H as <-.
    destruct (IH _ _ _ Gy) as [-> N]. split; [reflexivity|]. intros [|k] m' Hk; cbn in Hk.
    + injection Hk as <-. now rewrite Nat.add_0_r.
    + replace (p + S k)%nat with (S p + k)%nat by lia. auto.
Qed.

Lemma gather_none : forall ms p x, gather p ms x = None ->
  exists k m, nth_error ms k = Some m /\ (length (on_lane (p + k) x) < m)%nat.
Proof.
  induction ms as [|m ms IH]; intros p x H; cbn [gather] in H; [discriminate|].
  destruct (length (on_lane p x) <? m)%nat eqn:B.
  - apply Nat.ltb_lt in B. exists 0%nat, m. rewrite Nat.add_0_r. auto.
  - destruct (gather (S p) ms x) as [y|] eqn:Gy; [discriminate|]. destruct (IH _ _ Gy) as (k & m' & N & L).
    exists (S k), m'. split; [exact N|]. now replace (p + S k)%nat with (S p + k)%nat by lia.
Qed.

Lemma NoDup_filter {A} (f : A -> bool) l : NoDup l -> NoDup (filter f l).
Proof.
  induction 1 as [|x l N H IH]; cbn; [constructor|]. destruct (f x); [|assumption]. constructor; [|assumption].
  rewrite filter_In. tauto.
Qed.

Lemma NoDup_map_filter {A B} (g : A -> B) (f : A -> bool) l : NoDup (map g l) -> NoDup (map g (filter f l)).
Proof.
  induction l as [|x l IH]; cbn; intros H; [constructor|]. inversion H as [|? ? N1 N2]; subst.
  destruct (f x); cbn; [|auto]. constructor; [|auto]. intros Hin. apply N1. apply in_map_iff in Hin as (y & E & Hy).
  apply filter_In in Hy as [Hy _]. rewrite <- E. now apply in_map.
Qed.

Lemma NoDup_of_map {A B} (g : A -> B) l : NoDup (map g l) -> NoDup l.
Proof.
  induction l as [|x l IH]; cbn; intros H; [constructor|]. inversion H as [|? ? N1 N2]; subst.
  constructor; [|auto]. intros Hin. apply N1. now apply in_map.
Qed.

(** The count of line 266 decides [enough]. *)
Lemma count_enough d ws p m : NoDup d ->
  ((m <= length (filter (laneb ws p) (covering d ws)))%nat <-> enough lanes_at inside one len d ws p m).
Proof.
  intros N. split.
  - intros H. exists (firstn m (filter (laneb ws p) (covering d ws))).
    assert (NF : NoDup (filter (laneb ws p) (covering d ws))) by (apply NoDup_filter; now apply NoDup_filter).
    split; [apply firstn_length_le; assumption|].
    rewrite <- (firstn_skipn m) in NF.
    assert (NF2 : NoDup (firstn m (filter (laneb ws p) (covering d ws)))).
    { clear -NF. induction (firstn m _) as [|x r IH] in NF |- *; [constructor|]. cbn in NF.
      inversion NF as [|? ? N1 N2]; subst. constructor; [|now apply IH]. intros Hx. apply N1. apply in_or_app. now left. }
    split; [exact NF2|].
    assert (A : forall tr, In tr (firstn m (filter (laneb ws p) (covering d ws))) -> In tr (filter (laneb ws p) (covering d ws))).
    { intros tr Htr. rewrite <- (firstn_skipn m). apply in_or_app. now left. }
    split.
    + intros tr Htr. apply A, filter_In in Htr as [Htr _]. apply covering_in in Htr. tauto.
    + intros tr Htr. apply A, filter_In in Htr as [Htr1 Htr2]. apply covering_in in Htr1. apply laneb_ok in Htr2. tauto.
  - intros (l & L & Nl & Incl & P). rewrite <- L. apply NoDup_incl_length; [assumption|]. intros tr Htr.
    apply filter_In. destruct (P tr Htr) as [P1 P2]. split; [|now apply laneb_ok]. apply covering_in. split; [|assumption].
    now apply Incl.
Qed.

Lemma search_ok : forall fuel d ws ids w, NoDup (map t_id d) -> search fuel d ws = Done (ids, w) ->
  exists k, 1 <= k /\ w = ws + k * skip /\
    (forall j, 1 <= j < k -> ~ qualifies lanes_at inside one mins len d (ws + j * skip) /\ ws + j * skip + len <= max_time) /\
    ((max_time < w + len /\ ids = []) \/
     (w + len <= max_time /\ qualifies lanes_at inside one mins len d w /\ NoDup ids /\
      forall id, In id ids <-> exists tr p, In tr d /\ t_id tr = id /\ covers tr w /\ stands_on tr w p /\ (p < length mins)%nat)).
Proof.
  induction fuel as [|n IH]; intros d ws ids w ND H; cbn [Model_Dataset.search] in H; [discriminate|]. cbv zeta in H.
  destruct (max_time <? ws + skip + len) eqn:B.
  { injection H as <- <-. exists 1. split; [lia|]. split; [lia|]. split; [intros; lia|]. left. apply Z.ltb_lt in B. split; [lia|reflexivity]. }
  apply Z.ltb_ge in B.
  assert (Rec : ~ qualifies lanes_at inside one mins len d (ws + skip) -> search n d (ws + skip) = Done (ids, w) ->
     exists k, 1 <= k /\ w = ws + k * skip /\
    (forall j, 1 <= j < k -> ~ qualifies lanes_at inside one mins len d (ws + j * skip) /\ ws + j * skip + len <= max_time) /\
    ((max_time < w + len /\ ids = []) \/
     (w + len <= max_time /\ qualifies lanes_at inside one mins len d w /\ NoDup ids /\
      forall id, In id ids <-> exists tr p, In tr d /\ t_id tr = id /\ covers tr w /\ stands_on tr w p /\ (p < length mins)%nat))).
  { intros Nq Hs. destruct (IH _ _ _ _ ND Hs) as (k & K1 & K2 & K3 & K4). exists (k + 1). split; [lia|]. split; [lia|].
    split; [|exact K4]. intros j Hj. destruct (Z.eq_dec j 1) as [->|Nj].
    - replace (ws + 1 * skip) with (ws + skip) by lia. split; [assumption|lia].
    - specialize (K3 (j - 1)). replace (ws + skip + (j - 1) * skip) with (ws + j * skip) in K3 by lia. apply K3. lia. }
  assert (NDd : NoDup d) by now apply NoDup_of_map with (g := t_id).
  destruct (covering d (ws + skip)) as [|c0 cr] eqn:C.
  { apply Rec; [|exact H]. intros ((tr & T1 & T2) & _). assert (X : In tr (covering d (ws + skip))) by now apply covering_in.
    rewrite C in X. destruct X. }
  rewrite <- C in H. destruct (lanes_of lanes_at inside one (covering d (ws + skip)) (ws + skip)) as [x|] eqn:L; [|discriminate].
  assert (OL := lanes_of_on _ _ _ L).
  destruct (gather 0 mins x) as [ids0|] eqn:Gx.
  - injection H as <- <-. destruct (gather_ok _ _ _ _ Gx) as [-> N]. exists 1. split; [lia|]. split; [lia|].
    split; [intros; lia|]. right. split; [lia|]. split.
    { split.
      - exists c0. apply covering_in. rewrite C. now left.
      - intros p m Hm. specialize (N p m Hm). cbn in N. rewrite OL, map_length in N. now apply count_enough. }
    assert (IN : forall id, In id (flat_map (fun q => on_lane q x) (seq 0 (length mins))) <->
       exists tr p, In tr d /\ t_id tr = id /\ covers tr (ws + skip) /\ stands_on tr (ws + skip) p /\ (p < length mins)%nat).
    { intros id. rewrite in_flat_map. split.
      - intros (p & Hp & Hid). rewrite OL in Hid. apply in_map_iff in Hid as (tr & E & Ht).
        apply filter_In in Ht as [Ht1 Ht2]. apply covering_in in Ht1. apply laneb_ok in Ht2. apply in_seq in Hp.
        exists tr, p. destruct Ht1 as [Ht1 Ht3]. repeat (split; [assumption|]). exact (proj2 Hp).
      - intros (tr & p & T1 & T2 & T3 & T4 & T5). exists p. split; [apply in_seq; lia|]. rewrite OL.
        apply in_map_iff. exists tr. split; [assumption|]. apply filter_In. split; [now apply covering_in|now apply laneb_ok]. }
    split; [|exact IN].
    (* no id twice: one lane per track *)
    assert (GEN : forall ps, NoDup ps -> NoDup (flat_map (fun q => on_lane q x) ps)).
    { induction 1 as [|p ps Np Hps IHp]; cbn; [constructor|].
      assert (A1 : NoDup (on_lane p x)).
      { rewrite OL. apply NoDup_map_filter. now apply NoDup_map_filter. }
      assert (DJ : forall id, In id (on_lane p x) -> ~ In id (flat_map (fun q => on_lane q x) ps)).
      { intros id H1 H2. apply in_flat_map in H2 as (q & Hq & H2). rewrite OL in H1, H2.
        apply in_map_iff in H1 as (t1 & E1 & F1). apply in_map_iff in H2 as (t2 & E2 & F2).
        apply filter_In in F1 as [F1 F1']. apply filter_In in F2 as [F2 F2'].
        assert (t1 = t2).
        { apply covering_in in F1 as [F1 _]. apply covering_in in F2 as [F2 _]. rewrite <- E2 in E1.
          clear -ND F1 F2 E1. induction d as [|y d IHd]; [destruct F1|]. cbn in ND. inversion ND as [|? ? M1 M2]; subst.
          destruct F1 as [->|F1], F2 as [->|F2]; auto.
          - exfalso. apply M1. rewrite E1. now apply in_map.
          - exfalso. apply M1. rewrite <- E1. now apply in_map. }
        subst t2. unfold laneb in F1', F2'. destruct (lane_of t1 (ws + skip)) as [[z|]|]; try discriminate.
        apply Nat.eqb_eq in F1', F2'. rewrite F1' in F2'. rewrite F2' in Np. exact (Np Hq). }
      revert A1 DJ. induction (on_lane p x) as [|y ys IHy]; cbn; intros A1 DJ; [assumption|].
      inversion A1 as [|? ? M1 M2]; subst. constructor.
      - rewrite in_app_iff. intros [?|Hy]; [auto|]. eapply DJ; [left; reflexivity|exact Hy].
      - apply IHy; [assumption|]. intros id Hid. apply DJ. now right. }
    apply GEN. apply seq_NoDup.
  - apply Rec; [|exact H]. intros (_ & Q). destruct (gather_none _ _ _ Gx) as (k & m & Nk & Lk).
    specialize (Q k m Nk). apply count_enough in Q; [|assumption]. cbn in Lk. rewrite OL, map_length in Lk. lia.
Qed.
End Win.
