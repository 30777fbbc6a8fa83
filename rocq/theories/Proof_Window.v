(** Moving-window search over several files. *)

From Coq Require Import String List Arith Lia Bool QArith ZArith.
Import ListNotations.
From Verif Require Import Model_Intersection Model_ScenGen Model_Dataset Spec_Dataset Proof_Dataset.
Local Open Scope Z_scope.
Local Open Scope list_scope.

Section Win.
Context {MS : Type}.
Variables (lanes_at : MS -> list nat) (inside : MS -> bool) (one : bool) (mins : list nat) (len skip max_time : Z).
Hypothesis Skip : 0 < skip.
Notation search := (search lanes_at inside one mins len skip max_time).
Notation qual := (qualifies lanes_at inside one mins len).
Notation usable := (usable lanes_at inside one mins len).

Lemma lanes_of_total : forall (l : list (track MS)) ws, (forall tr, In tr l -> init_state tr ws <> None) ->
  exists x, lanes_of lanes_at inside one l ws = Some x.
Proof.
  induction l as [|tr l IH]; intros ws H; cbn; [eauto|].
  destruct (IH ws) as (x & E); [intros; apply H; now right|]. rewrite E.
  unfold lane_of. destruct (init_state tr ws) as [[t ms]|] eqn:I; [|exfalso; eapply H; [now left|exact I]].
  destruct (_ && _); [eauto|]. destruct (lanes_at ms); [eauto|]. destruct (inside ms); eauto.
Qed.

Lemma search_total : forall fuel (d : list (track MS)) ws,
  (forall j tr, 1 <= j -> In tr d -> covers len tr (ws + j * skip) -> init_state tr (ws + j * skip) <> None) ->
  max_time < ws + Z.of_nat fuel * skip + len -> exists r, search (Datatypes.S fuel) d ws = Done r.
Proof.
  induction fuel as [|n IH]; intros d ws HI Hf.
  - cbn [Model_Dataset.search]. cbv zeta. replace (max_time <? ws + skip + len) with true; [eauto|].
    symmetry. apply Z.ltb_lt. lia.
  - assert (Step : exists r, search (Datatypes.S n) d (ws + skip) = Done r).
    { apply IH.
      - intros j tr Hj Ht Hc. replace (ws + skip + j * skip) with (ws + (j + 1) * skip) in * by lia. apply HI; auto. lia.
      - lia. }
    remember (Datatypes.S n) as n' eqn:En. cbn [Model_Dataset.search]. cbv zeta.
    destruct (max_time <? ws + skip + len); [eauto|].
    destruct (covering len d (ws + skip)) as [|c0 cr] eqn:C; [exact Step|]. rewrite <- C.
    destruct (lanes_of_total (covering len d (ws + skip)) (ws + skip)) as (x & E).
    { intros tr Ht. apply covering_in in Ht as [T1 T2]. replace (ws + skip) with (ws + 1 * skip) in * by lia. apply HI; auto. lia. }
    rewrite E. destruct (gather 0 mins x); [eauto|exact Step].
Qed.

Lemma search_mono : forall f g (d : list (track MS)) ws r, search f d ws = Done r -> (f <= g)%nat -> search g d ws = Done r.
Proof.
  induction f as [|f IH]; intros [|g] d ws r H L; cbn [Model_Dataset.search] in *; try discriminate; try lia.
  cbv zeta in *. destruct (max_time <? ws + skip + len); [exact H|].
  destruct (covering len d (ws + skip)) as [|c0 cr] eqn:C; [apply IH; auto; lia|].
  destruct (lanes_of lanes_at inside one (c0 :: cr) (ws + skip)); [|discriminate].
  destruct (gather 0 mins l); [exact H|apply IH; auto; lia].
Qed.

(** What the search over one file found. *)
Lemma search_first fuel (d : list (track MS)) ws ids w : NoDup (map t_id d) -> search fuel d ws = Done (ids, w) ->
  (exists p m, nth_error mins p = Some (Datatypes.S m)) ->
  exists k, 1 <= k /\ w = ws + k * skip /\ (forall j, 1 <= j < k -> ~ qual d (ws + j * skip)) /\
    match ids with
    | [] => forall j, 1 <= j -> ws + j * skip + len <= max_time -> ~ qual d (ws + j * skip)
    | _ => w + len <= max_time /\ qual d w /\ NoDup ids /\ forall id, In id ids <-> usable d w id
    end.
Proof.
  intros ND H (p & m & Pm). destruct (search_ok _ _ _ _ _ _ _ _ _ _ _ _ ND H) as (k & K1 & K2 & K3 & K4).
  exists k. split; [assumption|]. split; [assumption|]. split; [intros j Hj; apply K3; assumption|].
  destruct K4 as [[K4 ->]|(K4 & K5 & K6 & K7)].
  - intros j J1 J2. apply K3. nia.
  - destruct ids as [|i r]; [|auto]. exfalso. destruct K5 as [_ K5]. destruct (K5 p _ Pm) as (l & L1 & _ & L3 & L4).
    destruct l as [|tr l]; [discriminate|]. destruct (L4 tr (or_introl eq_refl)) as [L5 L6].
    assert (In (t_id tr) []); [|assumption]. apply K7. exists tr, p. repeat split; auto; try apply L5.
    + apply L3. now left.
    + apply nth_error_Some. congruence.
Qed.

Lemma files_ok fuel min_time : forall (files : list (list (track MS))) cur ws ids w cur',
  Forall (fun d => NoDup (map t_id d)) files ->
  (exists p m, nth_error mins p = Some (Datatypes.S m)) ->
  search_files lanes_at inside fuel one mins len skip max_time min_time files cur ws = Done (Some (ids, w, cur')) ->
  let base f := if (f =? cur)%nat then ws else min_time in
  exists d j, (cur <= cur')%nat /\ nth_error files (cur' - cur) = Some d /\ 1 <= j /\ w = base cur' + j * skip /\
    w + len <= max_time /\ qual d w /\ ids <> [] /\ NoDup ids /\ (forall id, In id ids <-> usable d w id) /\
    forall f i d', (cur <= f)%nat -> nth_error files (f - cur) = Some d' -> (f < cur')%nat \/ (f = cur' /\ i < j) -> 1 <= i ->
      base f + i * skip + len <= max_time -> ~ qual d' (base f + i * skip).
Proof.
  induction files as [|d r IH]; intros cur ws ids w cur' ND PM H base; cbn [Model_Dataset.search_files] in H; [discriminate|].
  inversion ND as [|? ? N1 N2]; subst.
  destruct (search fuel d ws) as [[ids0 w0]| |] eqn:Q; try discriminate.
  destruct (search_first _ _ _ _ _ N1 Q PM) as (k & K1 & K2 & K3 & K4).
  destruct ids0 as [|i0 ir].
  - destruct (IH (Datatypes.S cur) min_time ids w cur' N2 PM H) as (d1 & j & A1 & A2 & A3 & A4 & A5 & A6 & A7 & A8 & A9 & A10).
    exists d1, j. split; [lia|].
    assert (B : forall f, (Datatypes.S cur <= f)%nat -> base f = min_time).
    { intros f Hf. unfold base. replace (f =? cur)%nat with false by (symmetry; apply Nat.eqb_neq; lia). reflexivity. }
    assert (IFF : forall f, (if (f =? Datatypes.S cur)%nat then min_time else min_time) = min_time) by (intros f; destruct (f =? Datatypes.S cur)%nat; reflexivity).
    split; [replace (cur' - cur)%nat with (Datatypes.S (cur' - Datatypes.S cur)) by lia; exact A2|].
    split; [assumption|]. split; [rewrite B by lia; rewrite ?IFF in A4; exact A4|]. repeat (split; [assumption|]).
    intros f i d' F1 F2 F3 F4 F5. destruct (Nat.eq_dec f cur) as [->|Nf].
    + replace (cur - cur)%nat with 0%nat in F2 by lia. cbn in F2. injection F2 as <-.
      unfold base in F5 |- *. rewrite Nat.eqb_refl in *. apply K4; assumption.
    + rewrite B in F5 |- * by lia. rewrite <- (IFF f). apply A10; rewrite ?IFF; auto; try lia.
      replace (f - cur)%nat with (Datatypes.S (f - Datatypes.S cur)) in F2 by lia. exact F2.
  - injection H as <- <- <-. destruct K4 as (K4 & K5 & K6 & K7). exists d, k. split; [lia|].
    split; [now rewrite Nat.sub_diag|]. split; [assumption|].
    split; [unfold base; now rewrite Nat.eqb_refl|]. repeat (split; [assumption|]). split; [discriminate|].
    split; [assumption|]. split; [assumption|].
    intros f i d' F1 F2 F3 F4 F5. destruct F3 as [F3|[-> F3]]; [lia|].
    rewrite Nat.sub_diag in F2. cbn in F2. injection F2 as <-. unfold base. rewrite Nat.eqb_refl. apply K3. lia.
Qed.

Lemma files_none fuel min_time : forall (files : list (list (track MS))) cur ws,
  Forall (fun d => NoDup (map t_id d)) files ->
  (exists p m, nth_error mins p = Some (Datatypes.S m)) ->
  search_files lanes_at inside fuel one mins len skip max_time min_time files cur ws = Done None ->
  let base f := if (f =? cur)%nat then ws else min_time in
  forall f i d', (cur <= f)%nat -> nth_error files (f - cur) = Some d' -> 1 <= i ->
      base f + i * skip + len <= max_time -> ~ qual d' (base f + i * skip).
Proof.
  induction files as [|d r IH]; intros cur ws ND PM H base f i d' F1 F2 F4 F5; cbn [Model_Dataset.search_files] in H.
  - destruct (f - cur)%nat; discriminate.
  - inversion ND as [|? ? N1 N2]; subst.
    destruct (search fuel d ws) as [[ids0 w0]| |] eqn:Q; try discriminate.
    destruct (search_first _ _ _ _ _ N1 Q PM) as (k & K1 & K2 & K3 & K4). destruct ids0; [|discriminate].
    destruct (Nat.eq_dec f cur) as [->|Nf].
    + replace (cur - cur)%nat with 0%nat in F2 by lia. cbn in F2. injection F2 as <-.
      unfold base in F5 |- *. rewrite Nat.eqb_refl in *. apply K4; assumption.
    + assert (B : base f = if (f =? Datatypes.S cur)%nat then min_time else min_time).
      { unfold base. replace (f =? cur)%nat with false by (symmetry; apply Nat.eqb_neq; lia).
        destruct (f =? Datatypes.S cur)%nat; reflexivity. }
      rewrite B in F5 |- *. eapply (IH (Datatypes.S cur) min_time); eauto; try lia.
      replace (f - cur)%nat with (Datatypes.S (f - Datatypes.S cur)) in F2 by lia. exact F2.
Qed.

Lemma files_total fuel min_time : forall (files : list (list (track MS))) cur ws,
  (forall d j tr t, In d files -> (t = ws \/ t = min_time) -> 1 <= j -> In tr d -> covers len tr (t + j * skip) ->
     init_state tr (t + j * skip) <> None) ->
  max_time < ws + Z.of_nat fuel * skip + len -> max_time < min_time + Z.of_nat fuel * skip + len ->
  exists r, search_files lanes_at inside (Datatypes.S fuel) one mins len skip max_time min_time files cur ws = Done r.
Proof.
  induction files as [|d r IH]; intros cur ws HI H1 H2; cbn [Model_Dataset.search_files]; [eauto|].
  destruct (search_total fuel d ws) as ([ids w] & E); [|assumption|].
  - intros j tr Hj Ht Hc. apply (HI d j tr ws); auto. now left.
  - rewrite E. destruct ids; [|eauto]. apply IH; auto.
    intros d' j tr t D1 D2 D3 D4 D5. apply (HI d' j tr t); auto. now right. destruct D2; auto.
Qed.

Lemma find_self : forall (l : list (Z * MS)) t ms, In (t, ms) l -> lookup_state l t <> None.
Proof.
  intros l t ms H. unfold lookup_state. destruct (find _ l) eqn:F; [discriminate|].
  exfalso. apply (find_none _ _ F) in H. cbn in H. rewrite Z.eqb_refl in H. discriminate.
Qed.
Lemma min_key_in : forall l : list (Z * MS), l <> [] -> exists m ms, min_key l = Some m /\ In (m, ms) l /\
  forall t x, In (t, x) l -> m <= t.
Proof.
  induction l as [|[t x] l IH]; intros H; [congruence|]. cbn [min_key]. destruct l as [|y l].
  - cbn. exists t, x. repeat split; auto. intros t' x' [E|[]]. injection E as -> _. lia.
  - destruct IH as (m & ms & E & I & M); [discriminate|]. rewrite E. destruct (Z.min_spec t m) as [[Lt ->]|[Le ->]].
    + exists t, x. split; [reflexivity|]. split; [now left|]. intros t' x' [Q|Q]; [injection Q as -> _; lia|].
      specialize (M _ _ Q). lia.
    + exists m, ms. split; [reflexivity|]. split; [now right|]. intros t' x' [Q|Q]; [injection Q as -> _; lia|eauto].
Qed.

Lemma contiguous_init (tr : track MS) t : contiguous tr -> (exists q, t = 100 * q) -> t_first tr <= t <= t_last tr ->
  exists ms, init_state tr t = Some (t, ms) /\ In (t, ms) (t_states tr).
Proof.
  intros ((a & b & F & L & AB) & C & N) Hq Ht.
  assert (E : exists ms, In (t, ms) (t_states tr)) by (apply C; auto).
  destruct E as (ms & I). destruct (min_key_in (t_states tr)) as (m & ms0 & M1 & M2 & M3); [intros Q; rewrite Q in I; destruct I|].
  unfold init_state. rewrite M1. replace (t <? m) with false by (symmetry; apply Z.ltb_ge; eauto).
  unfold lookup_state. destruct (find (fun x => fst x =? t) (t_states tr)) as [[t' x]|] eqn:Fd.
  - apply find_some in Fd as [Fd1 Fd2]. cbn in Fd2. apply Z.eqb_eq in Fd2. subst t'. exists x. auto.
  - exfalso. apply (find_none _ _ Fd) in I. cbn in I. rewrite Z.eqb_refl in I. discriminate.
Qed.
End Win.
