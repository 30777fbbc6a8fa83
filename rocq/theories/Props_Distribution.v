(** C59: random distributions. *)
From Coq Require Import Reals List Bool Arith NArith Lra Lia.
From Verif Require Import Base_Real Model_Distribution.
Import ListNotations.
Local Open Scope R_scope.

Lemma normal_draws_even G polar n : forall g, exists xs g', normal_draws G polar (2 * n) (g, None) = (xs, (g', None)).
Proof.
  induction n as [|n IH]; intros g; [exists [], g; reflexivity|].
  replace (2 * S n)%nat with (S (S (2 * n)))%nat by lia. cbn [normal_draws normal_draw fst snd].
  destruct (polar g) as [[a b] g1] eqn:E. cbn [fst snd]. destruct (IH g1) as (xs & g' & ->). cbn [fst snd]. eexists; eexists; reflexivity.
Qed.

(** The distributions whose only changing part is the generator: everything but a multivariate normal of odd dimension. *)
Definition reseedable {G} (d : dist G) : Prop :=
  match d with DMulti mean _ _ saved => Nat.Even (length mean) /\ saved = None | _ => True end.
(** What never changes: type and parameters. *)
Definition same_law {G} (d d' : dist G) : Prop :=
  match d, d' with
  | DFixed v, DFixed v' => v = v'
  | DBoost k _, DBoost k' _ => k = k'
  | DMulti m t _ _, DMulti m' t' _ _ => m = m' /\ t = t'
  | _, _ => False
  end.
Lemma same_law_trans G (a b c : dist G) : same_law a b -> same_law b c -> same_law a c.
Proof. destruct a, b, c; cbn; intuition congruence. Qed.
Lemma same_law_refl G (a : dist G) : same_law a a.
Proof. destruct a; cbn; auto. Qed.
Lemma sample_law G u01 polar zq (d : dist G) x d' : sample G u01 polar zq d = Some (x, d') -> same_law d d' /\ (reseedable d -> reseedable d').
Proof.
  destruct d as [v|k g|m t g s]; cbn [sample].
  - intros [= _ <-]. cbn. auto.
  - destruct (quantile zq k _); [|discriminate]. intros [= _ <-]. cbn. auto.
  - destruct (_ && _); [|discriminate]. intros [= _ <-]. cbn. split; [auto|]. intros [[n Hn] ->]. split; [exists n; exact Hn|].
    rewrite Hn. destruct (normal_draws_even G polar n g) as (xs & g' & ->). reflexivity.
Qed.
Lemma seed_law G seed s (d : dist G) : same_law d (change_seed G seed s d) /\ (reseedable d -> reseedable (change_seed G seed s d)).
Proof. destruct d; cbn; auto. Qed.
Lemma drun_law G seed u01 polar zq ops : forall (d : dist G) xs d', drun G seed u01 polar zq ops d = Some (xs, d') ->
  same_law d d' /\ (reseedable d -> reseedable d').
Proof.
  induction ops as [|[|s] r IH]; intros d xs d'; cbn [drun].
  - intros [= _ <-]. split; [apply same_law_refl|auto].
  - destruct (sample G u01 polar zq d) as [[x d1]|] eqn:E; [|discriminate].
    destruct (drun G seed u01 polar zq r d1) as [[ys d2]|] eqn:E2; [|discriminate]. intros [= _ <-].
    destruct (sample_law _ _ _ _ _ _ _ E) as [A B]. destruct (IH _ _ _ E2) as [C D]. split; [eapply same_law_trans; eauto|auto].
  - intros E. destruct (IH _ _ _ E) as [C D]. destruct (seed_law G seed s d) as [A B]. split; [eapply same_law_trans; eauto|auto].
Qed.
Lemma reseed_eq G seed s (d d' : dist G) : same_law d d' -> reseedable d -> reseedable d' -> change_seed G seed s d = change_seed G seed s d'.
Proof.
  destruct d, d'; cbn; try tauto; intros H H1 H2; try congruence. destruct H as [-> ->], H1 as [_ ->], H2 as [_ ->]. reflexivity.
Qed.

(** C59: after ChangeSeed(s) the future samples (for any further calls) do not depend on what happened before, for every distribution
    except a multivariate normal of odd dimension: they are those of the freshly built distribution after ChangeSeed(s). *)
Theorem C59_reseeding_reproduces_samples :
  forall (G : Type) seed u01 polar zq ty p d ops xs d' s ops',
  make_dist G seed ty p = Some d -> (ty = TMultivariate -> Nat.Even (length (dp_mean_vec p))) ->
  drun G seed u01 polar zq ops d = Some (xs, d') ->
  drun G seed u01 polar zq (OSeed s :: ops') d' = drun G seed u01 polar zq (OSeed s :: ops') d.
Proof.
  intros G seed u01 polar zq ty p d ops xs d' s ops' Hm He Hr.
  assert (R : reseedable d).
  { destruct ty; cbn in Hm; try (destruct (_ : bool)); try discriminate; injection Hm as <-; cbn; auto. }
  destruct (drun_law _ _ _ _ _ _ _ _ _ Hr) as [L R']. cbn [drun]. f_equal. symmetry. apply reseed_eq; auto.
Qed.
Print Assumptions C59_reseeding_reproduces_samples.

(** C59: and that is what building the distribution with that seed gives. *)
Theorem C59_reseeding_equals_construction :
  forall (G : Type) seed ty p d s,
  make_dist G seed ty p = Some d ->
  make_dist G seed ty (mkDP s (dp_lower p) (dp_upper p) (dp_mean p) (dp_sd p) (dp_fixed p) (dp_mean_vec p) (dp_transform p)) =
  Some (change_seed G seed s d).
Proof.
  intros G seed ty p d s. destruct ty; cbn; try (destruct (_ : bool)); try discriminate; intros [= <-]; reflexivity.
Qed.
Print Assumptions C59_reseeding_equals_construction.

(** C59 refuted for odd dimensions (three by default): one variate of the polar method survives the reseeding, so the same seed gives
    different samples, for every generator whose first two variates differ from the left-over one. *)
Theorem C59_odd_multivariate_reseeding_refuted :
  forall (G : Type) seed u01 polar zq (s0 s : N) a0 b0 g0 a b g,
  polar (seed s0) = ((a0, b0), g0) -> polar (seed s) = ((a, b), g) -> a0 <> b ->
  exists p d x d' y d1 z d2,
    make_dist G seed TMultivariate p = Some d /\ length (dp_mean_vec p) = 1%nat /\
    drun G seed u01 polar zq [OSample] d = Some (x, d') /\
    drun G seed u01 polar zq [OSeed s; OSample] d = Some (y, d1) /\
    drun G seed u01 polar zq [OSeed s; OSample] d' = Some (z, d2) /\ y <> z.
Proof.
  intros G seed u01 polar zq s0 s a0 b0 g0 a b g E0 E Hne.
  exists (mkDP s0 0 1 0 1 [1] [0] [[1]]). cbn [make_dist dp_mean_vec dp_transform dp_seed].
  do 7 eexists. split; [reflexivity|]. split; [reflexivity|].
  cbn [drun sample change_seed forallb length Nat.eqb andb normal_draws normal_draw fst snd combine map dot fold_right].
  rewrite E0. cbn [fst snd]. split; [reflexivity|].
  rewrite E. cbn [fst snd]. split; [reflexivity|]. split; [reflexivity|].
  unfold dot. cbn. intros X. injection X as X. lra.
Qed.
Print Assumptions C59_odd_multivariate_reseeding_refuted.

(** C59: the first component of every sample lies in the reported support (for a normal distribution: if the quantile is
    representable, i.e. within the range of double). *)
Theorem C59_samples_in_support :
  forall (G : Type) seed u01 polar zq ty p d ops ys d' x xs d'',
  (forall g, 0 <= fst (u01 g) < 1) ->
  make_dist G seed ty p = Some d -> ty <> TMultivariate ->
  (ty = TNormal1D -> forall u, 0 < u < 1 -> - dbl_max <= dp_mean p + dp_sd p * zq u <= dbl_max) ->
  drun G seed u01 polar zq ops d = Some (ys, d') -> sample G u01 polar zq d' = Some (x :: xs, d'') ->
  exists lo hi, support0 G d' = Some (lo, hi) /\ support0 G d = Some (lo, hi) /\ lo <= x <= hi.
Proof.
  intros G seed u01 polar zq ty p d ops ys d' x xs d'' Hu Hm Hty Hn Hr Hs.
  destruct (drun_law _ _ _ _ _ _ _ _ _ Hr) as [L _].
  destruct ty; cbn [make_dist] in Hm; try congruence.
  - destruct (kind_ok _) eqn:K; [|discriminate]. injection Hm as <-. cbn [kind_ok] in K. destruct (Rltb_spec (dp_lower p) (dp_upper p)); [|discriminate].
    destruct d' as [|k g|]; cbn [same_law] in L; try tauto. subst k. exists (dp_lower p), (dp_upper p). split; [reflexivity|]. split; [reflexivity|].
    cbn [sample quantile] in Hs. injection Hs as <- _ _. specialize (Hu g). destruct (Reqb_spec (fst (u01 g)) 0); [lra|]. nra.
  - destruct (kind_ok _) eqn:K; [|discriminate]. injection Hm as <-.
    destruct d' as [|k g|]; cbn [same_law] in L; try tauto. subst k. exists (- dbl_max), dbl_max. split; [reflexivity|]. split; [reflexivity|].
    cbn [sample quantile] in Hs. specialize (Hu g). destruct (Reqb_spec (fst (u01 g)) 0); [discriminate|]. injection Hs as <- _ _. apply Hn; [reflexivity|lra].
  - injection Hm as <-. destruct d' as [v|k g|]; cbn [same_law] in L; try tauto. subst v. cbn [sample] in Hs. injection Hs as E _.
    exists x, x. rewrite E. cbn. split; [reflexivity|]. split; [reflexivity|lra].
Qed.
Print Assumptions C59_samples_in_support.

(** C59: a uniform distribution reaches exactly the half-open interval [lower, upper): every value in it is the sample for some draw
    of the generator, and no other value is. *)
Theorem C59_uniform_range :
  forall (zq : R -> R) lo hi y, lo < hi ->
  (exists u, 0 <= u < 1 /\ quantile zq (KUniform lo hi) u = Some y) <-> lo <= y < hi.
Proof.
  intros zq lo hi y Hl. cbn [quantile]. split.
  - intros (u & Hu & [= <-]). destruct (Reqb_spec u 0); nra.
  - intros Hy. exists ((y - lo) / (hi - lo)).
    assert (P : 0 < hi - lo) by lra. assert (E : (y - lo) / (hi - lo) * (hi - lo) = y - lo) by (field; lra).
    split.
    + split; [apply Rmult_le_reg_r with (hi - lo); lra|apply Rmult_lt_reg_r with (hi - lo); lra].
    + destruct (Reqb_spec ((y - lo) / (hi - lo)) 0) as [Z|Z]; [rewrite Z in E; f_equal; lra|f_equal; lra].
Qed.
Print Assumptions C59_uniform_range.

(** Example: a counter as generator; the uniform distribution on [2, 4), reseeded after two samples. *)
Definition cgen_u (n : nat) : R * nat := (/ INR (n + 2), S n).
Definition cgen_p (n : nat) : (R * R) * nat := ((INR n, INR n + 1), S n).
Example C59_nonvacuous :
  (forall g, 0 <= fst (cgen_u g) < 1) /\
  (exists d ys d' zs d'', make_dist nat N.to_nat TUniform1D (mkDP 5 2 4 0 1 [] [] []) = Some d /\
    drun nat N.to_nat cgen_u cgen_p (fun u => u) [OSample; OSample] d = Some (ys, d') /\ d' <> d /\
    drun nat N.to_nat cgen_u cgen_p (fun u => u) [OSeed 0; OSample] d' = Some (zs, d'') /\ zs = [[3]]) /\
  (exists a0 b0 g0 a b g, cgen_p (N.to_nat 0) = ((a0, b0), g0) /\ cgen_p (N.to_nat 1) = ((a, b), g) /\ a0 <> b).
Proof.
  split; [|split].
  - intros g. cbn [cgen_u fst]. assert (2 <= INR (g + 2)) by (rewrite plus_INR; pose proof (pos_INR g); cbn; lra).
    assert (0 < / INR (g + 2)) by (apply Rinv_0_lt_compat; lra). assert (/ INR (g + 2) <= / 2) by (apply Rinv_le_contravar; lra). lra.
  - cbn [make_dist dp_lower dp_upper kind_ok dp_seed]. destruct (Rltb_spec 2 4); [|lra].
    do 5 eexists. split; [reflexivity|]. split; [reflexivity|]. split; [discriminate|]. split; [reflexivity|].
    cbn [cgen_u N.to_nat plus INR fst]. assert (H2 : / (1 + 1) = 1 / 2) by lra. rewrite H2. destruct (Reqb_spec (1 / 2) 0); [lra|]. f_equal. f_equal. lra.
  - do 6 eexists. split; [reflexivity|]. split; [reflexivity|]. change (0 <> 1 + 1). intros H; lra.
Qed.

(** C59. A Bernoulli distribution yields only 0 and 1, and 1 exactly on the upper part of length p of the unit interval. *)
Theorem C59_bernoulli : forall (zq : R -> R) p u, 0 <= p <= 1 -> 0 <= u < 1 ->
  (quantile zq (KBernoulli p) u = Some 1 <-> 1 - p < u) /\ (quantile zq (KBernoulli p) u = Some 0 <-> u <= 1 - p).
Proof.
  intros zq p u Hp Hu. cbn [quantile]. destruct (Rleb_spec u (1 - p)).
  - split; split; intro K; try lra; auto. injection K as K. lra.
  - split; split; intro K; try lra; auto. injection K as K. lra.
Qed.
Print Assumptions C59_bernoulli.
Example C59_bernoulli_nonvacuous : quantile (fun _ => 0) (KBernoulli (1/4)) (7/8) = Some 1 /\ quantile (fun _ => 0) (KBernoulli (1/4)) (1/2) = Some 0.
Proof. cbn [quantile]. destruct (Rleb_spec (7/8) (1 - 1/4)), (Rleb_spec (1/2) (1 - 1/4)); auto; lra. Qed.
