(** C36: BehaviorIDMStochastic. *)
From Coq Require Import Reals List Bool Arith NArith Lra Lia.
From Verif Require Import Base_Real Model_Distribution Props_Distribution Model_IDM Model_Stochastic Spec_Stochastic.
Import ListNotations.
Local Open Scope R_scope.

Section Lemmas.
  Context (G : Type) (seed : N -> G) (u01 : G -> R * G) (polar : G -> (R * R) * G) (zq : R -> R).
  Notation hs := (hsample G u01 polar zq).
  Notation prep := (prepare G u01 polar zq).
  Notation handle := (handle_intention G u01 polar zq).

  Lemma nth_upd {A} (l : list A) i x j : nth_error (upd l i x) j = if Nat.eqb i j then (match nth_error l j with Some _ => Some x | None => None end) else nth_error l j.
  Proof.
    revert i j. induction l as [|y l IH]; intros i j.
    - cbn. destruct j; cbn; destruct (Nat.eqb i _); reflexivity.
    - destruct i, j; cbn; auto.
  Qed.

  Lemma sample_parameters_keeps b h b' h' : sample_parameters G u01 polar zq b h = Some (b', h') ->
    s_ids b' = s_ids b /\ s_use b' = s_use b /\ s_intent b' = s_intent b /\ s_duration b' = s_duration b /\
    s_last_change b' = s_last_change b /\ s_max_lat b' = s_max_lat b.
  Proof.
    unfold sample_parameters. repeat (destruct (hs _ _) as [[? ?]|]; [|discriminate]). intros [= <- <-]. cbn. repeat split.
  Qed.
  Lemma prep_use b h t b' h' : prep b h t = Some (b', h') -> s_use b' = s_use b /\ s_ids b' = s_ids b.
  Proof.
    unfold prepare. destruct (sample_parameters _ _ _ _ b h) as [[b1 h1]|] eqn:E; [|discriminate].
    destruct (sample_parameters_keeps _ _ _ _ E) as (A & B & _). destruct (s_use b) eqn:U; [|intros [= <- <-]; split; congruence].
    unfold handle_intention. destruct (s_intent b1); repeat (destruct (Rleb _ _)); repeat (destruct (hs _ _) as [[? ?]|]);
      try discriminate; intros [= <- <-]; cbn; split; congruence.
  Qed.

  Lemma run_length b calls : forall states, sto_run G u01 polar zq b calls = Some states -> length states = length calls.
  Proof.
    revert b. induction calls as [|[h t] r IH]; intros b states; cbn [sto_run]; [intros [= <-]; reflexivity|].
    destruct (prep b h t) as [[b' h']|]; [|discriminate]. destruct (sto_run _ _ _ _ b' r) eqn:E; [|discriminate]. intros [= <-].
    cbn. f_equal. eapply IH; eauto.
  Qed.
  Lemma run_nth b calls : forall states, sto_run G u01 polar zq b calls = Some states ->
    forall k st, nth_error states k = Some st ->
    exists h t h', nth_error calls k = Some (h, t) /\
      prep (match k with O => b | S k' => nth k' states b end) h t = Some (st, h').
  Proof.
    revert b. induction calls as [|[h t] r IH]; intros b states; cbn [sto_run]; [intros [= <-] [|k]; discriminate|].
    destruct (prep b h t) as [[b' h']|] eqn:P; [|discriminate]. destruct (sto_run _ _ _ _ b' r) as [l|] eqn:E; [|discriminate]. intros [= <-] k st Hk.
    destruct k as [|k]; cbn in Hk.
    - injection Hk as ->. exists h, t, h'. auto.
    - destruct (IH _ _ E k st Hk) as (h1 & t1 & h1' & A & B). exists h1, t1, h1'. split; [exact A|].
      destruct k as [|k]; cbn; [exact B|]. rewrite (nth_indep l b b'); [exact B|].
      apply nth_error_Some_lt in Hk || (assert (S k < length l)%nat by (apply nth_error_Some; congruence); lia).
  Qed.

  (** One call, by the intent before it. *)
  Lemma prep_cases b h t b' h' : prep b h t = Some (b', h') -> s_use b = true ->
    (s_intent b <> NOT_INITIALIZED /\ (t - s_last_change b < s_duration b) /\ s_intent b' = s_intent b /\ s_duration b' = s_duration b /\
       s_last_change b' = s_last_change b /\ s_max_lat b' = s_max_lat b) \/
    ((s_intent b <> NOT_INITIALIZED -> s_duration b <= t - s_last_change b) /\ s_intent b' = other_intent (s_intent b) /\
       s_last_change b' = t /\ s_max_lat b' = (match s_intent b' with YIELD => 8 | _ => 1 end) /\
       exists b1 h1, sample_parameters G u01 polar zq b h = Some (b1, h1) /\
         hs h1 (s_ids b (match s_intent b' with YIELD => SYielding | _ => SNoYielding end)) = Some (s_duration b', h')).
  Proof.
    unfold prepare. destruct (sample_parameters _ _ _ _ b h) as [[b1 h1]|] eqn:E; [|discriminate].
    destruct (sample_parameters_keeps _ _ _ _ E) as (A & B & C & D & F & H). intros P U. rewrite U in P. unfold handle_intention in P.
    rewrite A, C, D, F in P.
    destruct (s_intent b) eqn:I.
    - destruct (Rleb_spec (s_duration b) (t - s_last_change b)) as [L|L].
      + destruct (hs h1 _) as [[d h2]|] eqn:S; [|discriminate]. injection P as <- <-. right. cbn. repeat split; eauto.
      + injection P as <- <-. left. repeat split; try congruence; lra.
    - destruct (Rleb_spec (s_duration b) (t - s_last_change b)) as [L|L].
      + destruct (hs h1 _) as [[d h2]|] eqn:S; [|discriminate]. injection P as <- <-. right. cbn. repeat split; eauto.
      + injection P as <- <-. left. repeat split; try congruence; lra.
    - destruct (hs h1 _) as [[d h2]|] eqn:S; [|discriminate]. injection P as <- <-. right. cbn. repeat split; eauto. congruence.
  Qed.

  Definition inv (calls : list (dheap G * R)) (states : list sto) (k : nat) (st : sto) : Prop :=
    s_use st = true /\ s_intent st <> NOT_INITIALIZED /\ s_max_lat st = (match s_intent st with YIELD => 8 | _ => 1 end) /\
    exists j, phase_start (map s_intent states) k j /\ nth_error (map s_duration states) j = Some (s_duration st) /\
      nth_error (map snd calls) j = Some (s_last_change st).

  Lemma run_inv b calls states : s_use b = true -> s_intent b = NOT_INITIALIZED -> sto_run G u01 polar zq b calls = Some states ->
    forall k st, nth_error states k = Some st -> inv calls states k st.
  Proof.
    intros U I R. induction k as [|k IH]; intros st Hk; destruct (run_nth _ _ _ R _ _ Hk) as (h & t & h' & Hc & P).
    - destruct (prep_cases _ _ _ _ _ P U) as [(C & _)|(_ & Ci & Cl & Cm & b1 & h1 & Cs & Cd)]; [congruence|].
      rewrite I in Ci. cbn in Ci. destruct (prep_use _ _ _ _ _ P) as [U' _]. split; [congruence|]. split; [congruence|]. split; [exact Cm|].
      exists 0%nat. split; [|split].
      + split; [lia|]. split; [|intros j' E; discriminate]. intros i Hi. replace i with 0%nat by lia. reflexivity.
      + rewrite nth_error_map, Hk. reflexivity.
      + rewrite nth_error_map, Hc. cbn. congruence.
    - assert (Hlt : (S k < length states)%nat) by (apply nth_error_Some; congruence).
      destruct (nth_error states k) as [sk|] eqn:Ek; [|apply nth_error_None in Ek; lia].
      specialize (IH _ eq_refl). rewrite (nth_error_nth states k b Ek) in P.
      destruct IH as (Uk & Ik & Mk & j & (Pj1 & Pj2 & Pj3) & Dj & Tj).
      destruct (prep_use _ _ _ _ _ P) as [U' _].
      destruct (prep_cases _ _ _ _ _ P Uk) as [(C0 & C1 & C2 & C3 & C4 & C5)|(C1 & C2 & C3 & C4 & _)].
      + split; [congruence|]. split; [congruence|]. split; [rewrite C5, C2; exact Mk|].
        exists j. split; [|split; congruence]. split; [lia|]. split; [|exact Pj3].
        intros i Hi. destruct (Nat.eq_dec i (S k)) as [->|Hne]; [|apply Pj2; lia].
        rewrite nth_error_map, Hk. cbn. rewrite <- (Pj2 k) by lia. rewrite nth_error_map, Ek. cbn. congruence.
      + split; [congruence|]. split; [rewrite C2; destruct (s_intent sk); discriminate|]. split; [exact C4|].
        exists (S k). split; [|split].
        * split; [lia|]. split; [intros i Hi; replace i with (S k) by lia; reflexivity|].
          intros j' [= <-]. rewrite !nth_error_map, Ek, Hk. cbn. rewrite C2. destruct (s_intent sk); cbn; congruence.
        * rewrite nth_error_map, Hk. reflexivity.
        * rewrite nth_error_map, Hc. cbn. congruence.
  Qed.
End Lemmas.

(** C36: the first planning call takes the yielding intent; afterwards a call switches to the other intent exactly if the duration
    sampled when the current intent was taken has passed since then. Between calls the distributions may change arbitrarily
    (clones planning, reseeding). *)
Theorem C36_intents_follow_sampled_durations :
  forall (G : Type) u01 polar zq (b : sto) (calls : list (dheap G * R)) (states : list sto),
  s_use b = true -> s_intent b = NOT_INITIALIZED -> sto_run G u01 polar zq b calls = Some states ->
  let is := map s_intent states in let ds := map s_duration states in let ts := map snd calls in
  length is = length calls /\
  (calls <> [] -> nth_error is 0 = Some YIELD) /\
  forall k, (S k < length calls)%nat ->
    exists j i d tj t, phase_start is k j /\ (i = YIELD \/ i = NO_YIELD) /\ nth_error is j = Some i /\ nth_error is k = Some i /\
      nth_error ds j = Some d /\ nth_error ts j = Some tj /\ nth_error ts (S k) = Some t /\
      ((d <= t - tj /\ nth_error is (S k) = Some (other_intent i)) \/ (t - tj < d /\ nth_error is (S k) = Some i)).
Proof.
  intros G u01 polar zq b calls states U I R is ds ts. subst is ds ts.
  pose proof (run_length _ _ _ _ _ _ _ R) as L. pose proof (run_inv _ _ _ _ _ _ _ U I R) as V.
  split; [rewrite map_length; exact L|]. split.
  - intros Hne. destruct states as [|s0 r]; [destruct calls; cbn in L; congruence|].
    destruct (run_nth _ _ _ _ _ _ _ R 0%nat s0 eq_refl) as (h & t & h' & _ & P).
    destruct (prep_cases _ _ _ _ _ _ _ _ _ P U) as [(C & _)|(_ & Ci & _)]; [congruence|]. cbn. rewrite Ci, I. reflexivity.
  - intros k Hk. rewrite <- L in Hk.
    destruct (nth_error states (S k)) as [s1|] eqn:E1; [|apply nth_error_None in E1; lia].
    destruct (nth_error states k) as [sk|] eqn:Ek; [|apply nth_error_None in Ek; lia].
    destruct (V _ _ Ek) as (Uk & Ik & _ & j & Pj & Dj & Tj).
    destruct (run_nth _ _ _ _ _ _ _ R _ _ E1) as (h & t & h' & Hc & P). rewrite (nth_error_nth states k b Ek) in P.
    assert (Eij : nth_error (map s_intent states) k = Some (s_intent sk)) by (rewrite nth_error_map, Ek; reflexivity).
    exists j, (s_intent sk), (s_duration sk), (s_last_change sk), t. split; [exact Pj|].
    split; [destruct (s_intent sk); auto; congruence|].
    split; [rewrite <- (proj1 (proj2 Pj) k); [exact Eij|destruct Pj; lia]|]. split; [exact Eij|]. split; [exact Dj|]. split; [exact Tj|].
    split; [rewrite nth_error_map, Hc; reflexivity|].
    rewrite nth_error_map, E1. cbn.
    destruct (prep_cases _ _ _ _ _ _ _ _ _ P Uk) as [(_ & C1 & C2 & _)|(C1 & C2 & _)].
    + right. split; [exact C1|]. congruence.
    + left. split; [auto|]. congruence.
Qed.
Print Assumptions C36_intents_follow_sampled_durations.

(** C36: the duration of an intent is a sample, drawn in the call that takes the intent, of the distribution configured for that
    intent; while an intent lasts its duration does not change. *)
Theorem C36_durations_are_samples_of_the_intent :
  forall (G : Type) u01 polar zq (b : sto) (calls : list (dheap G * R)) (states : list sto) k st,
  s_use b = true -> s_intent b = NOT_INITIALIZED -> sto_run G u01 polar zq b calls = Some states -> nth_error states k = Some st ->
  exists j stj h t h1 h2 i, phase_start (map s_intent states) k j /\ nth_error states j = Some stj /\ nth_error calls j = Some (h, t) /\
    s_duration st = s_duration stj /\ s_intent st = s_intent stj /\
    i = s_ids b (match s_intent st with YIELD => SYielding | _ => SNoYielding end) /\
    (exists b0 b1, s_ids b0 = s_ids b /\ sample_parameters G u01 polar zq b0 h = Some (b1, h1)) /\
    hsample G u01 polar zq h1 i = Some (s_duration st, h2).
Proof.
  intros G u01 polar zq b calls states k st U I R Hk.
  pose proof (run_inv _ _ _ _ _ _ _ U I R) as V.
  assert (Ids : forall k st, nth_error states k = Some st -> s_ids st = s_ids b).
  { induction k0 as [|k0 IH]; intros st0 H0; destruct (run_nth _ _ _ _ _ _ _ R _ _ H0) as (h & t & h' & Hc & P);
      destruct (prep_use _ _ _ _ _ _ _ _ _ P) as [_ E]; [exact E|].
    destruct (nth_error states k0) as [s1|] eqn:E1.
    - rewrite (nth_error_nth states k0 b E1) in E. rewrite E. auto.
    - apply nth_error_None in E1. assert (S k0 < length states)%nat by (apply nth_error_Some; congruence). lia. }
  destruct (V _ _ Hk) as (_ & Ik & _ & j & Pj & Dj & Tj).
  assert (Hjk : nth_error (map s_intent states) j = Some (s_intent st)).
  { rewrite <- (proj1 (proj2 Pj) k); [rewrite nth_error_map, Hk; reflexivity|destruct Pj; lia]. }
  rewrite nth_error_map in Hjk, Dj. destruct (nth_error states j) as [stj|] eqn:Ej; [|discriminate]. cbn in Hjk, Dj.
  injection Hjk as Hi. injection Dj as Hd.
  destruct (run_nth _ _ _ _ _ _ _ R _ _ Ej) as (h & t & h' & Hc & P).
  set (b0 := match j with O => b | S j' => nth j' states b end) in *.
  assert (U0 : s_use b0 = true /\ s_ids b0 = s_ids b /\ s_intent b0 <> s_intent stj).
  { unfold b0. destruct j as [|j']; [split; [exact U|]; split; [reflexivity|]; rewrite I, Hi; congruence|].
    destruct (nth_error states j') as [s1|] eqn:E1.
    - rewrite (nth_error_nth states j' b E1). destruct (V _ _ E1) as (? & _). split; [assumption|]. split; [eauto|].
      destruct Pj as (_ & _ & Pj). specialize (Pj _ eq_refl). rewrite !nth_error_map, E1, Ej in Pj. cbn in Pj. congruence.
    - apply nth_error_None in E1. assert (S j' < length states)%nat by (apply nth_error_Some; congruence). lia. }
  destruct U0 as (U0 & Id0 & Ne).
  destruct (prep_cases _ _ _ _ _ _ _ _ _ P U0) as [(_ & _ & C & _)|(_ & _ & _ & _ & b1 & h1 & S1 & S2)]; [congruence|].
  exists j, stj, h, t, h1, h'. eexists. split; [exact Pj|]. split; [exact Ej|]. split; [exact Hc|]. split; [congruence|]. split; [congruence|].
  split; [reflexivity|]. split; [eauto|]. rewrite <- Hd, <- Hi, <- Id0. exact S2.
Qed.
Print Assumptions C36_durations_are_samples_of_the_intent.

(** C36: the lateral tolerance for "vehicle in front" is 8 m while yielding and 1 m while not yielding; without the intention
    mechanism neither intent nor tolerance ever changes. *)
Theorem C36_lateral_tolerance_matches_intent :
  forall (G : Type) u01 polar zq (b : sto) (calls : list (dheap G * R)) (states : list sto) k st,
  s_intent b = NOT_INITIALIZED -> sto_run G u01 polar zq b calls = Some states -> nth_error states k = Some st ->
  (s_use b = true -> (s_intent st = YIELD /\ s_max_lat st = 8) \/ (s_intent st = NO_YIELD /\ s_max_lat st = 1)) /\
  (s_use b = false -> s_intent st = NOT_INITIALIZED /\ s_max_lat st = s_max_lat b).
Proof.
  intros G u01 polar zq b calls states k st I R Hk. split; intros U.
  - destruct (run_inv _ _ _ _ _ _ _ U I R _ _ Hk) as (_ & Ik & M & _). destruct (s_intent st); auto; congruence.
  - revert b states k I R Hk U. induction calls as [|[h t] r IH]; intros b states k I R Hk U; cbn [sto_run] in R.
    + injection R as <-. destruct k; discriminate.
    + destruct (prepare G u01 polar zq b h t) as [[b' h']|] eqn:P; [|discriminate].
      destruct (prep_use _ _ _ _ _ _ _ _ _ P) as [U' _].
      assert (Q : s_intent b' = s_intent b /\ s_max_lat b' = s_max_lat b).
      { unfold prepare in P. destruct (sample_parameters _ _ _ _ b h) as [[b1 h1]|] eqn:E; [|discriminate].
        rewrite U in P. injection P as <- <-. destruct (sample_parameters_keeps _ _ _ _ _ _ _ _ E) as (_ & _ & A & _ & _ & B). auto. }
      destruct (sto_run _ _ _ _ b' r) as [l|] eqn:E; [|discriminate]. injection R as <-.
      destruct Q as [Q1 Q2]. destruct k as [|k]; cbn in Hk.
      * injection Hk as <-. split; congruence.
      * destruct (IH b' l k) as [A B]; try congruence. split; congruence.
Qed.
Print Assumptions C36_lateral_tolerance_matches_intent.

(** The value of an IDM parameter, by the distribution it comes from. *)
Definition param_of (p : idm_params) (s : slot) : option R :=
  match s with
  | SHeadway => Some (time_headway p) | SSpacing => Some (min_spacing p) | SMaxAcc => Some (max_acc p)
  | SDesiredVel => Some (desired_vel p) | SComftBraking => Some (comf_brake p) | SCoolness => Some (coolness p)
  | _ => None
  end.
Definition is_param (s : slot) : Prop := s <> SYielding /\ s <> SNoYielding.

Section Params.
  Context (G : Type) (seed : N -> G) (u01 : G -> R * G) (polar : G -> (R * R) * G) (zq : R -> R).
  Notation hs := (hsample G u01 polar zq).
  Lemma hs_nth h i x h' : hs h i = Some (x, h') -> exists d xs d', nth_error h i = Some d /\ sample G u01 polar zq d = Some (x :: xs, d') /\
    nth_error h' i = Some d' /\ (forall j, j <> i -> nth_error h' j = nth_error h j).
  Proof.
    unfold hsample. destruct (nth_error h i) as [d|] eqn:E; [|discriminate]. destruct (sample G u01 polar zq d) as [[[|y ys] d']|] eqn:S; try discriminate.
    intros [= <- <-]. exists d, ys, d'. split; [reflexivity|]. split; [exact S|]. split.
    - rewrite nth_upd, Nat.eqb_refl, E. reflexivity.
    - intros j Hj. rewrite nth_upd. destruct (Nat.eqb_spec i j); [congruence|reflexivity].
  Qed.

  (** SampleParameters, described per parameter. *)
  Lemma sample_parameters_spec b h b' h' : (forall s s', s_ids b s = s_ids b s' -> s = s') -> sample_parameters G u01 polar zq b h = Some (b', h') ->
    (forall s, is_param s -> exists d x xs d', nth_error h (s_ids b s) = Some d /\ sample G u01 polar zq d = Some (x :: xs, d') /\
       param_of (s_idm b') s = Some x /\ nth_error h' (s_ids b s) = Some d') /\
    (forall j, (forall s, is_param s -> j <> s_ids b s) -> nth_error h' j = nth_error h j).
  Proof.
    intros Inj. unfold sample_parameters.
    destruct (hs h (s_ids b SHeadway)) as [[x1 h1]|] eqn:E1; [|discriminate]. destruct (hs h1 (s_ids b SSpacing)) as [[x2 h2]|] eqn:E2; [|discriminate].
    destruct (hs h2 (s_ids b SMaxAcc)) as [[x3 h3]|] eqn:E3; [|discriminate]. destruct (hs h3 (s_ids b SDesiredVel)) as [[x4 h4]|] eqn:E4; [|discriminate].
    destruct (hs h4 (s_ids b SComftBraking)) as [[x5 h5]|] eqn:E5; [|discriminate]. destruct (hs h5 (s_ids b SCoolness)) as [[x6 h6]|] eqn:E6; [|discriminate].
    intros [= <- <-].
    apply hs_nth in E1 as (d1 & y1 & e1 & A1 & B1 & C1 & D1). apply hs_nth in E2 as (d2 & y2 & e2 & A2 & B2 & C2 & D2).
    apply hs_nth in E3 as (d3 & y3 & e3 & A3 & B3 & C3 & D3). apply hs_nth in E4 as (d4 & y4 & e4 & A4 & B4 & C4 & D4).
    apply hs_nth in E5 as (d5 & y5 & e5 & A5 & B5 & C5 & D5). apply hs_nth in E6 as (d6 & y6 & e6 & A6 & B6 & C6 & D6).
    assert (Ne : forall s s', s <> s' -> s_ids b s <> s_ids b s') by (intros s s' H H'; apply H, Inj, H').
    split.
    - intros s [Hs1 Hs2]. destruct s; try congruence.
      + exists d1, x1, y1, e1. repeat split; auto. rewrite D6, D5, D4, D3, D2; auto; apply Ne; discriminate.
      + exists d2, x2, y2, e2. repeat split; auto; [rewrite <- A2; symmetry; apply D1; apply Ne; discriminate|].
        rewrite D6, D5, D4, D3; auto; apply Ne; discriminate.
      + exists d3, x3, y3, e3. repeat split; auto; [rewrite <- A3, D2, D1; auto; apply Ne; discriminate|].
        rewrite D6, D5, D4; auto; apply Ne; discriminate.
      + exists d4, x4, y4, e4. repeat split; auto; [rewrite <- A4, D3, D2, D1; auto; apply Ne; discriminate|].
        rewrite D6, D5; auto; apply Ne; discriminate.
      + exists d5, x5, y5, e5. repeat split; auto; [rewrite <- A5, D4, D3, D2, D1; auto; apply Ne; discriminate|].
        rewrite D6; auto; apply Ne; discriminate.
      + exists d6, x6, y6, e6. repeat split; auto. rewrite <- A6, D5, D4, D3, D2, D1; auto; apply Ne; discriminate.
    - intros j Hj. rewrite D6, D5, D4, D3, D2, D1; auto; apply Hj; split; discriminate.
  Qed.

  Lemma handle_other b h t b' h' : handle_intention G u01 polar zq b h t = Some (b', h') ->
    s_idm b' = s_idm b /\ forall j, j <> s_ids b SYielding -> j <> s_ids b SNoYielding -> nth_error h' j = nth_error h j.
  Proof.
    unfold handle_intention. destruct (s_intent b); repeat (destruct (Rleb _ _)); try (intros [= <- <-]; split; auto; fail);
      (destruct (hs _ _) as [[x h1]|] eqn:E; [|discriminate]); intros [= <- <-]; apply hs_nth in E as (? & ? & ? & _ & _ & _ & D); split; auto.
  Qed.
  Lemma prepare_spec b h t b' h' : (forall s s', s_ids b s = s_ids b s' -> s = s') -> prepare G u01 polar zq b h t = Some (b', h') ->
    (forall s, is_param s -> exists d x xs d', nth_error h (s_ids b s) = Some d /\ sample G u01 polar zq d = Some (x :: xs, d') /\
       param_of (s_idm b') s = Some x /\ nth_error h' (s_ids b s) = Some d').
  Proof.
    intros Inj P s Hs. unfold prepare in P. destruct (sample_parameters _ _ _ _ b h) as [[b1 h1]|] eqn:E; [|discriminate].
    destruct (sample_parameters_spec _ _ _ _ Inj E) as [A _]. destruct (A s Hs) as (d & x & xs & d' & A1 & A2 & A3 & A4).
    destruct (sample_parameters_keeps _ _ _ _ _ _ _ _ E) as (I & _).
    exists d, x, xs, d'. split; [exact A1|]. split; [exact A2|].
    destruct (s_use b); [|injection P as <- <-; auto].
    destruct (handle_other _ _ _ _ _ P) as [-> K]. split; [exact A3|]. rewrite K; [exact A4| |]; rewrite I; intros X; apply Inj in X; destruct Hs; congruence.
  Qed.
End Params.

(** C36: every plan uses parameters freshly sampled from the configured distributions, each inside its reported region (uniform
    distributions and fixed values; nobody else's distributions are touched or used: the eight of a constructed behaviour are its own). *)
Theorem C36_parameters_in_reported_regions :
  forall (G : Type) seed u01 polar zq cfg use max_lat idm h0 (b : sto) h1 hops (h : dheap G) t b' h' s lo hi,
  (forall g, 0 <= fst (u01 g) < 1) ->
  construct G seed cfg use max_lat idm h0 = Some (b, h1) ->
  is_param s -> fst (cfg s) = TUniform1D \/ fst (cfg s) = TFixed ->
  (forall d, nth_error h1 (s_ids b s) = Some d -> exists ys d', drun G seed u01 polar zq hops d = Some (ys, d') /\ nth_error h (s_ids b s) = Some d') ->
  prepare G u01 polar zq b h t = Some (b', h') ->
  parameter_region G b h1 s = Some (lo, hi) ->
  exists x, param_of (s_idm b') s = Some x /\ lo <= x <= hi /\ parameter_region G b h' s = Some (lo, hi).
Proof.
  intros G seed u01 polar zq cfg use max_lat idm h0 b h1 hops h t b' h' s lo hi Hu Hc Hs Hk Hh P Hr.
  unfold construct in Hc. destruct (make_all G seed cfg slots) as [ds|] eqn:M; [|discriminate]. injection Hc as <- <-. cbn [s_ids] in *.
  assert (D : exists d, make_dist G seed (fst (cfg s)) (snd (cfg s)) = Some d /\ nth_error ds (slot_index s) = Some d).
  { unfold slots in M. cbn [make_all] in M.
    repeat match type of M with context [make_dist G seed (fst (cfg ?x)) (snd (cfg ?x))] => destruct (make_dist G seed (fst (cfg x)) (snd (cfg x))) eqn:?; [|try discriminate M; repeat (destruct (make_dist _ _ _ _)); discriminate M] end.
    injection M as <-. destruct s; eexists; split; eauto. }
  destruct D as (d & Md & Nd).
  assert (Nh : nth_error (h0 ++ ds) (length h0 + slot_index s) = Some d).
  { rewrite nth_error_app2 by lia. replace (length h0 + slot_index s - length h0)%nat with (slot_index s) by lia. exact Nd. }
  destruct (Hh d Nh) as (ys & d' & Rd & Nd').
  unfold parameter_region in *. cbn [s_ids] in Hr. rewrite Nh in Hr.
  assert (Inj : forall a b0, (length h0 + slot_index a)%nat = (length h0 + slot_index b0)%nat -> a = b0).
  { intros a c E. assert (E' : slot_index a = slot_index c) by lia. destruct a, c; cbn in E'; congruence. }
  destruct ((fun I => prepare_spec G u01 polar zq _ _ _ _ _ I P s Hs) Inj) as (e & x & xs & e' & A1 & A2 & A3 & A4). cbn [s_ids] in A1, A4.
  assert (e = d') by congruence. subst e. exists x. split; [exact A3|].
  destruct (C59_samples_in_support G seed u01 polar zq _ _ d hops ys d' x xs e' Hu Md) as (lo' & hi' & S1 & S2 & S3); auto.
  1,2: destruct Hk as [K|K]; rewrite K; discriminate.
  assert (lo' = lo /\ hi' = hi) by (split; congruence). destruct H as [-> ->]. split; [exact S3|].
  cbn [s_ids]. rewrite A4. destruct (sample_law _ _ _ _ _ _ _ A2) as [L _].
  destruct d', e'; cbn [same_law] in L; try tauto; subst; try exact S1. destruct L as [-> ->]. exact S1.
Qed.
Print Assumptions C36_parameters_in_reported_regions.

(** C36: ChangeSeed(s) makes the sampled parameters reproducible: two behaviours built from the same configuration up to their random
    seeds, whatever each has done before, plan with the same parameters after ChangeSeed(s), call by call (uniform, normal, fixed). *)
Section Reseed.
  Context (G : Type) (seed : N -> G) (u01 : G -> R * G) (polar : G -> (R * R) * G) (zq : R -> R).
  Definition agree (b1 : sto) (h1 : dheap G) (b2 : sto) (h2 : dheap G) : Prop :=
    forall s, is_param s -> nth_error h1 (s_ids b1 s) = nth_error h2 (s_ids b2 s).
  Definition ids_inj (b : sto) : Prop := forall s s', s_ids b s = s_ids b s' -> s = s'.
  Lemma alone_agree times1 : forall times2 b1 h1 b2 h2 l1 e1 k1 l2 e2 k2, ids_inj b1 -> ids_inj b2 -> agree b1 h1 b2 h2 -> length times1 = length times2 ->
    sto_run_alone G u01 polar zq b1 h1 times1 = Some (l1, e1, k1) -> sto_run_alone G u01 polar zq b2 h2 times2 = Some (l2, e2, k2) ->
    forall s, is_param s -> map (fun b => param_of (s_idm b) s) l1 = map (fun b => param_of (s_idm b) s) l2.
  Proof.
    induction times1 as [|t1 r1 IH]; intros [|t2 r2] b1 h1 b2 h2 l1 e1 k1 l2 e2 k2 I1 I2 A L; try discriminate; cbn [sto_run_alone].
    - intros [= <- _ _] [= <- _ _] s _. reflexivity.
    - destruct (prepare G u01 polar zq b1 h1 t1) as [[b1' h1']|] eqn:P1; [|discriminate].
      destruct (prepare G u01 polar zq b2 h2 t2) as [[b2' h2']|] eqn:P2; [|discriminate].
      destruct (sto_run_alone G u01 polar zq b1' h1' r1) as [[[m1 f1] g1]|] eqn:R1; [|discriminate].
      destruct (sto_run_alone G u01 polar zq b2' h2' r2) as [[[m2 f2] g2]|] eqn:R2; [|discriminate].
      intros [= <- _ _] [= <- _ _].
      destruct (prep_use _ _ _ _ _ _ _ _ _ P1) as [_ J1]. destruct (prep_use _ _ _ _ _ _ _ _ _ P2) as [_ J2].
      pose proof (prepare_spec _ _ _ _ _ _ _ _ _ I1 P1) as S1. pose proof (prepare_spec _ _ _ _ _ _ _ _ _ I2 P2) as S2.
      intros s Hs. cbn [map]. f_equal.
      + destruct (S1 s Hs) as (d1 & x1 & y1 & z1 & A1 & B1 & C1 & D1). destruct (S2 s Hs) as (d2 & x2 & y2 & z2 & A2 & B2 & C2 & D2).
        rewrite (A s Hs) in A1. rewrite A1 in A2. injection A2 as ->. rewrite B1 in B2. congruence.
      + apply (IH r2 b1' h1' b2' h2' m1 f1 g1 m2 f2 g2); auto; try (unfold ids_inj; congruence).
        * unfold ids_inj in *. rewrite J1. exact I1.
        * unfold ids_inj in *. rewrite J2. exact I2.
        * intros s' Hs'. rewrite J1, J2.
          destruct (S1 s' Hs') as (d1 & x1 & y1 & z1 & A1 & B1 & C1 & D1). destruct (S2 s' Hs') as (d2 & x2 & y2 & z2 & A2 & B2 & C2 & D2).
          rewrite (A s' Hs') in A1. rewrite A1 in A2. injection A2 as ->. rewrite B1 in B2. congruence.
  Qed.
  (** ChangeSeed, described per distribution. *)
  Lemma change_seed_nth s b h j : ids_inj b -> nth_error (change_seed_sto G seed s b h) j =
    if existsb (fun sl => Nat.eqb (s_ids b sl) j) [SHeadway; SSpacing; SMaxAcc; SDesiredVel; SComftBraking; SCoolness]
    then option_map (change_seed G seed s) (nth_error h j) else nth_error h j.
  Proof.
    intros Inj. unfold change_seed_sto.
    assert (Gn : forall l h0, NoDup (map (s_ids b) l) -> nth_error (fold_left (fun h' sl => reseed_at G seed s h' (s_ids b sl)) l h0) j =
      if existsb (fun sl => Nat.eqb (s_ids b sl) j) l then option_map (change_seed G seed s) (nth_error h0 j) else nth_error h0 j).
    { induction l as [|sl l IH]; intros h0 ND; cbn [fold_left existsb]; [reflexivity|]. inversion ND as [|? ? N1 N2]; subst.
      rewrite IH by exact N2. unfold reseed_at. destruct (Nat.eqb_spec (s_ids b sl) j) as [E|E]; cbn [orb].
      - assert (existsb (fun sl0 => Nat.eqb (s_ids b sl0) j) l = false) as ->.
        { apply not_true_is_false. intros X. apply existsb_exists in X as (y & Y1 & Y2). apply Nat.eqb_eq in Y2. apply N1.
          rewrite E, <- Y2. apply in_map. exact Y1. }
        subst j. destruct (nth_error h0 (s_ids b sl)) as [d|] eqn:Ed; [|rewrite Ed; reflexivity].
        rewrite nth_upd, Nat.eqb_refl, Ed. reflexivity.
      - destruct (nth_error h0 (s_ids b sl)) as [d|]; [|reflexivity]. rewrite nth_upd.
        destruct (Nat.eqb_spec (s_ids b sl) j); [congruence|reflexivity]. }
    apply Gn. cbn. repeat constructor; cbn; intros H; repeat (destruct H as [H|H]; [apply Inj in H; discriminate H|]); exact H.
  Qed.
End Reseed.

Theorem C36_reseeding_reproduces_parameters :
  forall (G : Type) seed u01 polar zq (b1 : sto) (h1 : dheap G) (b2 : sto) (h2 : dheap G) s times1 times2 l1 e1 k1 l2 e2 k2,
  ids_inj b1 -> ids_inj b2 ->
  (forall sl, is_param sl -> exists d1 d2, nth_error h1 (s_ids b1 sl) = Some d1 /\ nth_error h2 (s_ids b2 sl) = Some d2 /\
     same_law d1 d2 /\ reseedable d1 /\ reseedable d2) ->
  length times1 = length times2 ->
  sto_run_alone G u01 polar zq b1 (change_seed_sto G seed s b1 h1) times1 = Some (l1, e1, k1) ->
  sto_run_alone G u01 polar zq b2 (change_seed_sto G seed s b2 h2) times2 = Some (l2, e2, k2) ->
  forall sl, is_param sl -> map (fun b => param_of (s_idm b) sl) l1 = map (fun b => param_of (s_idm b) sl) l2.
Proof.
  intros G seed u01 polar zq b1 h1 b2 h2 s times1 times2 l1 e1 k1 l2 e2 k2 I1 I2 Law L R1 R2.
  refine (alone_agree G u01 polar zq times1 times2 b1 _ b2 _ l1 e1 k1 l2 e2 k2 I1 I2 _ L R1 R2).
  intros sl Hs. rewrite !change_seed_nth by assumption.
  assert (X : forall b : sto, existsb (fun sl0 => Nat.eqb (s_ids b sl0) (s_ids b sl)) [SHeadway; SSpacing; SMaxAcc; SDesiredVel; SComftBraking; SCoolness] = true).
  { intros b. apply existsb_exists. exists sl. split; [destruct Hs as [H1 H2]; destruct sl; cbn; tauto|apply Nat.eqb_refl]. }
  rewrite !X. destruct (Law sl Hs) as (d1 & d2 & -> & -> & A & B & C). cbn. f_equal. apply reseed_eq; assumption.
Qed.
Print Assumptions C36_reseeding_reproduces_parameters.

(** The default configuration: uniform distributions on [0, 1), with a random seed. *)
Definition ucfg (sd : N) : slot -> dist_type * dist_params := fun _ => (TUniform1D, mkDP sd 0 1 0 1 [] [] []).
Definition uds {G} (g : G) : dist G := DBoost (KUniform 0 1) g.
Lemma ucfg_construct G seed sd use lat idm : construct G seed (ucfg sd) use lat idm [] =
  Some (mkSto slot_index use NOT_INITIALIZED 0 0 lat idm, repeat (uds (seed sd)) 8).
Proof. unfold construct, ucfg. cbn. destruct (Rltb_spec 0 1); [reflexivity|lra]. Qed.
Lemma uq zq u : quantile zq (KUniform 0 1) u = Some u.
Proof. cbn. destruct (Reqb_spec u 0); f_equal; lra. Qed.

Ltac usimp := cbn [prepare sample_parameters s_ids s_use s_idm s_intent s_duration s_last_change s_max_lat slot_index hsample nth_error repeat sample
  upd fst snd app]; rewrite ?uq.

(** C36: the intents are NOT reproducible: ChangeSeed leaves the two duration distributions alone. Two behaviours that differ only in
    their configured random seed, both reseeded with the same s, take different intents at the same world time (for every generator
    whose first draws for the two configured seeds differ). *)
Theorem C36_reseeded_intents_reproducible_refuted :
  forall (G : Type) seed u01 polar zq (s1 s2 s : N) lat idm,
  (forall g, 0 <= fst (u01 g) < 1) -> fst (u01 (seed s1)) < fst (u01 (seed s2)) ->
  exists b1 h1 b2 h2 t x1 y1 z1 k1 x2 y2 z2 k2,
    construct G seed (ucfg s1) true lat idm [] = Some (b1, h1) /\ construct G seed (ucfg s2) true lat idm [] = Some (b2, h2) /\ b1 = b2 /\
    sto_run_alone G u01 polar zq b1 (change_seed_sto G seed s b1 h1) [0; t] = Some ([x1; y1], z1, k1) /\
    sto_run_alone G u01 polar zq b2 (change_seed_sto G seed s b2 h2) [0; t] = Some ([x2; y2], z2, k2) /\
    s_intent y1 = NO_YIELD /\ s_intent y2 = YIELD.
Proof.
  intros G seed u01 polar zq s1 s2 s lat idm Hu Hlt.
  rewrite !ucfg_construct. do 4 eexists. exists (fst (u01 (seed s1))). do 8 eexists. split; [reflexivity|]. split; [reflexivity|]. split; [reflexivity|].
  unfold change_seed_sto. cbn [fold_left s_ids slot_index reseed_at nth_error repeat upd change_seed uds].
  cbn [sto_run_alone].
  unfold prepare, sample_parameters. cbn [s_ids slot_index].
  unfold hsample.
  repeat (progress (cbn [nth_error repeat sample uds fst snd upd s_ids slot_index s_use s_idm s_intent handle_intention s_duration s_last_change set_intent]; rewrite ?uq; unfold hsample)).
  destruct (Rleb_spec (fst (u01 (seed s1))) (fst (u01 (seed s1)) - 0)) as [_|X]; [|exfalso; lra].
  destruct (Rleb_spec (fst (u01 (seed s2))) (fst (u01 (seed s1)) - 0)) as [X|_]; [exfalso; lra|].
  repeat (progress (cbn [nth_error repeat sample uds fst snd upd s_ids slot_index]; rewrite ?uq)).
  split; [reflexivity|]. split; [reflexivity|]. split; reflexivity.
Qed.
Print Assumptions C36_reseeded_intents_reproducible_refuted.

(** C36: planning with a clone is NOT free of side effects: the clone shares the distributions, so its plan changes the parameters the
    original uses next (for every generator whose first two draws differ). *)
Theorem C36_clone_planning_isolated_refuted :
  forall (G : Type) seed u01 polar zq (sd : N) lat idm t,
  fst (u01 (seed sd)) <> fst (u01 (snd (u01 (seed sd)))) ->
  exists b h b1 h1 b2 h2 c hc,
    construct G seed (ucfg sd) false lat idm [] = Some (b, h) /\
    prepare G u01 polar zq b h t = Some (b1, h1) /\
    prepare G u01 polar zq (clone_sto b) h t = Some (c, hc) /\ prepare G u01 polar zq b hc t = Some (b2, h2) /\
    time_headway (s_idm b1) <> time_headway (s_idm b2).
Proof.
  intros G seed u01 polar zq sd lat idm t Hne. rewrite ucfg_construct. do 8 eexists. split; [reflexivity|].
  unfold prepare, sample_parameters, clone_sto. cbn [s_ids slot_index].
  unfold hsample.
  repeat (progress (cbn [nth_error repeat sample uds fst snd upd s_ids slot_index s_use s_idm]; rewrite ?uq; unfold hsample)).
  split; [reflexivity|]. split; [reflexivity|].
  repeat (progress (cbn [nth_error repeat sample uds fst snd upd s_ids slot_index s_use s_idm]; rewrite ?uq; unfold hsample)).
  split; [reflexivity|]. cbn [s_idm time_headway]. exact Hne.
Qed.
Print Assumptions C36_clone_planning_isolated_refuted.

(** Example: the counter generator of C59; three planning calls, at which the behaviour takes the yielding intent, keeps it and
    switches. *)
Example C36_nonvacuous :
  exists b h states, construct nat N.to_nat (ucfg 0) true 0 (mkIDM 2 1 1 10 1 0 30 4 8 (-5) false 60 15 11 0) [] = Some (b, h) /\
    s_use b = true /\ s_intent b = NOT_INITIALIZED /\ ids_inj b /\
    sto_run nat cgen_u cgen_p (fun u => u) b [(h, 0); (h, 1 / 4); (h, 1)] = Some states /\ map s_intent states = [YIELD; YIELD; NO_YIELD] /\
    fst (cgen_u (N.to_nat 1)) < fst (cgen_u (N.to_nat 0)).
Proof.
  rewrite ucfg_construct. do 3 eexists. split; [reflexivity|]. split; [reflexivity|]. split; [reflexivity|].
  split; [intros a c E; destruct a, c; cbn in E; congruence|].
  assert (E2 : fst (cgen_u 0) = 1 / 2) by (unfold cgen_u; cbn [fst plus INR]; field). assert (E3 : fst (cgen_u 1) = 1 / 3) by (unfold cgen_u; cbn [fst plus INR]; field).
  cbn [sto_run]. unfold prepare, sample_parameters. cbn [s_ids slot_index]. change (N.to_nat 0) with 0%nat. change (N.to_nat 1) with 1%nat. unfold hsample.
  repeat (progress (cbn [nth_error repeat sample uds upd s_ids slot_index s_use s_idm s_intent handle_intention s_duration s_last_change set_intent]; rewrite ?uq; unfold hsample)).
  rewrite E2. destruct (Rleb_spec (1 / 2) (1 / 4 - 0)) as [X|_]; [exfalso; lra|].
  repeat (progress (cbn [nth_error repeat sample uds upd s_ids slot_index s_use s_idm s_intent handle_intention s_duration s_last_change set_intent]; rewrite ?uq; unfold hsample)).
  destruct (Rleb_spec (1 / 2) (1 - 0)) as [_|X]; [|exfalso; lra].
  repeat (progress (cbn [nth_error repeat sample uds upd s_ids slot_index s_use s_idm s_intent handle_intention s_duration s_last_change set_intent]; rewrite ?uq; unfold hsample)).
  split; [reflexivity|]. split; [reflexivity|]. lra.
Qed.
