(** C18, C19, C47: safe distances. *)
From Coq Require Import List NArith Bool Reals Lra Psatz.
From Verif Require Import Base_Real Model_SafeDist Spec_SafeDist Proof_SafeDist.
Import ListNotations.
Local Open Scope R_scope.

Lemma ztp_lt x y : 0 <= y -> (zero_to_positive x < y <-> x < y /\ 0 < y).
Proof. intros H. unfold zero_to_positive. destruct (Rltb_spec x 0); lra. Qed.

Section Translate.
  Variables v_f v_r dist a_r a_f delta : R.
  Hypotheses (Hr : a_r < 0) (Hf : a_f < 0) (Hvf : 0 <= v_f) (Hvr : 0 <= v_r) (Hd : 0 <= delta).
  Let F := - a_f. Let A := - a_r. Let P := - v_f / a_f. Let T := - v_r / a_r.
  Lemma tr_AT : A * T = v_r. Proof. unfold A, T. field. lra. Qed.
  Lemma tr_FP : F * P = v_f. Proof. unfold F, P. field. lra. Qed.
  Lemma tr_ATT : A * T ^ 2 / 2 = - v_r ^ 2 / (2 * a_r). Proof. unfold A, T. field. lra. Qed.
  Lemma tr_FPP : F * P ^ 2 / 2 = - v_f ^ 2 / (2 * a_f). Proof. unfold F, P. field. lra. Qed.
  Lemma tr_P : 0 <= P.
  Proof. unfold P. replace (- v_f / a_f) with (v_f * / - a_f) by (field; lra). apply Rmult_le_pos; [lra|].
    left. apply Rinv_0_lt_compat. lra. Qed.
  Lemma tr_T : 0 <= T.
  Proof. unfold T. replace (- v_r / a_r) with (v_r * / - a_r) by (field; lra). apply Rmult_le_pos; [lra|].
    left. apply Rinv_0_lt_compat. lra. Qed.
  Lemma tr_gap t : gap F P A T delta dist t = dist + braking a_f v_f t - react_and_brake delta a_r v_r t.
  Proof. unfold gap. rewrite (braking_B a_f v_f t Hf), (rb_RB delta a_r v_r t Hr). reflexivity. Qed.
  Lemma tr_touch : never_touch v_f v_r dist a_r a_f delta <-> forall t, 0 <= t -> 0 < gap F P A T delta dist t.
  Proof.
    unfold never_touch. split; intros H t Ht; specialize (H t Ht); rewrite ?tr_gap in *; lra.
  Qed.
  Lemma tr_sd0 : safe_distance0 v_r a_r delta = A * T * delta + A * T ^ 2 / 2.
  Proof. unfold safe_distance0. rewrite tr_AT, tr_ATT. field. lra. Qed.
  Lemma tr_sd1 : safe_distance1 v_r v_f a_r a_f delta = A * T * delta + A * T ^ 2 / 2 - F * P ^ 2 / 2.
  Proof. unfold safe_distance1. rewrite tr_AT, tr_ATT, tr_FPP. field. lra. Qed.
  Lemma tr_sd3 : safe_distance3 v_r v_f a_r a_f delta =
    A * T * delta + A * T ^ 2 / 2 - F * (P * delta - delta ^ 2 / 2).
  Proof.
    unfold safe_distance3. rewrite tr_AT, tr_ATT. replace (F * (P * delta - delta ^ 2 / 2))
      with (F * P * delta + a_f * delta ^ 2 / 2) by (unfold F; field). rewrite tr_FP. field. lra.
  Qed.
  Lemma tr_fstar : v_f + a_f * delta = F * (P - delta).
  Proof. replace (F * (P - delta)) with (F * P + a_f * delta) by (unfold F; ring). rewrite tr_FP. ring. Qed.
  Lemma tr_sd2 : a_r < a_f -> safe_distance2 v_r v_f a_r a_f delta =
    (F * (P - delta) - A * T) ^ 2 / (2 * (A - F)) - F * (P * delta - delta ^ 2 / 2) + A * T * delta.
  Proof.
    intros Hra. unfold safe_distance2. rewrite tr_fstar, tr_AT.
    replace (F * (P * delta - delta ^ 2 / 2)) with (F * P * delta + a_f * delta ^ 2 / 2) by (unfold F; field).
    rewrite tr_FP. unfold F, A. field. lra.
  Qed.
  Lemma tr_stopf : - (v_f + a_f * delta) / a_f = P - delta.
  Proof. unfold P. field. lra. Qed.
  Lemma tr_closest : closest_in_motion v_f v_r a_r a_f delta <->
    (delta <= P /\ F < A /\ F * (P - delta) < A * T /\ T < P - delta).
  Proof. unfold closest_in_motion. rewrite tr_stopf, tr_fstar, tr_AT. fold P T.
    assert (a_r < a_f <-> F < A) by (unfold F, A; lra). tauto. Qed.

  (** the second branch of the check is dead code *)
  Lemma branch2_dead : Rleb delta P && Rltb a_r a_f && Rltb (vel_front_star v_f a_f delta) v_r
      && Rltb T (- vel_front_star v_f a_f delta / a_r) = false.
  Proof.
    apply not_true_is_false. intros H. rewrite !andb_true_iff, Rleb_iff, !Rltb_iff in H.
    destruct H as [[[_ _] H1] H2]. unfold T in H2.
    assert (- a_r * (- v_r / a_r) < - a_r * (- vel_front_star v_f a_f delta / a_r)) by (apply Rmult_lt_compat_l; lra).
    replace (- a_r * (- v_r / a_r)) with v_r in H by (field; lra).
    replace (- a_r * (- vel_front_star v_f a_f delta / a_r)) with (vel_front_star v_f a_f delta) in H by (field; lra).
    lra.
  Qed.

  Lemma check_iff : 0 <= dist ->
    (check_lon v_f v_r dist a_r a_f delta = true <->
     0 < dist /\ (safe_distance0 v_r a_r delta < dist \/
       (delta <= P /\ safe_distance3 v_r v_f a_r a_f delta < dist) \/
       safe_distance1 v_r v_f a_r a_f delta < dist)).
  Proof.
    intros H0. unfold check_lon. destruct (Rltb_spec dist 0) as [L|L]; [lra|]. fold P T. cbv zeta.
    rewrite branch2_dead.
    destruct (Rltb (zero_to_positive (safe_distance0 v_r a_r delta)) dist
      || (Rleb delta P && Rltb (zero_to_positive (safe_distance3 v_r v_f a_r a_f delta)) dist))%bool eqn:E.
    - split; [intros _|reflexivity]. rewrite orb_true_iff, andb_true_iff, !Rltb_iff, Rleb_iff, !ztp_lt in E by exact H0. tauto.
    - apply not_true_iff_false in E. rewrite orb_true_iff, andb_true_iff, !Rltb_iff, Rleb_iff, !ztp_lt in E by exact H0.
      rewrite Rltb_iff, ztp_lt by exact H0. tauto.
  Qed.
End Translate.

(** C18. Accepted gaps are safe for all time, except possibly in the situation [closest_in_motion].
    Missing: the excluded situation, in which the claim is false (C18_accepted_is_safe_refuted). *)
Theorem C18_accepted_is_safe_partial :
  forall v_f v_r dist a_r a_f delta,
  a_r < 0 -> a_f < 0 -> 0 <= v_f -> 0 <= v_r -> 0 <= delta -> 0 <= dist ->
  ~ closest_in_motion v_f v_r a_r a_f delta ->
  check_lon v_f v_r dist a_r a_f delta = true ->
  never_touch v_f v_r dist a_r a_f delta.
Proof.
  intros v_f v_r dist a_r a_f delta Hr Hf Hvf Hvr Hd H0 Hn Hc.
  apply check_iff in Hc; auto. destruct Hc as [Hpos Hc]. apply tr_touch; auto. intros t Ht.
  pose proof (tr_P v_f a_f Hf Hvf) as HP. pose proof (tr_T v_r a_r Hr Hvr) as HT.
  rewrite tr_sd0, tr_sd1, tr_sd3 in Hc by auto. rewrite tr_closest in Hn by auto.
  set (F := - a_f) in *. set (A := - a_r) in *. set (P := - v_f / a_f) in *. set (T := - v_r / a_r) in *.
  assert (0 < F) by (unfold F; lra). assert (0 < A) by (unfold A; lra).
  destruct Hc as [Hc|[[HdP Hc]|Hc]].
  - apply safe0; auto.
  - apply safe3; auto; lra.
  - destruct (Rle_dec P delta) as [L|L]; [apply front_stops_first; auto; lra|].
    destruct (Rle_dec (P - delta) T) as [L2|L2]; [apply front_first; auto; lra|].
    apply rear_slower; auto; try lra.
    destruct (Rle_dec (A * T) (F * (P - delta))) as [L3|L3]; [exact L3|]. exfalso. apply Hn.
    split; [lra|]. split; [|lra].
    assert (0 <= F * (P - delta)) by (apply Rmult_le_pos; lra).
    destruct (Rle_dec A F) as [L4|L4]; [|lra]. exfalso. apply L3.
    apply Rle_trans with (F * T); [apply Rmult_le_compat_r; lra|apply Rmult_le_compat_l; lra].
Qed.
Print Assumptions C18_accepted_is_safe_partial.

(** In particular the check is sound whenever the front vehicle can brake at least as hard. *)
Theorem C18_safe_when_front_brakes_harder :
  forall v_f v_r dist a_r a_f delta,
  a_f <= a_r < 0 -> 0 <= v_f -> 0 <= v_r -> 0 <= delta -> 0 <= dist ->
  check_lon v_f v_r dist a_r a_f delta = true ->
  never_touch v_f v_r dist a_r a_f delta.
Proof.
  intros v_f v_r dist a_r a_f delta Ha Hvf Hvr Hd H0 Hc. apply C18_accepted_is_safe_partial; auto; try lra.
  intros (_ & H & _). lra.
Qed.
Print Assumptions C18_safe_when_front_brakes_harder.

(** Rejected gaps are really unsafe: the vehicles touch. *)
Theorem C18_rejected_touches :
  forall v_f v_r dist a_r a_f delta,
  a_r < 0 -> a_f < 0 -> 0 <= v_f -> 0 <= v_r -> 0 <= delta ->
  check_lon v_f v_r dist a_r a_f delta = false ->
  exists t, 0 <= t /\ dist + braking a_f v_f t <= react_and_brake delta a_r v_r t.
Proof.
  intros v_f v_r dist a_r a_f delta Hr Hf Hvf Hvr Hd Hc.
  assert (H0 : 0 <= dist).
  { destruct (Rle_dec 0 dist); auto. exfalso. unfold check_lon in Hc. destruct (Rltb_spec dist 0); [discriminate|lra]. }
  apply not_true_iff_false in Hc. rewrite check_iff in Hc by auto.
  pose proof (tr_P v_f a_f Hf Hvf) as HP. pose proof (tr_T v_r a_r Hr Hvr) as HT.
  destruct (Rle_lt_or_eq_dec 0 dist H0) as [Hpos|<-].
  - assert (H1 : dist <= safe_distance1 v_r v_f a_r a_f delta) by (apply Rnot_lt_le; tauto).
    rewrite tr_sd1 in H1 by auto.
    set (P := - v_f / a_f) in *. set (T := - v_r / a_r) in *.
    exists (P + (delta + T) + 1). split; [lra|].
    rewrite (braking_B a_f v_f _ Hf), (rb_RB delta a_r v_r _ Hr). fold P T.
    unfold RB, B. destruct (Rle_dec (P + (delta + T) + 1) P); [lra|].
    destruct (Rle_dec (P + (delta + T) + 1) delta); [lra|].
    destruct (Rle_dec (P + (delta + T) + 1 - delta) T); [lra|]. lra.
  - exists 0. split; [lra|]. rewrite (braking_B a_f v_f _ Hf), (rb_RB delta a_r v_r _ Hr). unfold RB, B.
    destruct (Rle_dec 0 (- v_f / a_f)); [|lra]. destruct (Rle_dec 0 delta); lra.
Qed.
Print Assumptions C18_rejected_touches.

(** In the situation [closest_in_motion] the positive gaps that are safe are exactly those above
    safe_distance2 ... *)
Theorem C18_needed_gap_when_closest_in_motion :
  forall v_f v_r dist a_r a_f delta,
  a_r < 0 -> a_f < 0 -> 0 <= v_f -> 0 <= v_r -> 0 <= delta -> 0 < dist ->
  closest_in_motion v_f v_r a_r a_f delta ->
  (never_touch v_f v_r dist a_r a_f delta <-> safe_distance2 v_r v_f a_r a_f delta < dist).
Proof.
  intros v_f v_r dist a_r a_f delta Hr Hf Hvf Hvr Hd H0 Hn.
  rewrite tr_touch by auto. pose proof (proj1 (proj2 Hn)) as Hraf. rewrite tr_closest in Hn by auto.
  rewrite tr_sd2 by auto.
  pose proof (tr_P v_f a_f Hf Hvf) as HP. pose proof (tr_T v_r a_r Hr Hvr) as HT.
  set (F := - a_f) in *. set (A := - a_r) in *. set (P := - v_f / a_f) in *. set (T := - v_r / a_r) in *.
  assert (HF : 0 < F) by (unfold F; lra). assert (HA : 0 < A) by (unfold A; lra).
  destruct Hn as (N1 & N2 & N3 & N4).
  set (s := (A * T - F * (P - delta)) / (A - F)).
  assert (Es : s * (A - F) = A * T - F * (P - delta)) by (unfold s; field; lra).
  assert (Hs0 : 0 <= s). { unfold s. apply Rmult_le_pos; [lra|]. left. apply Rinv_0_lt_compat. lra. }
  assert (HsT : s <= T).
  { apply Rmult_le_reg_r with (A - F); [lra|]. rewrite Es. assert (F * T <= F * (P - delta)) by (apply Rmult_le_compat_l; lra). lra. }
  assert (Esd : (F * (P - delta) - A * T) ^ 2 / (2 * (A - F)) = (A - F) / 2 * s ^ 2).
  { replace (F * (P - delta) - A * T) with (- (s * (A - F))) by lra. field. lra. }
  rewrite Esd. split.
  - intros H. specialize (H (delta + s) ltac:(lra)). rewrite gap_mid in H by lra.
    replace ((F * (P - delta) - A * T) * s) with (- (s * (A - F)) * s) in H by (rewrite Es; ring).
    replace (- (s * (A - F)) * s - (F - A) / 2 * s ^ 2) with (- ((A - F) / 2 * s ^ 2)) in H by field. lra.
  - intros H t Ht.
    assert (M : forall u, 0 <= u <= T -> 0 < gap F P A T delta dist (delta + u)).
    { intros u Hu. rewrite gap_mid by lra.
      replace ((F * (P - delta) - A * T) * u) with (- (s * (A - F)) * u) by (rewrite Es; ring).
      replace (dist + F * (P * delta - delta ^ 2 / 2) - A * T * delta + - (s * (A - F)) * u - (F - A) / 2 * u ^ 2)
        with (dist + F * (P * delta - delta ^ 2 / 2) - A * T * delta - (A - F) / 2 * s ^ 2 + (A - F) / 2 * (u - s) ^ 2) by field.
      assert (0 <= (A - F) / 2 * (u - s) ^ 2) by (apply Rmult_le_pos; [lra|apply pow2_ge_0]). lra. }
    destruct (Rle_dec t delta) as [L|L].
    + apply gap_from_d; auto. specialize (M 0 ltac:(lra)). rewrite Rplus_0_r in M. exact M.
    + destruct (Rle_dec t (delta + T)) as [L2|L2].
      * replace t with (delta + (t - delta)) by ring. apply M. lra.
      * specialize (M T ltac:(lra)). unfold gap in *.
        assert (E : RB delta A T t = RB delta A T (delta + T)).
        { unfold RB. destruct (Rle_dec t delta); [lra|]. destruct (Rle_dec (delta + T) delta).
          - assert (E0 : T = 0) by lra. rewrite E0. unfold B. destruct (Rle_dec (t - delta) 0); [lra|]. field.
          - f_equal. unfold B. replace (delta + T - delta) with T by ring. destruct (Rle_dec T T); [|lra].
            destruct (Rle_dec (t - delta) T); [lra|]. field. }
        rewrite E. pose proof (B_mono F P (delta + T) t HF HP ltac:(lra)). lra.
Qed.
Print Assumptions C18_needed_gap_when_closest_in_motion.

(** ... but the check never uses safe_distance2: it divides the front vehicle's remaining speed by the
    rear vehicle's deceleration, which makes its second branch unreachable, and falls back to
    safe_distance1. So it accepts gaps with which the vehicles collide. *)
Theorem C18_second_branch_unreachable :
  forall v_f v_r dist a_r a_f delta, a_r < 0 -> 0 <= dist ->
  (check_lon v_f v_r dist a_r a_f delta = true <->
     0 < dist /\ (safe_distance0 v_r a_r delta < dist \/
       (delta <= - v_f / a_f /\ safe_distance3 v_r v_f a_r a_f delta < dist) \/
       safe_distance1 v_r v_f a_r a_f delta < dist)).
Proof. intros. apply check_iff; auto. Qed.
Print Assumptions C18_second_branch_unreachable.

Theorem C18_accepted_is_safe_refuted :
  exists v_f v_r dist a_r a_f delta,
  a_r < 0 /\ a_f < 0 /\ 0 <= v_f /\ 0 <= v_r /\ 0 <= delta /\ 0 <= dist /\
  check_lon v_f v_r dist a_r a_f delta = true /\ ~ never_touch v_f v_r dist a_r a_f delta.
Proof.
  exists 10, 20, 12, (-8), (-2), (1/2). repeat (split; [lra|]). split.
  - apply check_iff; [lra|lra|]. split; [lra|]. right; right. unfold safe_distance1. lra.
  - rewrite C18_needed_gap_when_closest_in_motion; [|lra|lra|lra|lra|lra|lra|unfold closest_in_motion; lra].
    unfold safe_distance2. lra.
Qed.
Print Assumptions C18_accepted_is_safe_refuted.

(** the speed CalcVelFrontStar returns is the rate at which the braking front vehicle travels when the reaction time is over *)
Theorem C18_front_speed_after_reaction :
  forall v_f a_f delta, a_f < 0 -> 0 <= v_f -> 0 <= delta -> delta <> - v_f / a_f ->
  derivable_pt_lim (braking a_f v_f) delta (vel_front_star v_f a_f delta).
Proof.
  intros v a d Ha Hv Hd Hne. unfold vel_front_star. destruct (Rleb_spec d (- v / a)) as [L|L].
  - intros eps He. assert (Hd0 : 0 < - v / a - d) by lra.
    assert (D : derivable_pt_lim (fun t => v * t + a * t ^ 2 / 2) d (v + a * d)).
    { replace (v + a * d) with (v * 1 + a * (2 * d) / 2) by lra.
      apply derivable_pt_lim_plus.
      - apply derivable_pt_lim_scal. apply derivable_pt_lim_id.
      - replace (fun t : R => a * t ^ 2 / 2) with (mult_real_fct (a / 2) (fun t => t ^ 2)).
        2:{ unfold mult_real_fct. apply FunctionalExtensionality.functional_extensionality. intros t. field. }
        replace (a * (2 * d) / 2) with (a / 2 * (INR 2 * d ^ (Init.Nat.pred 2))) by (simpl; field).
        apply derivable_pt_lim_scal. apply derivable_pt_lim_pow. }
    destruct (D eps He) as (e1 & H1). exists (mkposreal (Rmin e1 (- v / a - d)) (Rmin_pos _ _ (cond_pos e1) Hd0)).
    intros h Hh Hlt. cbn in Hlt. unfold braking at 1 2.
    pose proof (Rmin_l e1 (- v / a - d)). pose proof (Rmin_r e1 (- v / a - d)). pose proof (Rle_abs h).
    destruct (Rle_dec (d + h) (- v / a)) as [?|?]; [|lra]. destruct (Rle_dec d (- v / a)) as [?|?]; [|lra].
    apply H1; [exact Hh|lra].
  - intros eps He. exists (mkposreal (d - - v / a) ltac:(lra)).
    intros h Hh Hlt. cbn in Hlt. unfold braking. pose proof (Rabs_def2 _ _ Hlt).
    destruct (Rle_dec (d + h) (- v / a)) as [?|?]; [lra|]. destruct (Rle_dec d (- v / a)) as [?|?]; [lra|].
    replace ((- v ^ 2 / (2 * a) - - v ^ 2 / (2 * a)) / h - 0) with 0 by (unfold Rdiv; ring). rewrite Rabs_R0. exact He.
Qed.
Print Assumptions C18_front_speed_after_reaction.

(** a negative gap is accepted whatever the speeds *)
Theorem C18_negative_gap_accepted :
  forall v_f v_r dist a_r a_f delta, dist < 0 -> check_lon v_f v_r dist a_r a_f delta = true.
Proof. intros. unfold check_lon. destruct (Rltb_spec dist 0); [reflexivity|lra]. Qed.
Print Assumptions C18_negative_gap_accepted.

Example C18_nonvacuous :
  (* 20 m/s behind 10 m/s, both braking with 5 m/s^2, one second reaction time: 51 m accepted, 49 m not *)
  ~ closest_in_motion 10 20 (-5) (-5) 1 /\
  check_lon 10 20 51 (-5) (-5) 1 = true /\ check_lon 10 20 49 (-5) (-5) 1 = false.
Proof.
  split; [unfold closest_in_motion; lra|]. split.
  - apply check_iff; [lra|lra|]. split; [lra|]. right; right. unfold safe_distance1. lra.
  - apply not_true_iff_false. rewrite check_iff by lra. unfold safe_distance0, safe_distance3, safe_distance1. lra.
Qed.

(** C19. Ego in front: the rear vehicle is the other one; its deceleration and reaction time are used. *)
Theorem C19_ego_in_front :
  forall p fr ego d, is_agent (fr_front fr) ego = Some d ->
  p_a_o p < 0 -> p_a_e p < 0 -> 0 <= p_delta_others p -> 0 <= to_vlon d -> 0 <= from_vlon d ->
  lon_zeroed d = false -> 0 <= f_lon d ->
  ~ closest_in_motion (to_vlon d) (from_vlon d) (p_a_o p) (p_a_e p) (p_delta_others p) ->
  check_lon_agents p fr ego = true ->
  never_touch (to_vlon d) (from_vlon d) (f_lon d) (p_a_o p) (p_a_e p) (p_delta_others p).
Proof.
  intros p fr ego d Hd Ho He Hde H1 H2 Hz H0 Hn Hc. unfold check_lon_agents in Hc. rewrite Hd, Hz in Hc.
  apply C18_accepted_is_safe_partial; auto.
Qed.
Print Assumptions C19_ego_in_front.

(** Ego behind: correct only if both vehicles are configured with the same deceleration.
    Missing: different decelerations, for which the claim is false (C19_ego_behind_refuted). *)
Theorem C19_ego_behind_partial :
  forall p fr ego d, is_agent (fr_front fr) ego = None -> is_agent (fr_rear fr) ego = Some d ->
  p_a_o p = p_a_e p -> p_a_e p < 0 -> 0 <= p_delta_ego p -> 0 <= to_vlon d -> 0 <= from_vlon d ->
  lon_zeroed d = false ->
  check_lon_agents p fr ego = true ->
  never_touch (from_vlon d) (to_vlon d) (Rabs (f_lon d)) (p_a_e p) (p_a_o p) (p_delta_ego p).
Proof.
  intros p fr ego d Hf Hd Heq He Hde H1 H2 Hz Hc. unfold check_lon_agents in Hc. rewrite Hf, Hd, Hz, Heq in Hc.
  rewrite Heq. apply C18_safe_when_front_brakes_harder; auto; try lra. apply Rabs_pos.
Qed.
Print Assumptions C19_ego_behind_partial.

(** With different decelerations the roles are swapped when the ego is behind: an ego that brakes
    with 2 m/s^2 is accepted 40 m behind a standing vehicle at 20 m/s. *)
Theorem C19_ego_behind_refuted :
  exists p fr ego d, is_agent (fr_front fr) ego = None /\ is_agent (fr_rear fr) ego = Some d /\
  p_a_o p < 0 /\ p_a_e p < 0 /\ 0 <= p_delta_ego p /\ 0 <= to_vlon d /\ 0 <= from_vlon d /\
  lon_zeroed d = false /\ check_lon_agents p fr ego = true /\
  ~ closest_in_motion (from_vlon d) (to_vlon d) (p_a_e p) (p_a_o p) (p_delta_ego p) /\
  ~ never_touch (from_vlon d) (to_vlon d) (Rabs (f_lon d)) (p_a_e p) (p_a_o p) (p_delta_ego p).
Proof.
  set (d := mkFdiff 0 20 (-40) false 0 0 0 false 0 0).
  exists (mkSD (1/2) (1/2) (-2) (-8) true false 1 1), (mkFR None (Some (1%N, d))), 1%N, d.
  split; [reflexivity|]. split; [reflexivity|]. cbn [p_a_o p_a_e p_delta_ego to_vlon from_vlon lon_zeroed f_lon d].
  repeat (split; [lra || reflexivity|]).
  assert (Ha : Rabs (-40) = 40) by (rewrite Rabs_left; lra).
  split.
  - unfold check_lon_agents. cbn. rewrite Ha. apply check_iff; [lra|lra|]. split; [lra|]. left. unfold safe_distance0. lra.
  - split; [unfold closest_in_motion; lra|]. intros N. specialize (N 11 ltac:(lra)). rewrite Ha in N.
    unfold react_and_brake, braking in N.
    destruct (Rle_dec 11 (1/2)); [lra|]. destruct (Rle_dec (11 - 1/2) (- (20) / -2)); [lra|].
    destruct (Rle_dec 11 (- 0 / -8)); lra.
Qed.
Print Assumptions C19_ego_behind_refuted.

(** The lateral check asks the ego agent for the other vehicle's lateral acceleration as well: the other
    vehicle's own value has no influence on the answer. *)
Theorem C19_lateral_rate_of_other_ignored :
  forall acc acc' p fr ego, (forall ang m l, acc ego ang m l = acc' ego ang m l) ->
  check_lat_agents acc p fr ego = check_lat_agents acc' p fr ego.
Proof.
  intros acc acc' p fr ego H. unfold check_lat_agents.
  destruct (is_agent (fr_front fr) ego); [rewrite !H; reflexivity|].
  destruct (is_agent (fr_rear fr) ego); [rewrite !H; reflexivity|reflexivity].
Qed.
Print Assumptions C19_lateral_rate_of_other_ignored.

(** GetAngleDifferenceThreshold does not return the configured angle threshold. *)
Theorem C19_angle_threshold_getter_refuted :
  exists p, get_angle_difference_threshold p <> p_angle_threshold p.
Proof. exists (mkSD 1 1 (-5) (-5) true false 1 2). cbn. lra. Qed.
Print Assumptions C19_angle_threshold_getter_refuted.

(** The label: true exactly if every nearest agent passes the longitudinal or (if enabled) the lateral
    check; always true if crossing corridors are not considered. *)
Theorem C19_label_conjunction :
  forall acc p ego near,
  sd_evaluate acc p ego near = true <->
  (p_crossing p = false \/
   forall id fr, In (id, fr) near -> id <> ego ->
     check_lon_agents p fr ego = true \/ (p_check_lateral p = true /\ check_lat_agents acc p fr ego = true)).
Proof.
  intros acc p ego near. unfold sd_evaluate. destruct (p_crossing p); [|intuition].
  assert (G : crossing_loop acc p ego near = true <-> forall id fr, In (id, fr) near -> id <> ego ->
     check_lon_agents p fr ego = true \/ (p_check_lateral p = true /\ check_lat_agents acc p fr ego = true)).
  { induction near as [|[id fr] r IH]; cbn [crossing_loop].
    - split; [intros _ id fr []|reflexivity].
    - destruct (N.eqb_spec id ego) as [E|E].
      + rewrite IH. split.
        * intros H i f [X|X] Hi; [inversion X; subst; congruence|eauto].
        * intros H i f X Hi. apply (H i f); [now right|exact Hi].
      + destruct (check_lon_agents p fr ego) eqn:E1, (p_check_lateral p) eqn:E2, (check_lat_agents acc p fr ego) eqn:E3;
          cbn [negb andb]; rewrite ?IH; split; intros H; try discriminate; intros;
          try (exfalso; destruct (H id fr (or_introl eq_refl) E) as [X|[X X']]; congruence);
          try (match goal with X : In _ (_ :: _) |- _ => destruct X as [X|X]; [inversion X; subst; auto|eauto] end);
          try (eapply H; [right; eassumption|assumption]). }
  rewrite G. intuition discriminate.
Qed.
Print Assumptions C19_label_conjunction.

(** The default configuration of EvaluatorDynamicSafeDist reports every situation as safe ... *)
Theorem C18_default_evaluator_always_safe :
  forall acc pi ego near, sd_evaluate acc (dynamic_safe_dist_defaults pi) ego near = true.
Proof. reflexivity. Qed.
Print Assumptions C18_default_evaluator_always_safe.
(** ... and its default decelerations have the wrong sign for the check: with them a vehicle driving
    20 m/s one centimetre behind a standing one passes. *)
Theorem C18_default_decelerations_refuted :
  forall pi, let p := dynamic_safe_dist_defaults pi in
  check_lon 0 20 (1/100) (p_a_o p) (p_a_e p) (p_delta_others p) = true /\
  ~ never_touch 0 20 (1/100) (- p_a_o p) (- p_a_e p) (p_delta_others p).
Proof.
  intros pi. cbn. split.
  - unfold check_lon. destruct (Rltb_spec (1/100) 0); [reflexivity|].
    assert (E : Rltb (zero_to_positive (safe_distance0 20 5 (8/10))) (1/100) = true).
    { apply Rltb_iff. apply ztp_lt; [lra|]. unfold safe_distance0. lra. }
    cbv zeta. rewrite E. reflexivity.
  - intros N. specialize (N (1/10) ltac:(lra)). unfold react_and_brake, braking in N.
    destruct (Rle_dec (1/10) (8/10)); [|lra]. replace (- 0 / - (5)) with 0 in N by field.
    destruct (Rle_dec (1/10) 0) as [X|X]; [lra|]. revert N. unfold Rdiv. intros N. nra.
Qed.
Print Assumptions C18_default_decelerations_refuted.

(** C47. Lateral check for vehicles moving laterally towards each other: vehicle 1 moves left with
    [v1] >= 0, vehicle 2, [dist] to its left, moves right with [v2] <= 0. The check accepts exactly the
    gaps with which the vehicles never touch. *)
Lemma lat_upper delta a v t : 0 < a -> 0 <= v -> 0 <= delta ->
  lateral_motion delta a v t <= v * delta + v * v / (2 * a).
Proof.
  intros Ha Hv Hd. unfold lateral_motion. destruct (Rle_dec 0 v); [|lra].
  rewrite rb_RB by lra. pose proof (tr_T v (- a) ltac:(lra) Hv) as HT.
  eapply Rle_trans; [apply RB_le_stop; lra|].
  right. field. lra.
Qed.
Lemma lat_opp delta a v t : 0 < a -> lateral_motion delta a (- v) t = - lateral_motion delta a v t.
Proof.
  intros Ha. unfold lateral_motion. destruct (Rle_dec 0 v), (Rle_dec 0 (- v)); rewrite ?Ropp_involutive; try lra.
  assert (v = 0) by lra. subst v. rewrite Ropp_0.
  assert (E : react_and_brake delta (- a) 0 t = 0).
  { unfold react_and_brake, braking. destruct (Rle_dec t delta); [lra|].
    replace (- 0 / - a) with 0 by (field; lra). destruct (Rle_dec (t - delta) 0); [lra|]. field. lra. }
  lra.
Qed.
Lemma lat_final delta a v t : 0 < a -> 0 <= v -> 0 <= delta -> delta + v / a < t ->
  lateral_motion delta a v t = v * delta + v * v / (2 * a).
Proof.
  intros Ha Hv Hd Ht. unfold lateral_motion, react_and_brake, braking. destruct (Rle_dec 0 v); [|lra].
  assert (0 <= v / a) by (apply Rmult_le_pos; [lra|left; apply Rinv_0_lt_compat; lra]).
  destruct (Rle_dec t delta); [lra|]. replace (- v / - a) with (v / a) by (field; lra).
  destruct (Rle_dec (t - delta) (v / a)); [lra|]. field. lra.
Qed.
Lemma min_lat v1 v2 a1 a2 d1 d2 : 0 < a1 -> 0 < a2 ->
  min_lat_safe_dist v1 v2 a1 a2 d1 d2 = (v1 * d1 + v1 * v1 / (2 * a1)) + (- v2 * d2 + - v2 * - v2 / (2 * a2)).
Proof.
  intros. unfold min_lat_safe_dist. destruct (Reqb_spec v1 0) as [->|], (Reqb_spec v2 0) as [->|]; field; repeat split; lra.
Qed.

Theorem C47_lateral_towards_each_other :
  forall v1 v2 dist a1 a2 d1 d2,
  0 <= v1 -> v2 <= 0 -> 0 < a1 -> 0 < a2 -> 0 <= d1 -> 0 <= d2 ->
  (check_lat v1 v2 dist a1 a2 d1 d2 = true <->
   forall t, 0 <= t -> lateral_motion d1 a1 v1 t < dist + lateral_motion d2 a2 v2 t).
Proof.
  intros v1 v2 dist a1 a2 d1 d2 H1 H2 Ha1 Ha2 Hd1 Hd2. unfold check_lat. rewrite Rltb_iff, min_lat by auto.
  assert (E : forall t, lateral_motion d2 a2 v2 t = - lateral_motion d2 a2 (- v2) t).
  { intros t. rewrite <- lat_opp by auto. rewrite Ropp_involutive. reflexivity. }
  split.
  - intros H t Ht. rewrite E. pose proof (lat_upper d1 a1 v1 t Ha1 H1 Hd1).
    pose proof (lat_upper d2 a2 (- v2) t Ha2 ltac:(lra) Hd2). lra.
  - intros H. assert (P1 : 0 <= v1 / a1) by (apply Rmult_le_pos; [lra|left; apply Rinv_0_lt_compat; lra]).
    assert (P2 : 0 <= - v2 / a2) by (apply Rmult_le_pos; [lra|left; apply Rinv_0_lt_compat; lra]).
    specialize (H (d1 + v1 / a1 + d2 + - v2 / a2 + 1) ltac:(lra)). rewrite E in H.
    rewrite (lat_final d1 a1 v1) in H by lra. rewrite (lat_final d2 a2 (- v2)) in H by lra. lra.
Qed.
Print Assumptions C47_lateral_towards_each_other.

(** For vehicles moving laterally in the same direction the check is unsound: it credits vehicle 2 with
    its travel during the whole reaction time although vehicle 1 may catch up before. *)
Theorem C47_lateral_same_direction_refuted :
  exists v1 v2 dist a1 a2 d1 d2,
  0 < v2 <= v1 /\ 0 < dist /\ 0 < a1 /\ 0 < a2 /\ 0 <= d1 /\ 0 <= d2 /\
  check_lat v1 v2 dist a1 a2 d1 d2 = true /\
  exists t, 0 <= t /\ dist + lateral_motion d2 a2 v2 t <= lateral_motion d1 a1 v1 t.
Proof.
  exists 10, 1, (6/10), 50, 1, 0, 1. repeat (split; [lra|]). split.
  - unfold check_lat. rewrite Rltb_iff, min_lat by lra. lra.
  - exists (2/10). split; [lra|]. unfold lateral_motion, react_and_brake, braking.
    destruct (Rle_dec 0 1); [|lra]. destruct (Rle_dec (2/10) 1); [|lra]. destruct (Rle_dec 0 10); [|lra].
    destruct (Rle_dec (2/10) 0); [lra|]. replace (- (10) / - (50)) with (2/10) by field.
    destruct (Rle_dec (2/10 - 0) (2/10)); [|lra]. cbn [pow]. lra.
Qed.
Print Assumptions C47_lateral_same_direction_refuted.

(** Vehicles that do not move laterally towards each other are accepted, zero lateral distance is not. *)
Theorem C47_lateral_apart_or_overlapping :
  forall acc p fr ego d, is_agent (fr_front fr) ego = Some d ->
  (lat_zeroed d = true \/ f_lat d = 0 -> check_lat_agents acc p fr ego = false) /\
  (lat_zeroed d = false -> f_lat d < 0 -> 0 <= from_vlat d -> to_vlat d <= 0 -> check_lat_agents acc p fr ego = true) /\
  (lat_zeroed d = false -> 0 < f_lat d -> from_vlat d <= 0 -> 0 <= to_vlat d -> check_lat_agents acc p fr ego = true).
Proof.
  intros acc p fr ego d Hd. unfold check_lat_agents. rewrite Hd. cbv zeta. split; [|split].
  - intros H. destruct (Reqb_spec (if lat_zeroed d then 0 else f_lat d) 0) as [E|E]; [reflexivity|].
    exfalso. apply E. destruct H as [->| ->]; [reflexivity|destruct (lat_zeroed d); reflexivity].
  - intros -> H1 H2 H3. destruct (Reqb_spec (f_lat d) 0); [lra|].
    destruct (Rleb_spec 0 (from_vlat d)); [|lra]. destruct (Rleb_spec (to_vlat d) 0); [|lra].
    destruct (Rltb_spec (f_lat d) 0); [reflexivity|lra].
  - intros -> H1 H2 H3. destruct (Reqb_spec (f_lat d) 0); [lra|].
    destruct (Rleb 0 (from_vlat d) && Rleb (to_vlat d) 0 && Rltb (f_lat d) 0)%bool; [reflexivity|].
    destruct (Rleb_spec (from_vlat d) 0); [|lra]. destruct (Rleb_spec 0 (to_vlat d)); [|lra].
    destruct (Rltb_spec 0 (f_lat d)); [reflexivity|lra].
Qed.
Print Assumptions C47_lateral_apart_or_overlapping.

Example C47_nonvacuous :
  check_lat 1 (-1) 3 1 1 (1/2) (1/2) = true /\ check_lat 1 (-1) (19/10) 1 1 (1/2) (1/2) = false.
Proof.
  unfold check_lat. split; [apply Rltb_iff|apply not_true_iff_false; rewrite Rltb_iff]; rewrite min_lat by lra; lra.
Qed.
