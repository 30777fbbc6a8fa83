From Coq Require Import List NArith ZArith QArith Qabs Bool Lia.
From Verif Require Import Model_Map Proof_Map Model_World Spec_World Proof_World Proof_World2 Model_FrontRear Spec_FrontRear.
Import ListNotations.

Section FR.
  Context {T : Types} (O : Ops T) (Corridor : Type).
  Variable cor_poly : Corridor -> tPoly T.
  Variable position : tState T -> tPoint T.
  Variable rel : Corridor -> tState T -> tShape T -> tState T -> tShape T -> frel.

  Notation candidate := (candidate O Corridor rel).

  Lemma Qlt_negb x y : negb (Qle_bool x y) = true <-> y < x.
  Proof.
    rewrite negb_true_iff. split.
    - intros H. destruct (Qlt_le_dec y x) as [L|L]; [exact L|].
      apply Qle_bool_iff in L. congruence.
    - intros H. destruct (Qle_bool x y) eqn:E; [|reflexivity].
      apply Qle_bool_iff in E. exfalso. apply (Qlt_not_le _ _ H E).
  Qed.

  Lemma in_thr_iff d latthr angthr : in_thresholds d latthr angthr = true <->
    (Qabs (if r_lat_zeroed d then 0 else r_lat d) <= latthr /\ Qabs (r_angle d) <= angthr).
  Proof. unfold in_thresholds. cbv zeta. rewrite andb_true_iff, !Qle_bool_iff. reflexivity. Qed.

  (* invariant of the loop over the processed prefix [done] *)
  Definition fr_inv w ego egos egosh c latthr angthr lonthr (done : list (agent T))
             (acc : pair_opt * pair_opt) : Prop :=
    let cand := candidate w ego egos egosh c latthr angthr in
    match fst acc with
    | Some (a, d) => In a done /\ cand a d /\ lonthr <= r_lon d /\ r_lon d < dbl_max
    | None => True
    end /\
    match snd acc with
    | Some (a, d) => In a done /\ cand a d /\ r_lon d < lonthr /\ r_lon d < dbl_max
    | None => True
    end /\
    (forall a d, In a done -> cand a d -> lonthr <= r_lon d -> best_lon (fst acc) <= r_lon d) /\
    (forall a d, In a done -> cand a d -> r_lon d < lonthr -> best_lon (snd acc) <= r_lon d).

  Lemma candidate_fun w ego egos egosh c latthr angthr a d d' :
    candidate w ego egos egosh c latthr angthr a d -> candidate w ego egos egosh c latthr angthr a d' -> d = d'.
  Proof.
    intros (_ & _ & (s & Hs & ->) & _) (_ & _ & (s' & Hs' & ->) & _). congruence.
  Qed.

  Lemma fr_iter_inv w ego egos egosh c latthr angthr lonthr done acc a acc' :
    fr_inv w ego egos egosh c latthr angthr lonthr done acc ->
    fr_iter O Corridor rel w ego egos egosh c latthr angthr lonthr acc a = Some acc' ->
    fr_inv w ego egos egosh c latthr angthr lonthr (done ++ [a]) acc'.
  Proof.
    intros (I1 & I2 & I3 & I4) Hit.
    assert (Hmem : forall x, In x done -> In x (done ++ [a])) by (intros x Hx; apply in_or_app; now left).
    assert (Hlast : In a (done ++ [a])) by (apply in_or_app; right; now left).
    assert (Hweak : (forall d, candidate w ego egos egosh c latthr angthr a d -> lonthr <= r_lon d ->
                        best_lon (fst acc) <= r_lon d) ->
                    (forall d, candidate w ego egos egosh c latthr angthr a d -> r_lon d < lonthr ->
                        best_lon (snd acc) <= r_lon d) ->
                    fr_inv w ego egos egosh c latthr angthr lonthr (done ++ [a]) acc).
    { intros Hf Hr. split; [|split; [|split]].
      - destruct (fst acc) as [[a0 d0]|]; [|exact I]. destruct I1 as (X1&X2&X3&X4). split; [exact (Hmem _ X1)|]. split; [exact X2|]. split; assumption.
      - destruct (snd acc) as [[a0 d0]|]; [|exact I]. destruct I2 as (X1&X2&X3&X4). split; [exact (Hmem _ X1)|]. split; [exact X2|]. split; assumption.
      - intros x d Hx Hc Hl. apply in_app_or in Hx as [Hx|[<-|[]]]; [exact (I3 _ _ Hx Hc Hl)|exact (Hf _ Hc Hl)].
      - intros x d Hx Hc Hl. apply in_app_or in Hx as [Hx|[<-|[]]]; [exact (I4 _ _ Hx Hc Hl)|exact (Hr _ Hc Hl)]. }
    unfold fr_iter in Hit.
    destruct (N.eqb (ag_id a) ego || negb (is_valid (b_status O (ag_bm a))) || negb (valid_at a (w_time w))) eqn:Eskip.
    { injection Hit as <-. apply Hweak; intros d (Hid & [Hv Hva] & _); exfalso;
        rewrite Hv, Hva in Eskip; cbn in Eskip; rewrite !orb_false_r in Eskip;
        apply N.eqb_eq in Eskip; contradiction. }
    apply orb_false_iff in Eskip as [Eskip Ev]. apply orb_false_iff in Eskip as [Eid Eb].
    apply N.eqb_neq in Eid. apply negb_false_iff in Ev. apply negb_false_iff in Eb. apply is_valid_iff in Eb.
    destruct (current_state a) as [s|] eqn:Es; [|discriminate].
    set (d := rel c egos egosh s (ag_shape a)) in *.
    destruct (in_thresholds d latthr angthr) eqn:Ethr; cbn [negb] in Hit.
    2:{ injection Hit as <-. apply Hweak; intros d' (_ & _ & (s' & Hs' & ->) & Hthr); exfalso;
          rewrite Es in Hs'; injection Hs' as <-; apply in_thr_iff in Hthr; fold d in Hthr; congruence. }
    assert (Hcand : candidate w ego egos egosh c latthr angthr a d).
    { split; [exact Eid|]. split; [split; assumption|]. split; [exists s; auto|]. apply in_thr_iff; exact Ethr. }
    assert (Huniq : forall d', candidate w ego egos egosh c latthr angthr a d' -> d' = d)
      by (intros d' H'; exact (candidate_fun _ _ _ _ _ _ _ _ _ _ H' Hcand)).
    assert (Hbd_f : best_lon (fst acc) <= dbl_max).
    { destruct (fst acc) as [[a0 d0]|]; cbn; [apply Qlt_le_weak; tauto|apply Qle_refl]. }
    assert (Hbd_r : best_lon (snd acc) <= dbl_max).
    { destruct (snd acc) as [[a0 d0]|]; cbn; [apply Qlt_le_weak; tauto|apply Qle_refl]. }
    destruct (Qle_bool lonthr (r_lon d)) eqn:El; cbn [andb negb] in Hit.
    - apply Qle_bool_iff in El. destruct (negb (Qle_bool (best_lon (fst acc)) (r_lon d))) eqn:Eb2.
      + injection Hit as <-. apply Qlt_negb in Eb2. split; [|split; [|split]]; cbn [fst snd].
        * split; [exact Hlast|]. split; [exact Hcand|]. split; [exact El|]. exact (Qlt_le_trans _ _ _ Eb2 Hbd_f).
        * destruct (snd acc) as [[a0 d0]|]; [|exact I]. destruct I2 as (X1&X2&X3&X4). split; [exact (Hmem _ X1)|]. split; [exact X2|]. split; assumption.
        * intros x d' Hx Hc Hl. cbn [best_lon]. apply in_app_or in Hx as [Hx|[<-|[]]].
          -- apply Qlt_le_weak. eapply Qlt_le_trans; [exact Eb2|]. exact (I3 _ _ Hx Hc Hl).
          -- rewrite (Huniq d' Hc). apply Qle_refl.
        * intros x d' Hx Hc Hl. apply in_app_or in Hx as [Hx|[<-|[]]]; [exact (I4 _ _ Hx Hc Hl)|].
          rewrite (Huniq d' Hc) in Hl. exfalso. apply (Qlt_not_le _ _ Hl El).
      + injection Hit as <-. apply negb_false_iff, Qle_bool_iff in Eb2. apply Hweak.
        * intros d' Hc _. rewrite (Huniq d' Hc). exact Eb2.
        * intros d' Hc Hl. rewrite (Huniq d' Hc) in Hl. exfalso. apply (Qlt_not_le _ _ Hl El).
    - assert (El' : r_lon d < lonthr) by (apply Qlt_negb; rewrite El; reflexivity).
      destruct (negb (Qle_bool (best_lon (snd acc)) (r_lon d))) eqn:Eb2.
      + injection Hit as <-. apply Qlt_negb in Eb2. split; [|split; [|split]]; cbn [fst snd].
        * destruct (fst acc) as [[a0 d0]|]; [|exact I]. destruct I1 as (X1&X2&X3&X4). split; [exact (Hmem _ X1)|]. split; [exact X2|]. split; assumption.
        * split; [exact Hlast|]. split; [exact Hcand|]. split; [exact El'|]. exact (Qlt_le_trans _ _ _ Eb2 Hbd_r).
        * intros x d' Hx Hc Hl. apply in_app_or in Hx as [Hx|[<-|[]]]; [exact (I3 _ _ Hx Hc Hl)|].
          rewrite (Huniq d' Hc) in Hl. exfalso. apply (Qlt_not_le _ _ El' Hl).
        * intros x d' Hx Hc Hl. cbn [best_lon]. apply in_app_or in Hx as [Hx|[<-|[]]].
          -- apply Qlt_le_weak. eapply Qlt_le_trans; [exact Eb2|]. exact (I4 _ _ Hx Hc Hl).
          -- rewrite (Huniq d' Hc). apply Qle_refl.
      + injection Hit as <-. apply negb_false_iff, Qle_bool_iff in Eb2. apply Hweak.
        * intros d' Hc Hl. rewrite (Huniq d' Hc) in Hl. exfalso. apply (Qlt_not_le _ _ El' Hl).
        * intros d' Hc _. rewrite (Huniq d' Hc). exact Eb2.
  Qed.

  Lemma fr_loop_inv w ego egos egosh c latthr angthr lonthr l done acc res :
    fr_inv w ego egos egosh c latthr angthr lonthr done acc ->
    fr_loop O Corridor rel w ego egos egosh c latthr angthr lonthr l acc = Some res ->
    fr_inv w ego egos egosh c latthr angthr lonthr (done ++ l) res.
  Proof.
    revert done acc; induction l as [|a r IH]; intros done acc Hinv; cbn [fr_loop].
    - intros H; injection H as <-. now rewrite app_nil_r.
    - destruct (fr_iter _ _ _ _ _ _ _ _ _ _ _ _ _) as [acc'|] eqn:E; [|discriminate].
      intros H. replace (done ++ a :: r) with ((done ++ [a]) ++ r) by (rewrite <- app_assoc; reflexivity).
      eapply IH; [|exact H]. eapply fr_iter_inv; eauto.
  Qed.

  Lemma fr_loop_total w ego egos egosh c latthr angthr lonthr l acc :
    (forall a, In a l -> agent_ok a) ->
    exists res, fr_loop O Corridor rel w ego egos egosh c latthr angthr lonthr l acc = Some res.
  Proof.
    revert acc; induction l as [|a r IH]; intros acc H; cbn [fr_loop]; [eauto|].
    assert (E : exists acc', fr_iter O Corridor rel w ego egos egosh c latthr angthr lonthr acc a = Some acc').
    { unfold fr_iter. destruct (_ || _); [eauto|].
      destruct (agent_ok_current _ (H a (or_introl eq_refl))) as [s ->].
      destruct (negb _); [eauto|]. destruct (_ && _); [eauto|]. destruct (_ && _); eauto. }
    destruct E as [acc' ->]. apply IH. intros b Hb; apply H; now right.
  Qed.

  (* result of the whole query *)
  Lemma front_rear_spec w ego e s c latthr angthr inc lonthr m res :
    get_agent w ego = Some e -> current_state e = Some s ->
    considered O Corridor cor_poly position w ego c inc = Some m ->
    get_front_rear O Corridor cor_poly position rel w ego c latthr angthr inc lonthr = Some res ->
    fr_inv w ego s (ag_shape e) c latthr angthr lonthr (map snd m) res.
  Proof.
    intros He Hs Hm. unfold get_front_rear. rewrite Hm. destruct m as [|p r] eqn:Em.
    - intros H; injection H as <-. cbn. unfold fr_inv; cbn. split; [exact I|]. split; [exact I|].
      split; intros a d [].
    - rewrite He, Hs. intros H. apply (fr_loop_inv _ _ _ _ _ _ _ _ _ [] (None, None)) in H; [exact H|].
      unfold fr_inv; cbn. split; [exact I|]. split; [exact I|]. split; intros a d [].
  Qed.

  Lemma front_rear_total w ego e c latthr angthr inc lonthr m :
    get_agent w ego = Some e -> agent_ok e ->
    considered O Corridor cor_poly position w ego c inc = Some m ->
    (forall i a, In (i, a) m -> agent_ok a) ->
    exists res, get_front_rear O Corridor cor_poly position rel w ego c latthr angthr inc lonthr = Some res.
  Proof.
    intros He Hok Hm Ha. unfold get_front_rear. rewrite Hm. destruct m as [|p r]; [eauto|].
    rewrite He. destruct (agent_ok_current _ Hok) as [s ->]. apply fr_loop_total.
    intros a Hin. apply in_map_iff in Hin as ([i b] & <- & Hin). exact (Ha i b Hin).
  Qed.
End FR.
