(* Tie-breaking of the front/rear query: the smallest id among equally distant agents. *)
From Coq Require Import List NArith ZArith QArith Qabs Bool Lia Sorted.
From Verif Require Import Model_Map Proof_Map Model_World Spec_World Proof_World Proof_World2 Model_FrontRear Spec_FrontRear Proof_FrontRear
  Props_FrontRear.
Import ListNotations.

Section FR.
  Context {T : Types} (O : Ops T) (Corridor : Type).
  Variable cor_poly : Corridor -> tPoly T.
  Variable position : tState T -> tPoint T.
  Variable rel : Corridor -> tState T -> tShape T -> tState T -> tShape T -> frel.
  Notation candidate := (candidate O Corridor rel).

  Definition tie_inv w ego egos egosh c latthr angthr (done : list (agent T)) (side : frel -> Prop) (b : pair_opt (T:=T)) : Prop :=
    forall a d a' d', b = Some (a, d) -> In a' done -> candidate w ego egos egosh c latthr angthr a' d' -> side d' ->
      r_lon d' == r_lon d -> (ag_id a <= ag_id a')%N.

  Lemma fr_iter_ties w ego egos egosh c latthr angthr lonthr done acc a acc' :
    fr_inv O Corridor rel w ego egos egosh c latthr angthr lonthr done acc ->
    (forall x, In x done -> (ag_id x < ag_id a)%N) ->
    tie_inv w ego egos egosh c latthr angthr done (fun d => lonthr <= r_lon d) (fst acc) ->
    tie_inv w ego egos egosh c latthr angthr done (fun d => r_lon d < lonthr) (snd acc) ->
    fr_iter O Corridor rel w ego egos egosh c latthr angthr lonthr acc a = Some acc' ->
    tie_inv w ego egos egosh c latthr angthr (done ++ [a]) (fun d => lonthr <= r_lon d) (fst acc') /\
    tie_inv w ego egos egosh c latthr angthr (done ++ [a]) (fun d => r_lon d < lonthr) (snd acc').
  Proof.
    intros (I1 & I2 & I3 & I4) Hlt Tf Tr Hit.
    assert (Kf : tie_inv w ego egos egosh c latthr angthr (done ++ [a]) (fun d => lonthr <= r_lon d) (fst acc)).
    { intros x d x' d' E Hin Hc Hs Heq. apply in_app_or in Hin as [Hin|[<-|[]]]; [exact (Tf _ _ _ _ E Hin Hc Hs Heq)|].
      rewrite E in I1. destruct I1 as (Hin & _). apply Hlt in Hin. lia. }
    assert (Kr : tie_inv w ego egos egosh c latthr angthr (done ++ [a]) (fun d => r_lon d < lonthr) (snd acc)).
    { intros x d x' d' E Hin Hc Hs Heq. apply in_app_or in Hin as [Hin|[<-|[]]]; [exact (Tr _ _ _ _ E Hin Hc Hs Heq)|].
      rewrite E in I2. destruct I2 as (Hin & _). apply Hlt in Hin. lia. }
    unfold fr_iter in Hit. destruct (_ || _); [injection Hit as <-; split; assumption|].
    destruct (current_state a) as [s|]; [|discriminate].
    destruct (negb _); [injection Hit as <-; split; assumption|].
    destruct (Qle_bool lonthr _ && negb _) eqn:E1.
    - apply andb_true_iff in E1 as [_ E1]. apply Qlt_negb in E1. injection Hit as <-. split; [|exact Kr].
      intros x d x' d' E Hin Hc Hs Heq. injection E as <- <-. apply in_app_or in Hin as [Hin|[<-|[]]]; [|lia].
      exfalso. specialize (I3 _ _ Hin Hc Hs). rewrite Heq in I3. exact (Qlt_not_le _ _ E1 I3).
    - destruct (negb (Qle_bool lonthr _) && negb _) eqn:E2; [|injection Hit as <-; split; assumption].
      apply andb_true_iff in E2 as [_ E2]. apply Qlt_negb in E2. injection Hit as <-. split; [exact Kf|].
      intros x d x' d' E Hin Hc Hs Heq. injection E as <- <-. apply in_app_or in Hin as [Hin|[<-|[]]]; [|lia].
      exfalso. specialize (I4 _ _ Hin Hc Hs). rewrite Heq in I4. exact (Qlt_not_le _ _ E2 I4).
  Qed.

  Lemma fr_loop_ties w ego egos egosh c latthr angthr lonthr l done acc res :
    fr_inv O Corridor rel w ego egos egosh c latthr angthr lonthr done acc ->
    StronglySorted (fun x y => (ag_id x < ag_id y)%N) (done ++ l) ->
    tie_inv w ego egos egosh c latthr angthr done (fun d => lonthr <= r_lon d) (fst acc) ->
    tie_inv w ego egos egosh c latthr angthr done (fun d => r_lon d < lonthr) (snd acc) ->
    fr_loop O Corridor rel w ego egos egosh c latthr angthr lonthr l acc = Some res ->
    tie_inv w ego egos egosh c latthr angthr (done ++ l) (fun d => lonthr <= r_lon d) (fst res) /\
    tie_inv w ego egos egosh c latthr angthr (done ++ l) (fun d => r_lon d < lonthr) (snd res).
  Proof.
    revert done acc; induction l as [|a r IH]; intros done acc Hinv Hsrt Tf Tr; cbn [fr_loop].
    - intros H; injection H as <-. rewrite app_nil_r. auto.
    - destruct (fr_iter _ _ _ _ _ _ _ _ _ _ _ _ _) as [acc'|] eqn:E; [|discriminate].
      intros H. replace (done ++ a :: r) with ((done ++ [a]) ++ r) in * by (rewrite <- app_assoc; reflexivity).
      assert (Hlt : forall x, In x done -> (ag_id x < ag_id a)%N).
      { clear - Hsrt. rewrite <- app_assoc in Hsrt. induction done as [|y ys IHd]; intros x []; subst.
        - cbn in Hsrt. inversion Hsrt as [|? ? _ HF]. rewrite Forall_forall in HF. apply HF, in_or_app. right. now left.
        - cbn in Hsrt. inversion Hsrt; auto. }
      destruct (fr_iter_ties _ _ _ _ _ _ _ _ _ _ _ _ Hinv Hlt Tf Tr E) as [Tf' Tr'].
      apply (IH (done ++ [a]) acc'); auto. eapply fr_iter_inv; eauto.
  Qed.

  Lemma in_corridor_ties w ego e s c latthr angthr lonthr f r :
    world_ok w -> index_fresh O w -> box_contract O ->
    get_agent w ego = Some e -> current_state e = Some s ->
    get_front_rear O Corridor cor_poly position rel w ego c latthr angthr true lonthr = Some (f, r) ->
    let P a := get_agent w (ag_id a) = Some a /\
                 exists s', current_state a = Some s' /\ collide O (ag_shape a) s' (cor_poly c) = true in
    least_lon_id (fun a d => P a /\ candidate w ego s (ag_shape e) c latthr angthr a d /\ lonthr <= r_lon d) f /\
    least_lon_id (fun a d => P a /\ candidate w ego s (ag_shape e) c latthr angthr a d /\ r_lon d < lonthr) r.
  Proof.
    intros Hok Hf Hb He Hs Hfr P.
    destruct (in_corridor_spec O Corridor cor_poly position rel w ego e s c latthr angthr lonthr) as (f' & r' & H5 & H6 & H7); auto.
    rewrite Hfr in H5. injection H5 as <- <-. fold P in H6, H7.
    destruct (intersect_spec O w (cor_poly c) (proj1 Hok) Hf Hb) as (m & Hm & Hms & Hin).
    assert (Hmem : forall a d, P a -> candidate w ego s (ag_shape e) c latthr angthr a d -> In a (map snd m)).
    { intros a d (H & Hc) (_ & Hl & _). apply in_map_iff. exists (ag_id a, a). split; [reflexivity|].
      apply m_find_iff; [exact Hms|]. apply Hin. auto. }
    assert (Hsrt : StronglySorted (fun x y => (ag_id x < ag_id y)%N) (map snd m)).
    { assert (Hid : forall i a, In (i, a) m -> ag_id a = i).
      { intros i a H. apply m_find_iff in H; [|exact Hms]. apply Hin in H as (H & _). exact (proj1 (proj1 (proj2 Hok) _ _ H)). }
      clear - Hms Hid. unfold m_sorted in Hms. induction Hms as [|[k a] m Hs IH HF]; cbn; constructor.
      - apply IH. intros; apply Hid; now right.
      - rewrite Forall_forall in *. intros y Hy. apply in_map_iff in Hy as ([k' a'] & <- & Hy). specialize (HF _ Hy). cbn in *.
        rewrite (Hid k a), (Hid k' a'); auto. }
    assert (HT : tie_inv w ego s (ag_shape e) c latthr angthr (map snd m) (fun d => lonthr <= r_lon d) f /\
                 tie_inv w ego s (ag_shape e) c latthr angthr (map snd m) (fun d => r_lon d < lonthr) r).
    { unfold get_front_rear, considered in Hfr. rewrite Hm in Hfr. destruct m as [|p m'].
      - injection Hfr as <- <-. split; intros ? ? ? ? E; discriminate.
      - rewrite He, Hs in Hfr. apply (fr_loop_ties _ _ _ _ _ _ _ _ _ [] (None, None)) in Hfr; [exact Hfr| |exact Hsrt| |].
        + split; [exact I|]. split; [exact I|]. split; intros a d [].
        + intros ? ? ? ? E; discriminate.
        + intros ? ? ? ? E; discriminate. }
    destruct HT as [HTf HTr]. split; (split; [assumption|]).
    - intros a d a' d' E (HP & Hc & Hl) Heq. eapply HTf; eauto.
    - intros a d a' d' E (HP & Hc & Hl) Heq. eapply HTr; eauto.
  Qed.
End FR.
