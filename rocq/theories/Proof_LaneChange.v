From Coq Require Import List NArith ZArith QArith Qabs Bool Lia Lqa.
From Verif Require Import Model_Map Proof_Map Model_World Spec_World Proof_World Proof_World2 Model_FrontRear Spec_FrontRear
  Proof_FrontRear Props_FrontRear Proof_FrontRear2 Model_LaneChange Spec_LaneChange.
Import ListNotations.
Local Open Scope Q_scope.

Lemma qmin_le a b : qmin a b <= a /\ qmin a b <= b /\ (qmin a b = a \/ qmin a b = b).
Proof.
  unfold qmin. destruct (Qle_bool a b) eqn:E.
  - apply Qle_bool_iff in E. repeat split; [apply Qle_refl|exact E|now left].
  - assert (b < a) by (apply Qlt_negb; rewrite E; reflexivity).
    repeat split; [now apply Qlt_le_weak|apply Qle_refl|now right].
Qed.

Lemma filter_split {A} (f : A -> bool) l : forall l1 x l2, filter f l = l1 ++ x :: l2 ->
  exists m1 m2, l = m1 ++ x :: m2 /\ filter f m1 = l1 /\ filter f m2 = l2 /\ f x = true.
Proof.
  induction l as [|y l IH]; intros l1 x l2; cbn; [destruct l1; discriminate|].
  destruct (f y) eqn:E.
  - destruct l1 as [|z l1]; cbn; intros H; injection H as <- H.
    + exists [], l. rewrite H. auto.
    + destruct (IH _ _ _ H) as (m1 & m2 & -> & <- & <- & Hx). exists (y :: m1), m2. cbn. rewrite E. auto.
  - intros H. destruct (IH _ _ _ H) as (m1 & m2 & -> & <- & <- & Hx). exists (y :: m1), m2. cbn. rewrite E. auto.
Qed.

Lemma filter_filter {A} (f g : A -> bool) l : filter f (filter g l) = filter (fun x => f x && g x) l.
Proof.
  induction l as [|x l IH]; cbn; [reflexivity|]. destruct (g x); cbn.
  - rewrite andb_true_r. destruct (f x); now rewrite IH.
  - rewrite andb_false_r. exact IH.
Qed.

Lemma qneg_le a b c : a <= - b - c <-> b + c <= - a.
Proof. split; intros; lra. Qed.

Section LC.
  Context {T : Types} (O : Ops T).
  Variable Corridor : Type.
  Variable ceqb : Corridor -> Corridor -> bool.
  Variable cor_poly : Corridor -> tPoly T.
  Variable position : tState T -> tPoint T.
  Variable rel : Corridor -> tState T -> tShape T -> tState T -> tShape T -> frel.
  Variable velocity : tState T -> Q.
  Variable until_end : Corridor -> tPoint T -> Q.
  Variables (w : world T) (ego : AgentId) (e : agent T) (s : tState T).
  Hypothesis Hok : world_ok w.
  Hypothesis Hfresh : index_fresh O w.
  Hypothesis Hbox : box_contract O.
  Hypothesis He : get_agent w ego = Some e.
  Hypothesis Hs : current_state e = Some s.

  Notation ahead := (ahead O Corridor cor_poly rel w ego e s).
  Notation behind := (behind O Corridor cor_poly rel w ego e s).
  Notation free_distance := (free_distance O Corridor cor_poly position rel until_end w ego e s).
  Notation rear_gap := (rear_gap O Corridor cor_poly rel velocity w ego e s).
  Notation admissible := (admissible O Corridor cor_poly position rel velocity until_end w ego e s).
  Notation fill := (fill_info O Corridor cor_poly position rel velocity until_end w ego).
  Notation farthest_behind := (farthest_behind O Corridor cor_poly rel w ego e s).

  Lemma free_unique c x y : free_distance c x -> free_distance c y -> x == y.
  Proof.
    intros (X1 & X2 & X3 & X4) (Y1 & Y2 & Y3 & Y4). apply Qle_antisym.
    - destruct Y4 as [->|[(a & d & H & ->)|(H & ->)]]; eauto.
    - destruct X4 as [->|[(a & d & H & ->)|(H & ->)]]; eauto.
  Qed.

  Lemma farthest_unique c a d a' d' : farthest_behind c a d -> farthest_behind c a' d' -> a = a' /\ d = d'.
  Proof.
    intros (H1 & H2) (H3 & H4). assert (E : ag_id a = ag_id a').
    { destruct (H2 _ _ H3) as [L|[E L]]; destruct (H4 _ _ H1) as [L'|[E' L']]; try lra. lia. }
    assert (a = a').
    { destruct H1 as (((G1 & _) & _) & _), H3 as (((G3 & _) & _) & _). rewrite E in G1. congruence. }
    subst a'. split; [reflexivity|]. destruct H1 as ((_ & H1) & _), H3 as ((_ & H3) & _).
    exact (candidate_fun O Corridor rel _ _ _ _ _ _ _ _ _ _ H1 H3).
  Qed.

  (* what the information record of one corridor says *)
  Lemma fill_spec c : (forall a d, ahead c a d -> r_lon d < dbl_max) ->
    exists f r, fill c = Some (mkLI Corridor f r c (until_end c (position s))) /\
      free_distance c (ai_rel_dist f) /\
      match ai_agent f with
      | Some a => exists d sa, ahead c a d /\ current_state a = Some sa /\
                    ai_rel_dist f = qmin (until_end c (position s)) (r_lon d) /\
                    (forall a' d', ahead c a' d' -> r_lon d < r_lon d' \/ (r_lon d == r_lon d' /\ (ag_id a <= ag_id a')%N))
      | None => forall a d, ~ ahead c a d
      end /\
      match ai_agent r with
      | Some a => exists d sa, farthest_behind c a d /\ current_state a = Some sa /\
                    ai_rel_dist r = r_lon d /\ ai_rel_vel r = velocity sa - velocity s
      | None => (forall a d, ~ behind c a d) /\ ai_rel_dist r = -(1000) /\ ai_rel_vel r = 0
      end.
  Proof.
    intros Hfin.
    destruct (in_corridor_spec O Corridor cor_poly position rel w ego e s c 100 b_pi 0) as (bf & br & Hfr & _); auto.
    destruct (in_corridor_ties O Corridor cor_poly position rel w ego e s c 100 b_pi 0 bf br) as [Hf Hr]; auto.
    assert (Hst : forall a d, on_corridor O Corridor cor_poly rel w ego e s c a d -> exists sa, current_state a = Some sa).
    { intros a d (_ & _ & _ & (sa & Hsa & _) & _). eauto. }
    set (A := fun a d => _ /\ _ /\ 0 <= r_lon d) in Hf. set (B := fun a d => _ /\ _ /\ r_lon d < 0) in Hr.
    assert (HA : forall a d, A a d <-> ahead c a d) by (intros; unfold A, Spec_LaneChange.ahead, on_corridor; tauto).
    assert (HB : forall a d, B a d <-> behind c a d) by (intros; unfold B, Spec_LaneChange.behind, on_corridor; tauto).
    clearbody A B. destruct Hf as [Hf1 Hf2], Hr as [Hr1 Hr2].
    assert (Hrear : exists r, info_of velocity (velocity s) (-(1000)) 0 br = Some r /\
      match ai_agent r with
      | Some a => exists d sa, farthest_behind c a d /\ current_state a = Some sa /\
                    ai_rel_dist r = r_lon d /\ ai_rel_vel r = velocity sa - velocity s
      | None => (forall a d, ~ behind c a d) /\ ai_rel_dist r = -(1000) /\ ai_rel_vel r = 0
      end).
    { destruct br as [[a d]|]; cbn [info_of].
      - destruct Hr1 as (G1 & _ & G2). apply HB in G1. destruct (Hst _ _ (proj1 G1)) as [sa Hsa].
        unfold agent_velocity. rewrite Hsa. eexists. split; [reflexivity|]. cbn.
        exists d, sa. split; [|auto]. split; [exact G1|]. intros a' d' H'. apply HB in H'.
        destruct (Qlt_le_dec (r_lon d) (r_lon d')) as [L|L]; [now left|]. right.
        assert (E : r_lon d == r_lon d') by (apply Qle_antisym; [apply (G2 _ _ H')|exact L]).
        split; [exact E|]. eapply Hr2; eauto. now symmetry.
      - eexists. split; [reflexivity|]. cbn. repeat split; auto. intros a d H. pose proof (proj2 H) as L. apply HB in H. specialize (Hr1 _ _ H).
        unfold Spec_LaneChange.behind in *. revert Hr1 L. generalize (r_lon d). intros q G1 G2.
        assert (dbl_max < 0) by (eapply Qle_lt_trans; eauto). discriminate. }
    destruct Hrear as (r & Er & Hr).
    unfold fill_info, ego_position, front_rear_agents, agent_velocity. rewrite He, Hs, Hfr, Er. cbn [info_of].
    destruct bf as [[a d]|].
    - destruct Hf1 as (G1 & _ & G2). apply HA in G1. destruct (Hst _ _ (proj1 G1)) as [sa Hsa].
      cbn [info_of]; unfold agent_velocity; rewrite Hsa. do 2 eexists. split; [reflexivity|]. cbn [ai_rel_dist ai_agent].
      destruct (qmin_le (until_end c (position s)) (r_lon d)) as (M1 & M2 & M3).
      split; [|split; [|exact Hr]].
      + split; [exact M1|]. split; [|split].
        * intros a' d' H'. apply HA in H'. eapply Qle_trans; [exact M2|]. apply (G2 _ _ H').
        * intros Hno. exfalso. exact (Hno _ _ G1).
        * destruct M3 as [-> | ->]; [left; reflexivity|right; left; exists a, d; split; [exact G1|reflexivity]].
      + exists d, sa. split; [exact G1|]. split; [exact Hsa|]. split; [reflexivity|].
        intros a' d' H'. apply HA in H'. destruct (Qlt_le_dec (r_lon d) (r_lon d')) as [L|L]; [now left|]. right.
        assert (E : r_lon d == r_lon d') by (apply Qle_antisym; [apply (G2 _ _ H')|exact L]).
        split; [exact E|]. eapply Hf2; eauto. now symmetry.
    - do 2 eexists. split; [reflexivity|]. cbn [ai_rel_dist ai_agent].
      assert (Hno : forall a d, ~ ahead c a d).
      { intros a d H. pose proof (Hfin _ _ H) as L. apply HA in H. specialize (Hf1 _ _ H). exact (Qlt_not_le _ _ L Hf1). }
      destruct (qmin_le (until_end c (position s)) 1000000) as (M1 & M2 & M3).
      split; [|split; [exact Hno|exact Hr]].
      split; [exact M1|]. split; [intros a d H; destruct (Hno _ _ H)|]. split; [auto|].
      destruct M3 as [-> | ->]; [left; reflexivity|right; right; split; [exact Hno|reflexivity]].
  Qed.

  Definition adm_b (p : lc_params) (i : lane_info T Corridor) : bool :=
    enough_front Corridor p i && (enough_rear Corridor p i && enough_remaining Corridor p i).

  Lemma admissible_infos_eq p l : admissible_infos Corridor p l = filter (adm_b p) l.
  Proof.
    unfold admissible_infos. rewrite !filter_filter. apply filter_ext. intros i. unfold adm_b.
    now rewrite <- andb_assoc.
  Qed.

  Lemma adm_iff p c : (forall a d, ahead c a d -> r_lon d < dbl_max) ->
    exists i, fill c = Some i /\ li_corr Corridor i = c /\ free_distance c (ai_rel_dist (li_front Corridor i)) /\
      (adm_b p i = true <-> admissible p c (ai_rel_dist (li_front Corridor i))).
  Proof.
    intros Hfin. destruct (fill_spec c Hfin) as (f & r & Hfill & Hfree & _ & Hrear).
    eexists. split; [exact Hfill|]. split; [reflexivity|]. split; [exact Hfree|].
    unfold adm_b, enough_front, enough_rear, enough_remaining. cbn [li_front li_rear li_remaining].
    rewrite !andb_true_iff, !Qle_bool_iff, qneg_le. unfold Spec_LaneChange.admissible.
    assert (HR : lc_min_rear p + Qabs (ai_rel_vel r) * lc_time_gap p <= - ai_rel_dist r <-> rear_gap p c).
    { destruct (ai_agent r) as [a|].
      - destruct Hrear as (d & sa & Hfar & Hsa & -> & ->). split.
        + intros H. right. exists a, d. split; [exact Hfar|]. exists sa. auto.
        + intros [[Hno _]|(a' & d' & Hfar' & sa' & Hsa' & H)]; [exfalso; exact (Hno _ _ (proj1 Hfar))|].
          destruct (farthest_unique _ _ _ _ _ Hfar Hfar') as [<- <-]. rewrite Hsa in Hsa'. injection Hsa' as <-. exact H.
      - destruct Hrear as (Hno & -> & ->). split.
        + intros H. left. split; [exact Hno|]. change (Qabs 0) with 0 in H. setoid_replace (- -(1000)) with 1000 in H by reflexivity. lra.
        + intros [[_ H]|(a' & d' & Hfar' & _)]; [|exfalso; exact (Hno _ _ (proj1 Hfar'))]. change (Qabs 0) with 0. setoid_replace (- -(1000)) with 1000 by reflexivity. lra. }
    rewrite HR. tauto.
  Qed.

  Lemma scan_spec p cs : (forall c a d, In c cs -> ahead c a d -> r_lon d < dbl_max) ->
    exists l, scan_corridors O Corridor cor_poly position rel velocity until_end w ego cs = Some l /\
      Forall2 (fun c i => li_corr Corridor i = c /\ free_distance c (ai_rel_dist (li_front Corridor i)) /\
        (adm_b p i = true <-> admissible p c (ai_rel_dist (li_front Corridor i)))) cs l.
  Proof.
    induction cs as [|c cs IH]; intros Hfin; cbn [scan_corridors]; [eauto|].
    destruct (adm_iff p c) as (i & Hi & Hrest); [intros a d; apply Hfin; now left|].
    destruct IH as (l & Hl & HF); [intros c' a d H; apply Hfin; now right|].
    rewrite Hi, Hl. eexists. split; [reflexivity|]. constructor; auto.
  Qed.

  Lemma most_space_spec (l : list (lane_info T Corridor)) : forall best tmp,
    (most_space Corridor best tmp l = tmp /\ forall i, In i l -> ai_rel_dist (li_front Corridor i) <= best) \/
    (exists l1 i l2, l = l1 ++ i :: l2 /\ most_space Corridor best tmp l = Some (li_corr Corridor i) /\
       best < ai_rel_dist (li_front Corridor i) /\
       (forall j, In j l1 -> ai_rel_dist (li_front Corridor j) < ai_rel_dist (li_front Corridor i)) /\
       (forall j, In j l2 -> ai_rel_dist (li_front Corridor j) <= ai_rel_dist (li_front Corridor i))).
  Proof.
    induction l as [|x l IH]; intros best tmp; cbn [most_space].
    - left. split; [reflexivity|]. intros i [].
    - destruct (negb _) eqn:E.
      + apply Qlt_negb in E. right.
        destruct (IH (ai_rel_dist (li_front Corridor x)) (Some (li_corr Corridor x))) as [[-> Hall]|(l1 & i & l2 & -> & -> & Hb & H1 & H2)].
        * exists [], x, l. split; [reflexivity|]. split; [reflexivity|]. split; [exact E|]. split; [intros j []|exact Hall].
        * exists (x :: l1), i, l2. split; [reflexivity|]. split; [reflexivity|].
          split; [eapply Qlt_trans; eauto|]. split; [|exact H2]. intros j [<-|Hj]; [exact Hb|exact (H1 _ Hj)].
      + apply negb_false_iff, Qle_bool_iff in E.
        destruct (IH best tmp) as [[-> Hall]|(l1 & i & l2 & -> & -> & Hb & H1 & H2)].
        * left. split; [reflexivity|]. intros j [<-|Hj]; auto.
        * right. exists (x :: l1), i, l2. split; [reflexivity|]. split; [reflexivity|]. split; [exact Hb|].
          split; [|exact H2]. intros j [<-|Hj]; [eapply Qle_lt_trans; eauto|auto].
  Qed.

  Lemma forall2_split {A B} (R : A -> B -> Prop) cs : forall l m1 i m2, Forall2 R cs l -> l = m1 ++ i :: m2 ->
    exists l1 c l2, cs = l1 ++ c :: l2 /\ R c i /\ Forall2 R l1 m1 /\ Forall2 R l2 m2.
  Proof.
    intros l m1 i m2 HF ->. apply Forall2_app_inv_r in HF as (l1 & l2' & H1 & H2 & ->).
    inversion H2 as [|c ? l2 ? Hc H2']; subst. exists l1, c, l2. auto.
  Qed.

  Lemma forall2_in_l {A B} (R : A -> B -> Prop) cs l c : Forall2 R cs l -> In c cs -> exists i, In i l /\ R c i.
  Proof.
    induction 1 as [|x y xs ys Hxy HF IH]; intros []; subst; [exists y; split; [now left|assumption]|].
    destruct IH as (i & Hi & HR); auto. exists i. split; [now right|assumption].
  Qed.

  Lemma check_spec p cs cur :
    0 < lc_min_front p -> (forall a b, ceqb a b = true <-> a = b) ->
    (forall c a d, In c cs -> ahead c a d -> r_lon d < dbl_max) ->
    ((forall c x, In c cs -> ~ admissible p c x) /\
     lc_check O Corridor ceqb cor_poly position rel velocity until_end p w ego cs cur = Some (KeepLane, cur)) \/
    (exists c, best_corridor O Corridor cor_poly position rel velocity until_end w ego e s p cs c /\
     lc_check O Corridor ceqb cor_poly position rel velocity until_end p w ego cs cur =
       Some (if same_corr Corridor ceqb (Some c) cur then (KeepLane, cur) else (ChangeLane, Some c))).
  Proof.
    intros Hmf Hceq Hfin. destruct (scan_spec p cs Hfin) as (l & Hl & HF).
    unfold lc_check, check_beneficial. rewrite Hl, admissible_infos_eq.
    assert (Hadm : forall c x i, li_corr Corridor i = c /\ free_distance c (ai_rel_dist (li_front Corridor i)) /\
        (adm_b p i = true <-> admissible p c (ai_rel_dist (li_front Corridor i))) -> admissible p c x ->
        adm_b p i = true /\ x == ai_rel_dist (li_front Corridor i)).
    { intros c x i (_ & Hfr & Hiff) Ha. assert (E : x == ai_rel_dist (li_front Corridor i)).
      { apply (free_unique c); [apply Ha|exact Hfr]. }
      split; [|exact E]. apply Hiff. destruct Ha as (A1 & A2 & A3 & A4). repeat split; auto; try apply Hfr. now rewrite <- E. }
    destruct (filter (adm_b p) l) as [|i0 l0] eqn:Efil.
    - left. split; [|reflexivity]. intros c x Hc Ha. destruct (forall2_in_l _ _ _ _ HF Hc) as (i & Hi & Hrel).
      destruct (Hadm _ _ _ Hrel Ha) as [Hb _].
      assert (In i (filter (adm_b p) l)) by (apply filter_In; auto). rewrite Efil in H. destruct H.
    - right. unfold choose_corridor.
      destruct (most_space_spec (i0 :: l0) 0 None) as [[_ Hall]|(l1 & i & l2 & Hsp & -> & Hb & H1 & H2)].
      + exfalso. assert (Hi0 : In i0 (filter (adm_b p) l)) by (rewrite Efil; now left).
        apply filter_In in Hi0 as [_ Hi0]. unfold adm_b in Hi0. apply andb_true_iff in Hi0 as [Hi0 _].
        unfold enough_front in Hi0. apply Qle_bool_iff in Hi0. specialize (Hall i0 (or_introl eq_refl)). lra.
      + rewrite Hsp in Efil. destruct (filter_split _ _ _ _ _ Efil) as (m1 & m2 & Em & Em1 & Em2 & Hbi).
        destruct (forall2_split _ _ _ _ _ _ HF Em) as (c1 & c & c2 & -> & Hrel & HF1 & HF2).
        destruct Hrel as (Hcc & Hcf & Hca). exists c. rewrite Hcc. split.
        * exists c1, c2, (ai_rel_dist (li_front Corridor i)). split; [reflexivity|]. split; [apply Hca, Hbi|]. split.
          -- intros c' x' Hc' Ha'. destruct (forall2_in_l _ _ _ _ HF1 Hc') as (j & Hj & Hrel').
             destruct (Hadm _ _ _ Hrel' Ha') as [Hb' ->]. apply H1. rewrite <- Em1. apply filter_In. auto.
          -- intros c' x' Hc' Ha'. destruct (forall2_in_l _ _ _ _ HF2 Hc') as (j & Hj & Hrel').
             destruct (Hadm _ _ _ Hrel' Ha') as [Hb' ->]. apply H2. rewrite <- Em2. apply filter_In. auto.
        * cbv zeta. destruct (same_corr Corridor ceqb (Some c) cur); reflexivity.
  Qed.
End LC.
