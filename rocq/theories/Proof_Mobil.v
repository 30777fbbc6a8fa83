From Coq Require Import List NArith ZArith QArith Qabs Bool Lia Lqa Reals Qreals Lra.
From Verif Require Import Base_Real Base_Ext Model_Map Proof_Map Model_World Spec_World Proof_World Proof_World2 Model_FrontRear Spec_FrontRear
  Proof_FrontRear Props_FrontRear Proof_FrontRear2 Model_IDM Model_LaneChange Spec_LaneChange Proof_LaneChange Model_Mobil Spec_Mobil.
Import ListNotations.
Local Open Scope R_scope.

Lemma eltb_trans a b c : eltb a b = true -> eltb b c = true -> eltb a c = true.
Proof.
  destruct a, b, c; cbn; intros H1 H2; try discriminate; try reflexivity.
  destruct (Rltb_spec x x0); [|discriminate]. destruct (Rltb_spec x0 x1); [|discriminate].
  destruct (Rltb_spec x x1); [reflexivity|Lra.lra].
Qed.
Lemma eltb_nle_trans a b c : eltb (Fin 0) a = true \/ eltb a (Fin 0) = true \/ a = Fin 0 \/ (exists z, a = Fin z) ->
  eltb b a = false -> eltb b c = true -> eltb a c = true.
Proof.
  intros Hn. destruct a, b, c; cbn in *; intros H1 H2; try discriminate; try reflexivity.
  - destruct (Rltb_spec x0 x); [discriminate|]. destruct (Rltb_spec x0 x1); [|discriminate].
    destruct (Rltb_spec x x1); [reflexivity|Lra.lra].
  - destruct Hn as [H|[H|[H|[z H]]]]; discriminate.
  - destruct Hn as [H|[H|[H|[z H]]]]; discriminate.
  - destruct Hn as [H|[H|[H|[z H]]]]; discriminate.
  - destruct Hn as [H|[H|[H|[z H]]]]; discriminate.
Qed.
Lemma eltb_le_trans a b c : is_nan a = false -> eltb b a = false -> eltb b c = true -> eltb a c = true.
Proof.
  intros H. apply eltb_nle_trans. destruct a; cbn in *; try discriminate; auto. right; right; right. eauto.
Qed.
Lemma eltb_not_nan_r a b : eltb a b = true -> is_nan b = false.
Proof. destruct a, b; cbn; congruence. Qed.
Lemma eltb_irrefl a : eltb a a = false.
Proof. destruct a; cbn; try reflexivity. destruct (Rltb_spec x x); [Lra.lra|reflexivity]. Qed.

Section Mobil.
  Context {T : Types} (O : Ops T).
  Variable Corridor : Type.
  Variable ceqb : Corridor -> Corridor -> bool.
  Variable cor_poly : Corridor -> tPoly T.
  Variable position : tState T -> tPoint T.
  Variable rel : Corridor -> tState T -> tShape T -> tState T -> tShape T -> frel.
  Variable velocity : tState T -> Q.
  Variable until_end : Corridor -> tPoint T -> Q.
  Variable p : idm_params.
  Variable m : mobil_params.
  Variables (w : world T) (ego : AgentId) (e : agent T) (s : tState T).
  Hypothesis Hok : world_ok w.
  Hypothesis Hfresh : index_fresh O w.
  Hypothesis Hbox : box_contract O.
  Hypothesis He : get_agent w ego = Some e.
  Hypothesis Hs : current_state e = Some s.
  Hypothesis Hceq : forall a b, ceqb a b = true <-> a = b.

  Notation ahead := (ahead O Corridor cor_poly rel w ego e s).
  Notation behind := (behind O Corridor cor_poly rel w ego e s).
  Notation farthest_behind := (farthest_behind O Corridor cor_poly rel w ego e s).
  Notation nearest_ahead := (nearest_ahead O Corridor cor_poly rel w ego e s).
  Notation admissible := (admissible O Corridor cor_poly position rel velocity until_end w ego e s).
  Notation fill := (fill_info O Corridor cor_poly position rel velocity until_end w ego).
  Notation ego_acc := (ego_acc O Corridor cor_poly position rel velocity until_end p w ego e s).
  Notation follower_before := (follower_before O Corridor cor_poly position rel velocity until_end p w ego e s).
  Notation follower_after := (follower_after O Corridor cor_poly rel velocity p w ego e s).
  Notation criteria := (criteria O Corridor cor_poly position rel velocity until_end p m w ego e s).

  Lemma nearest_unique c a d a' d' : nearest_ahead c a d -> nearest_ahead c a' d' -> a = a' /\ d = d'.
  Proof.
    intros (H1 & H2) (H3 & H4). assert (E : ag_id a = ag_id a').
    { destruct (H2 _ _ H3) as [L|[E L]]; destruct (H4 _ _ H1) as [L'|[E' L']]; try (exfalso; Lqa.lra). lia. }
    assert (a = a').
    { destruct H1 as (((G1 & _) & _) & _), H3 as (((G3 & _) & _) & _). rewrite E in G1. congruence. }
    subst a'. split; [reflexivity|]. destruct H1 as ((_ & H1) & _), H3 as ((_ & H3) & _).
    exact (candidate_fun O Corridor rel _ _ _ _ _ _ _ _ _ _ H1 H3).
  Qed.

  Lemma alone_iff c pos v x : alone Corridor until_end p c pos v x <-> x = acc_without_leader Corridor until_end p c pos v.
  Proof.
    unfold alone, acc_without_leader, distance_to_lane_ending. cbv zeta. destruct (brake_lane_end p).
    - destruct (Rleb_spec (Q2R (until_end c pos) - lane_end_offset p) (lane_end_enabled p)) as [L|L]; split.
      + intros [(_ & _ & ->)|([H|H] & _)]; [reflexivity|discriminate|Lra.lra].
      + intros ->. left. auto.
      + intros [(_ & H & _)|(_ & ->)]; [Lra.lra|reflexivity].
      + intros ->. right. split; [right; Lra.lra|reflexivity].
    - split; [intros [(H & _)|(_ & ->)]; [discriminate|reflexivity]|]. intros ->. right. auto.
  Qed.

  (* an information record of the world *)
  Definition info_ok (c : Corridor) (i : lane_info T Corridor) : Prop :=
    fill c = Some i.

  Lemma info_accs c i : (forall a d, ahead c a d -> (r_lon d < dbl_max)%Q) -> fill c = Some i ->
    li_corr Corridor i = c /\
    exists x y z, acc_ego_on Corridor velocity until_end p i c (position s) (velocity s) = Some x /\
      acc_behind_before Corridor position velocity until_end p i = Some y /\
      acc_behind_after Corridor velocity p i (velocity s) = Some z /\
      (forall x', ego_acc c x' <-> x' = x) /\ (forall y', follower_before c y' <-> y' = y) /\
      (forall z', follower_after c z' <-> z' = z).
  Proof.
    intros Hfin Hi.
    destruct (fill_spec O Corridor ceqb cor_poly position rel velocity until_end w ego e s Hok Hfresh Hbox He Hs c Hfin)
      as (f & r & Hfill & _ & Hf & Hr). rewrite Hfill in Hi. injection Hi as <-. split; [reflexivity|].
    unfold acc_ego_on, acc_behind_before, acc_behind_after, agent_velocity. cbn [li_front li_rear li_corr].
    destruct (ai_agent f) as [a|].
    - destruct Hf as (d & sa & Ha & Hsa & Ed & Hmin). rewrite Hsa.
      assert (Hn : nearest_ahead c a d) by (split; assumption).
      destruct (ai_agent r) as [b|].
      + destruct Hr as (db & sb & Hb & Hsb & Edb & _). rewrite Hsb. do 3 eexists.
        split; [reflexivity|]. split; [reflexivity|]. split; [reflexivity|]. rewrite Ed, Edb.
        split; [|split].
        * intros x'. split.
          -- intros [(a' & d' & sa' & Hn' & Hsa' & ->)|(Hno & _)]; [|exfalso; exact (Hno _ _ Ha)].
             destruct (nearest_unique _ _ _ _ _ Hn Hn') as [<- <-]. rewrite Hsa in Hsa'. injection Hsa' as <-. reflexivity.
          -- intros ->. left. exists a, d, sa. auto.
        * intros y'. split.
          -- intros [(Hno & _)|(b' & db' & sb' & Hb' & Hsb' & H)]; [exfalso; exact (Hno _ _ (proj1 Hb))|].
             destruct (farthest_unique O Corridor cor_poly rel w ego e s _ _ _ _ _ Hb Hb') as [<- <-].
             rewrite Hsb in Hsb'. injection Hsb' as <-.
             destruct H as [(a' & d' & sa' & Hn' & Hsa' & ->)|(Hno & _)]; [|exfalso; exact (Hno _ _ Ha)].
             destruct (nearest_unique _ _ _ _ _ Hn Hn') as [<- <-]. rewrite Hsa in Hsa'. injection Hsa' as <-. reflexivity.
          -- intros ->. right. exists b, db, sb. split; [exact Hb|]. split; [exact Hsb|]. left. exists a, d, sa. auto.
        * intros z'. split.
          -- intros [(Hno & _)|(b' & db' & sb' & Hb' & Hsb' & ->)]; [exfalso; exact (Hno _ _ (proj1 Hb))|].
             destruct (farthest_unique O Corridor cor_poly rel w ego e s _ _ _ _ _ Hb Hb') as [<- <-].
             rewrite Hsb in Hsb'. injection Hsb' as <-. reflexivity.
          -- intros ->. right. exists b, db, sb. auto.
      + destruct Hr as (Hnob & _). do 3 eexists. split; [reflexivity|]. split; [reflexivity|]. split; [reflexivity|].
        rewrite Ed. split; [|split].
        * intros x'. split.
          -- intros [(a' & d' & sa' & Hn' & Hsa' & ->)|(Hno & _)]; [|exfalso; exact (Hno _ _ Ha)].
             destruct (nearest_unique _ _ _ _ _ Hn Hn') as [<- <-]. rewrite Hsa in Hsa'. injection Hsa' as <-. reflexivity.
          -- intros ->. left. exists a, d, sa. auto.
        * intros y'. split; [intros [(_ & ->)|(b' & db' & sb' & Hb' & _)]; [reflexivity|exfalso; exact (Hnob _ _ (proj1 Hb'))]|].
          intros ->. left. auto.
        * intros y'. split; [intros [(_ & ->)|(b' & db' & sb' & Hb' & _)]; [reflexivity|exfalso; exact (Hnob _ _ (proj1 Hb'))]|].
          intros ->. left. auto.
    - destruct (ai_agent r) as [b|].
      + destruct Hr as (db & sb & Hb & Hsb & Edb & _). rewrite Hsb. do 3 eexists.
        split; [reflexivity|]. split; [reflexivity|]. split; [reflexivity|]. rewrite Edb.
        split; [|split].
        * intros x'. rewrite <- alone_iff. split.
          -- intros [(a' & d' & sa' & Hn' & _)|(_ & H)]; [exfalso; exact (Hf _ _ (proj1 Hn'))|exact H].
          -- intros H. right. auto.
        * intros y'. rewrite <- alone_iff. split.
          -- intros [(Hno & _)|(b' & db' & sb' & Hb' & Hsb' & H)]; [exfalso; exact (Hno _ _ (proj1 Hb))|].
             destruct (farthest_unique O Corridor cor_poly rel w ego e s _ _ _ _ _ Hb Hb') as [<- <-].
             rewrite Hsb in Hsb'. injection Hsb' as <-.
             destruct H as [(a' & d' & sa' & Hn' & _)|(_ & H)]; [exfalso; exact (Hf _ _ (proj1 Hn'))|exact H].
          -- intros H. right. exists b, db, sb. split; [exact Hb|]. split; [exact Hsb|]. right. auto.
        * intros z'. split.
          -- intros [(Hno & _)|(b' & db' & sb' & Hb' & Hsb' & ->)]; [exfalso; exact (Hno _ _ (proj1 Hb))|].
             destruct (farthest_unique O Corridor cor_poly rel w ego e s _ _ _ _ _ Hb Hb') as [<- <-].
             rewrite Hsb in Hsb'. injection Hsb' as <-. reflexivity.
          -- intros ->. right. exists b, db, sb. auto.
      + destruct Hr as (Hnob & _). do 3 eexists. split; [reflexivity|]. split; [reflexivity|]. split; [reflexivity|].
        split; [|split].
        * intros x'. rewrite <- alone_iff. split.
          -- intros [(a' & d' & sa' & Hn' & _)|(_ & H)]; [exfalso; exact (Hf _ _ (proj1 Hn'))|exact H].
          -- intros H. right. auto.
        * intros y'. split; [intros [(_ & ->)|(b' & db' & sb' & Hb' & _)]; [reflexivity|exfalso; exact (Hnob _ _ (proj1 Hb'))]|].
          intros ->. left. auto.
        * intros y'. split; [intros [(_ & ->)|(b' & db' & sb' & Hb' & _)]; [reflexivity|exfalso; exact (Hnob _ _ (proj1 Hb'))]|].
          intros ->. left. auto.
  Qed.

  Lemma mobil_loop_spec c0 old (Hold : forall x, ego_acc c0 x <-> x = old) cs l :
    Forall2 (fun c i => fill c = Some i) cs l ->
    (forall c a d, In c cs -> ahead c a d -> (r_lon d < dbl_max)%Q) ->
    forall best tmp, eltb best (Fin (-1000)) = false -> is_nan best = false ->
    let res := mobil_loop Corridor position velocity until_end p m (position s) (velocity s) old l best tmp in
    (res = Some tmp /\ forall c adv, In c cs -> criteria c0 c adv -> eltb best adv = false) \/
    (exists c1 c c2 adv, cs = c1 ++ c :: c2 /\ res = Some (Some c) /\ criteria c0 c adv /\ eltb best adv = true /\
       (forall c' adv', In c' c1 -> criteria c0 c' adv' -> eltb adv' adv = true) /\
       (forall c' adv', In c' c2 -> criteria c0 c' adv' -> eltb adv adv' = false)).
  Proof.
    induction 1 as [|c i cs l Hi HF IH]; intros Hfin best tmp Hb Hnb; cbn [mobil_loop].
    - left. split; [reflexivity|]. intros c adv [].
    - destruct (info_accs c i) as (Hc & x & y & z & E1 & E2 & E3 & Hx & Hy & Hz); [intros a d; apply Hfin; now left|exact Hi|].
      cbv zeta. rewrite Hc, E1, E2, E3. clear E1 E2 E3.
      assert (Hfin' : forall c0 a d, In c0 cs -> ahead c0 a d -> (r_lon d < dbl_max)%Q) by (intros; eapply Hfin; eauto; now right).
      assert (Hcrit : forall adv, criteria c0 c adv <-> (adv = x -! old /\ egeb (Fin (- mb_safe m)) z = false /\
         eltb (Fin (mb_politeness m) *! (y -! z) +! Fin (mb_thr m)) adv = true /\ eltb (Fin (-1000)) adv = true)).
      { intros adv. split.
        - intros (o & nw & bf & af & G1 & G2 & G3 & G4 & -> & G5). apply Hold in G1. apply Hx in G2. apply Hy in G3. apply Hz in G4. subst.
          auto.
        - intros (-> & G). exists old, x, y, z. rewrite (Hold old), (Hx x), (Hy y), (Hz z). repeat split; try reflexivity; apply G. }
      assert (Hbadv : forall adv, eltb best adv = true -> eltb (Fin (-1000)) adv = true).
      { intros adv H. apply (eltb_le_trans (Fin (-1000)) best adv); [reflexivity|exact Hb|exact H]. }
      (* the case where the candidate does not replace the best so far *)
      assert (Hskip : (forall adv, criteria c0 c adv -> eltb best adv = false) ->
        let res := mobil_loop Corridor position velocity until_end p m (position s) (velocity s) old l best tmp in
        (res = Some tmp /\ forall c1 adv, In c1 (c :: cs) -> criteria c0 c1 adv -> eltb best adv = false) \/
        (exists c1 c' c2 adv, c :: cs = c1 ++ c' :: c2 /\ res = Some (Some c') /\ criteria c0 c' adv /\ eltb best adv = true /\
           (forall c'' adv', In c'' c1 -> criteria c0 c'' adv' -> eltb adv' adv = true) /\
           (forall c'' adv', In c'' c2 -> criteria c0 c'' adv' -> eltb adv adv' = false))).
      { intros Hno. destruct (IH Hfin' best tmp Hb Hnb) as [[R Hall]|(c1 & c' & c2 & adv & -> & R & Hcr & Hbt & H1 & H2)].
        - left. split; [exact R|]. intros c1 adv [<-|Hin] Hcr; [exact (Hno _ Hcr)|exact (Hall _ _ Hin Hcr)].
        - right. exists (c :: c1), c', c2, adv. split; [reflexivity|]. split; [exact R|]. split; [exact Hcr|]. split; [exact Hbt|].
          split; [|exact H2]. intros c'' adv' [<-|Hin] Hcr'; [|exact (H1 _ _ Hin Hcr')].
          apply (eltb_le_trans adv' best adv); [|exact (Hno _ Hcr')|exact Hbt].
          destruct Hcr' as (? & ? & ? & ? & _ & _ & _ & _ & _ & _ & _ & G). exact (eltb_not_nan_r _ _ G). }
      destruct (egeb (Fin (- mb_safe m)) z) eqn:Esafe.
      { apply Hskip. intros adv Hcr. apply Hcrit in Hcr as (_ & H & _). congruence. }
      destruct (eltb (Fin (mb_politeness m) *! (y -! z) +! Fin (mb_thr m)) (x -! old) && eltb best (x -! old)) eqn:Einc.
      2:{ apply Hskip. intros adv Hcr. apply Hcrit in Hcr as (-> & _ & H & _). rewrite H in Einc. exact Einc. }
      apply andb_true_iff in Einc as [Einc Ebest].
      assert (Hmine : criteria c0 c (x -! old)) by (apply Hcrit; auto).
      assert (Hmb : eltb (x -! old) (Fin (-1000)) = false).
      { destruct (eltb (x -! old) (Fin (-1000))) eqn:E; [|reflexivity].
        pose proof (eltb_trans _ _ _ (Hbadv _ Ebest) E) as C. rewrite eltb_irrefl in C. discriminate. }
      right. destruct (IH Hfin' (x -! old) (Some c) Hmb (eltb_not_nan_r _ _ Ebest))
        as [[R Hall]|(c1 & c' & c2 & adv & -> & R & Hcr & Hbt & H1 & H2)].
      + exists [], c, cs, (x -! old). split; [reflexivity|]. split; [exact R|]. split; [exact Hmine|]. split; [exact Ebest|].
        split; [intros c' adv' []|exact Hall].
      + exists (c :: c1), c', c2, adv. split; [reflexivity|]. split; [exact R|]. split; [exact Hcr|].
        split; [exact (eltb_trans _ _ _ Ebest Hbt)|]. split; [|exact H2].
        intros c'' adv' [<-|Hin] Hcr'; [|exact (H1 _ _ Hin Hcr')]. apply Hcrit in Hcr' as (-> & _). exact Hbt.
  Qed.
End Mobil.
