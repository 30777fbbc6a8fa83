From Coq Require Import List NArith ZArith QArith Qabs Bool Lia Lqa Reals Qreals Lra.
From Verif Require Import Base_Real Base_Ext Model_Map Proof_Map Model_World Spec_World Proof_World Proof_World2 Model_FrontRear Spec_FrontRear
  Proof_FrontRear Props_FrontRear Proof_FrontRear2 Model_IDM Model_LaneChange Spec_LaneChange Proof_LaneChange Model_Mobil Spec_Mobil Proof_Mobil.
Import ListNotations.
Local Open Scope R_scope.

Lemma forall2_pairs {A B} (P : A -> B -> Prop) xs ys : Forall2 P xs ys ->
  exists l, map fst l = xs /\ map snd l = ys /\ forall x y, In (x, y) l -> P x y.
Proof.
  induction 1 as [|x y xs ys Hxy HF (l & <- & <- & Hl)]; [exists []; cbn; auto; now split; [|split; [|intros ? ? []]]|].
  exists ((x, y) :: l). cbn. split; [reflexivity|]. split; [reflexivity|].
  intros a b [E|H]; [injection E as <- <-; exact Hxy|auto].
Qed.
Lemma filter_map_snd {A B} (f : B -> bool) (l : list (A * B)) :
  filter f (map snd l) = map snd (filter (fun q => f (snd q)) l).
Proof. induction l as [|q l IH]; cbn; [reflexivity|]. destruct (f (snd q)); cbn; now rewrite IH. Qed.
Lemma pairs_forall2 {A B} (P : A -> B -> Prop) (l : list (A * B)) : (forall x y, In (x, y) l -> P x y) ->
  Forall2 P (map fst l) (map snd l).
Proof. induction l as [|[x y] l IH]; cbn; intros H; constructor; auto. Qed.

Section Mobil.
  Context {T : Types} (O : Ops T).
  Variable Corridor : Type.
  Variable ceqb : Corridor -> Corridor -> bool.
  Variable cor_poly : Corridor -> tPoly T.
  Variable position : tState T -> tPoint T.
  Variable rel : Corridor -> tState T -> tShape T -> tState T -> tShape T -> frel.
  Variable velocity : tState T -> Q.
  Variable until_end : Corridor -> tPoint T -> Q.
  Variable p : idm_params.
  Variable m : mobil_params.
  Variables (w : world T) (ego : AgentId) (e : agent T) (s : tState T).
  Hypothesis Hok : world_ok w.
  Hypothesis Hfresh : index_fresh O w.
  Hypothesis Hbox : box_contract O.
  Hypothesis He : get_agent w ego = Some e.
  Hypothesis Hs : current_state e = Some s.
  Hypothesis Hceq : forall a b, ceqb a b = true <-> a = b.
  Notation ahead := (ahead O Corridor cor_poly rel w ego e s).
  Notation admissible := (admissible O Corridor cor_poly position rel velocity until_end w ego e s).
  Notation fill := (fill_info O Corridor cor_poly position rel velocity until_end w ego).
  Notation criteria := (criteria O Corridor cor_poly position rel velocity until_end p m w ego e s).
  Notation eligible := (eligible O Corridor cor_poly position rel velocity until_end p m w ego e s).
  Notation best_eligible := (best_eligible O Corridor cor_poly position rel velocity until_end p m w ego e s).
  Notation check := (mobil_check O Corridor ceqb cor_poly position rel velocity until_end p m).

  Lemma scan_fill cs l : scan_corridors O Corridor cor_poly position rel velocity until_end w ego cs = Some l ->
    Forall2 (fun c i => fill c = Some i) cs l.
  Proof.
    revert l. induction cs as [|c cs IH]; intros l; cbn [scan_corridors]; [intros H; injection H as <-; constructor|].
    destruct (fill c) as [i|] eqn:E; [|discriminate].
    destruct (scan_corridors O Corridor cor_poly position rel velocity until_end w ego cs) as [r|]; [|discriminate].
    intros H; injection H as <-. constructor; auto.
  Qed.

  Lemma select_spec l c0 : forall acc, match acc with Some i => fill c0 = Some i | None => True end ->
    (forall c i, In (c, i) l -> fill c = Some i) ->
    (forall c i, In (c, i) l -> li_corr Corridor i = c) ->
    match select_info Corridor ceqb (map snd l) c0 acc with Some i => fill c0 = Some i | None => True end.
  Proof.
    induction l as [|[c i] l IH]; intros acc Hacc H1 H2; cbn; [exact Hacc|].
    apply IH; [|intros; apply H1; now right|intros; apply H2; now right].
    destruct (ceqb (li_corr Corridor i) c0) eqn:E; [|exact Hacc].
    apply Hceq in E. rewrite (H2 c i (or_introl eq_refl)) in E. subst c. apply H1. now left.
  Qed.

  Lemma mobil_check_spec lp cs c0 stored :
    (forall c a d, In c cs \/ c = c0 -> ahead c a d -> (r_lon d < dbl_max)%Q) ->
    ((forall c x, In c cs -> ~ admissible lp c x) /\ check lp w ego cs (Some c0) stored = Some (KeepLane, Some c0)) \/
    ((forall c adv, In c cs -> ~ eligible lp c0 c adv) /\ (exists c x, In c cs /\ admissible lp c x) /\
     check lp w ego cs (Some c0) stored =
       Some (match stored with
             | Some t => if ceqb t c0 then (KeepLane, Some c0) else (ChangeLane, Some t)
             | None => (KeepLane, Some c0)
             end)) \/
    (exists c adv, best_eligible lp c0 cs c adv /\
     check lp w ego cs (Some c0) stored = Some (if ceqb c c0 then (KeepLane, Some c0) else (ChangeLane, Some c))).
  Proof.
    intros Hfin.
    assert (Hfin1 : forall c a d, In c cs -> ahead c a d -> (r_lon d < dbl_max)%Q) by (intros c a d Hc Ha; exact (Hfin c a d (or_introl Hc) Ha)).
    destruct (scan_spec O Corridor ceqb cor_poly position rel velocity until_end w ego e s Hok Hfresh Hbox He Hs lp cs Hfin1)
      as (l & Hl & HF).
    pose proof (scan_fill _ _ Hl) as HF2.
    unfold mobil_check, check_beneficial. rewrite Hl, admissible_infos_eq.
    assert (HF3 : Forall2 (fun c i => fill c = Some i /\ li_corr Corridor i = c /\
              (adm_b Corridor lp i = true <-> exists x, admissible lp c x)) cs l).
    { clear Hl Hfin Hfin1. revert HF2. induction HF as [|c i cs l (H1 & H2 & H3) HF IH]; intros HF2; [constructor|].
      inversion HF2 as [|? ? ? ? Hfi HF2']; subst. constructor; [|auto]. split; [exact Hfi|]. split; [reflexivity|]. split.
      - intros H. apply H3 in H. eauto.
      - intros [x Hx]. apply H3. destruct Hx as (A1 & A2 & A3 & A4).
        pose proof (free_unique O Corridor cor_poly position rel until_end w ego e s _ _ _ A2 H2) as E.
        repeat split; auto; try apply H2. now rewrite <- E. }
    clear HF HF2. destruct (forall2_pairs _ _ _ HF3) as (pl & E1 & E2 & Hpl). rewrite <- E2, filter_map_snd.
    set (fl := filter (fun q : Corridor * lane_info T Corridor => adm_b Corridor lp (snd q)) pl).
    assert (Hfl : forall c i, In (c, i) fl <-> In (c, i) pl /\ adm_b Corridor lp i = true) by (intros; unfold fl; rewrite filter_In; reflexivity).
    assert (Hin : forall c, In c cs -> exists i, In (c, i) pl).
    { intros c Hc. rewrite <- E1 in Hc. apply in_map_iff in Hc as ([c' i] & <- & Hc). eauto. }
    assert (Hin' : forall c i, In (c, i) pl -> In c cs) by (intros c i H; rewrite <- E1; apply in_map_iff; exists (c, i); auto).
    (* the acceleration on the current corridor *)
    destruct (adm_iff O Corridor ceqb cor_poly position rel velocity until_end w ego e s Hok Hfresh Hbox He Hs lp c0) as (i0 & Hi0 & Hc0 & _).
    { intros a d. apply Hfin. now right. }
    destruct (info_accs O Corridor ceqb cor_poly position rel velocity until_end p w ego e s Hok Hfresh Hbox He Hs c0 i0)
      as (_ & old & _ & _ & Eold & _ & _ & Hold & _); [intros a d; apply Hfin; now right|exact Hi0|].
    unfold choose_mobil. cbv beta.
    assert (Esel : match select_info Corridor ceqb (map snd fl) c0 None with Some i => Some i | None => fill c0 end = Some i0).
    { pose proof (select_spec fl c0 None I) as G.
      destruct (select_info Corridor ceqb (map snd fl) c0 None) as [i|]; [|exact Hi0].
      rewrite <- Hi0. symmetry. apply G; intros c i' H; apply Hfl in H as [H _]; apply Hpl in H; apply H. }
    rewrite Esel. unfold ego_position. rewrite He, Hs. unfold agent_velocity. rewrite Hs, Eold.
    assert (Dfl : fl = filter (fun q : Corridor * lane_info T Corridor => adm_b Corridor lp (snd q)) pl) by reflexivity.
    clearbody fl. destruct (map snd fl) as [|z zs] eqn:Emap.
    { apply map_eq_nil in Emap. subst fl. left. split; [|reflexivity]. intros c x Hc Ha. destruct (Hin c Hc) as [i Hi].
      assert (In (c, i) []) as []. apply Hfl. split; [exact Hi|]. apply (Hpl _ _ Hi). eauto. }
    rewrite <- Emap. right.
    assert (HFf : Forall2 (fun c i => fill c = Some i) (map fst fl) (map snd fl)).
    { apply pairs_forall2. intros c i H. apply Hfl in H as [H _]. apply (Hpl _ _ H). }
    assert (Hfst : forall c, In c (map fst fl) -> In c cs /\ exists x, admissible lp c x).
    { intros c H. apply in_map_iff in H as ([c' i] & <- & H). apply Hfl in H as [H H']. split; [eauto|]. apply (Hpl _ _ H), H'. }
    assert (Hfst' : forall c x, In c cs -> admissible lp c x -> In c (map fst fl)).
    { intros c x Hc Ha. destruct (Hin c Hc) as [i Hi]. apply in_map_iff. exists (c, i). split; [reflexivity|].
      apply Hfl. split; [exact Hi|]. apply (Hpl _ _ Hi). eauto. }
    destruct (mobil_loop_spec O Corridor ceqb cor_poly position rel velocity until_end p m w ego e s Hok Hfresh Hbox He Hs c0 old Hold
                (map fst fl) (map snd fl) HFf) with (best := Fin (-1000)) (tmp := stored)
      as [[R Hall]|(c1 & c & c2 & adv & Hsp & R & Hcr & _ & H1 & H2)].
    - intros c a d Hc. apply Hfin. left. apply Hfst, Hc.
    - apply eltb_irrefl.
    - reflexivity.
    - left. split; [|split].
      + intros c adv Hc ((x & Ha) & Hcr). pose proof (Hall c adv (Hfst' _ _ Hc Ha) Hcr) as C.
        destruct Hcr as (? & ? & ? & ? & _ & _ & _ & _ & _ & _ & _ & G). congruence.
      + destruct fl as [|[c i] fl']; [discriminate|]. destruct (Hfst c) as (Hc & x & Hx); [now left|]. eauto.
      + rewrite R. destruct stored as [t|]; [destruct (ceqb t c0); reflexivity|reflexivity].
    - right. exists c, adv. split.
      2:{ rewrite R. destruct (ceqb c c0); reflexivity. }
      assert (Hsp2 : exists f1 i f2, fl = f1 ++ (c, i) :: f2 /\ map fst f1 = c1 /\ map fst f2 = c2).
      { clear - Hsp. revert fl Hsp. induction c1 as [|y c1 IH]; intros [|[a b] fl] H; cbn in H; try discriminate.
        - injection H as -> <-. exists [], b, fl. auto.
        - injection H as -> H. destruct (IH _ H) as (f1 & i & f2 & -> & <- & <-). exists ((y, b) :: f1), i, f2. auto. }
      destruct Hsp2 as (f1 & i & f2 & Ef & <- & <-).
      rewrite Dfl in Ef. destruct (filter_split _ _ _ _ _ Ef) as (m1 & m2 & Epl & Em1 & Em2 & Hb).
      exists (map fst m1), (map fst m2). split; [rewrite <- E1, Epl, map_app; reflexivity|].
      assert (Hci : In (c, i) pl) by (rewrite Epl; apply in_or_app; right; now left).
      split; [split; [apply (Hpl _ _ Hci), Hb|exact Hcr]|].
      assert (Hsub : forall mm ff, filter (fun q : Corridor * lane_info T Corridor => adm_b Corridor lp (snd q)) mm = ff ->
                (forall q, In q mm -> In q pl) -> forall c' x, In c' (map fst mm) -> admissible lp c' x -> In c' (map fst ff)).
      { intros mm ff <- Hmm c' x Hc' Ha. apply in_map_iff in Hc' as ([c'' i'] & <- & Hc'). apply in_map_iff. exists (c'', i').
        split; [reflexivity|]. apply filter_In. split; [exact Hc'|]. apply (Hpl _ _ (Hmm _ Hc')). eauto. }
      split.
      + intros c' adv' Hc' ((x & Ha) & Hcr'). apply (H1 c'); [|exact Hcr'].
        eapply Hsub; eauto. intros q Hq. rewrite Epl. apply in_or_app. now left.
      + intros c' adv' Hc' ((x & Ha) & Hcr'). apply (H2 c'); [|exact Hcr'].
        eapply Hsub; eauto. intros q Hq. rewrite Epl. apply in_or_app. right. now right.
  Qed.
End Mobil.
