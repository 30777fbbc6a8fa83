From Coq Require Import List NArith ZArith QArith Bool Arith Lia Sorted.
From Verif Require Import Model_Map Model_Roadgraph Model_RoadSearch Model_Intersection Spec_Roadgraph
  Spec_Roadgraph2 Spec_RoadSearch Model_Corridor Spec_Corridor
  Proof_Map Proof_Roadgraph Proof_Roadgraph2 Proof_Roadgraph3 Props_Roadgraph Proof_Corridor Proof_Corridor2.
Import ListNotations.
Local Open Scope nat_scope.

Section Assembly.
  Context {P : Type}.
  Implicit Types (m : xmap P) (g : graph P) (L : line_ops P).

  Lemma build_parts L fuel m g ids d rc : map_ok m -> generate m = Some g ->
    build_corridor L fuel m g ids d = Done (Some rc) ->
    exists first rest ls, ids = first :: rest /\ linkinv m L g ids (with_next ids) (rc_roads rc) /\
      m_find first (rc_roads rc) = Some ls /\
      inv L (rc_roads rc) (all_items (rc_roads rc) first ls) (rc_map rc) (rc_unique rc) /\
      rc_ids rc = ids /\ rc_dir rc = d.
  Proof.
    intros OK E B. unfold build_corridor in B.
    destruct (gen_roads m g ids) as [rs0|] eqn:G; [|discriminate].
    destruct (link_roads L g ids rs0) as [rs|] eqn:K; [|discriminate].
    destruct ids as [|first rest]; [discriminate|].
    destruct (calc_corridors L fuel rs first) as [[mp us]| |] eqn:C; try discriminate.
    inversion B; subst rc; clear B. cbn [rc_roads rc_map rc_unique rc_ids rc_dir].
    pose proof (link_roads_spec m L g (first :: rest) rs0 rs OK E G K) as LI.
    pose proof LI as (T & N). pose proof T as (S & D & Ss & T1 & T2).
    destruct (m_find first rs) as [ls|] eqn:F.
    2: { unfold calc_corridors in C. rewrite F in C. discriminate. }
    exists first, rest, ls. split; auto. split; auto. split; auto. split; [|auto].
    eapply calc_inv; eauto.
    intros [r1 i1] [r2 i2] c c' G1 G2 Eq. cbn in Eq. subst i2.
    destruct (T1 _ _ _ G1) as (_ & (H1 & E1) & _). destruct (T1 _ _ _ G2) as (_ & (H2 & E2) & _). cbn in H1, H2, E1, E2.
    destruct (lane_id_inj m r1 r2 _ _ OK H1 H2) as (-> & _); congruence.
  Qed.

  Section Table.
    Variables (m : xmap P) (g : graph P) (L : line_ops P) (ids : list N) (rs : croads (P:=P)).
    Hypothesis OK : map_ok m.
    Hypothesis E : generate m = Some g.
    Hypothesis LI : linkinv m L g ids (with_next ids) rs.

    Lemma t_names p c : get_lane rs p = Some c -> In (fst p) ids /\ names m p (cl_lane c).
    Proof. destruct p as [r i]. destruct LI as ((_ & _ & _ & T & _) & _). intros G. destruct (T r i c G) as (A & B & _). auto. Qed.
    Lemma t_uniq p q c c' : get_lane rs p = Some c -> get_lane rs q = Some c' -> snd p = snd q -> p = q.
    Proof.
      intros G1 G2 Eq. destruct (t_names p c G1) as (_ & H1 & E1). destruct (t_names q c' G2) as (_ & H2 & E2).
      destruct (lane_id_inj m _ _ _ _ OK H1 H2) as (F & _); [congruence|].
      destruct p, q; cbn in *; congruence.
    Qed.
    Lemma names_inj p a b : names m p a -> names m p b -> a = b.
    Proof. intros (H1 & E1) (H2 & E2). destruct (lane_id_inj m _ _ a b OK H1 H2); congruence. Qed.
    Lemma t_get p l : In (fst p) ids -> names m p l -> exists c, get_lane rs p = Some c /\ cl_lane c = l.
    Proof. destruct p as [r i]. intros H N. apply (tbl_get m g ids rs r i l OK); auto. apply LI. Qed.

    Lemma nxt_onward p q : nxt rs p q -> onward m ids p q.
    Proof.
      intros (c & G & N). destruct p as [r i], q as [r' i'].
      destruct (proj2 LI r i c G) as (_ & _ & (N1 & _)). destruct (N1 r' i' N) as (F & b & Hb & J).
      exists (cl_lane c), b. split; [apply (t_names (r, i) c G)|]. split; auto. split; [now apply with_next_In|exact J].
    Qed.
    Lemma t_closed p c q : get_lane rs p = Some c -> cl_next c = Some q -> exists c', get_lane rs q = Some c'.
    Proof.
      intros G N. assert (O : onward m ids p q) by (apply nxt_onward; exists c; auto).
      destruct O as (a & b & _ & Hb & F & _). apply follows_in in F. destruct (t_get q b) as (c' & G' & _); [tauto|auto|eauto].
    Qed.
    Lemma no_next p c : get_lane rs p = Some c -> cl_next c = None -> forall q, ~ onward m ids p q.
    Proof.
      intros G N q (a & b & Ha & Hb & F & J). destruct p as [r i], q as [r' i'].
      destruct (proj2 LI r i c G) as (_ & _ & (_ & N2)).
      destruct (t_names _ c G) as (_ & Hc). pose proof (names_inj _ _ _ Ha Hc) as ->.
      apply (N2 N r' b); auto; [now apply with_next_In|apply Hb].
    Qed.
    Lemma open_usable p : open_lane rs p <-> usable m ids p.
    Proof.
      split.
      - intros (c & G & D & Z). destruct (t_names p c G) as (A & B). split; auto. exists (cl_lane c). auto.
      - intros (A & l & B & D & Z). destruct (t_get p l A B) as (c & G & El). exists c. rewrite El. auto.
    Qed.

    Lemma onward_rank p q : NoDup (compress ids) -> (forall r, In r ids -> ~ road_linked m r r) ->
      onward m ids p q -> place (compress ids) (fst q) = S (place (compress ids) (fst p)).
    Proof.
      intros ND NS (a & b & (Ha & _) & (Hb & _) & F & J). destruct (follows_in _ _ _ F) as (I1 & I2).
      apply place_follows; auto. apply compress_follows; auto. intros Eq. apply (NS (fst p)); auto.
      exists a, b. rewrite Eq at 2. split; auto.
    Qed.
  End Table.

  (* order of the lanes: a lane of an earlier road comes first *)
  Lemma items_order (rls : croads (P:=P)) : m_sorted rls -> forall pre post (h p : item (P:=P)),
    flat_map road_items rls = pre ++ h :: post -> In p (flat_map road_items rls) -> (fst p < fst h)%N -> In p pre.
  Proof.
    intros S pre post h p E Hp Lt. rewrite E in Hp. apply in_app_or in Hp as [Hp|[Hp|Hp]]; auto; [subst; lia|].
    exfalso.
    assert (Srt : StronglySorted (fun a b : item (P:=P) => (fst a <= fst b)%N) (flat_map road_items rls)).
    { clear - S. induction rls as [|[r ls] rls IH]; cbn; [constructor|]. apply StronglySorted_inv in S as (S & F).
      specialize (IH S). unfold road_items at 1. cbn. induction ls as [|kc ls IH2]; cbn; auto. constructor; auto.
      apply Forall_forall. intros x Hx. apply in_app_or in Hx as [Hx|Hx].
      - apply in_map_iff in Hx as (y & <- & _). cbn. lia.
      - apply in_flat_map in Hx as ([r' ls'] & Hr & Hx). unfold road_items in Hx. apply in_map_iff in Hx as (y & <- & _). cbn.
        rewrite Forall_forall in F. specialize (F _ Hr). cbn in F. lia. }
    rewrite E in Srt.
    assert (St : StronglySorted (fun a b : item (P:=P) => (fst a <= fst b)%N) (h :: post)).
    { clear - Srt. induction pre; auto. apply IHpre. now apply StronglySorted_inv in Srt. }
    apply StronglySorted_inv in St as (_ & F). rewrite Forall_forall in F. specialize (F p Hp). cbn in F. lia.
  Qed.
End Assembly.

Section Total.
  Context {P : Type}.
  Variables (m : xmap P) (g : graph P) (L : line_ops P) (ids : list N).
  Hypothesis OK : map_ok m.
  Hypothesis E : generate m = Some g.
  Hypothesis LO : lines_ok L.
  Hypothesis Dw : drawable m ids.
  Hypothesis Known : forall r, In r ids -> m_find r (m_roads m) <> None.

  Lemma gen_lane_total r l : lane_of m r l -> gen_lane g l <> None.
  Proof.
    intros (s & Hs & Hl). unfold gen_lane. destruct (Z.eqb_spec (l_pos l) 0) as [Z|Z]; [discriminate|].
    destruct (pos_lane m r s (inward (l_pos l)) OK Hs) as [(x & Hx & Ex)|No].
    - destruct (C62_lane_polygon m g r s l x OK E Hs Hl Hx Z Ex) as (p & rest & _ & -> & _). discriminate.
    - rewrite (C62_no_inner_lane_no_polygon m g r s l OK E Hs Hl); [discriminate|auto].
  Qed.
  Lemma gen_roads_total : exists rs0, gen_roads m g ids = Some rs0.
  Proof.
    apply (oins_total (fun r => r) (gen_road m g)). intros r Hr. unfold gen_road.
    destruct (m_find r (m_roads m)) as [rd|] eqn:F; [|exfalso; now apply (Known r)].
    rewrite ofold_flat.
    destruct (oins_total (X:=N * xlane P) fst (fun kl => gen_lane g (snd kl)) (concat (r_sections rd))) with (acc := @nil (N * clane P)) as (out & Eo).
    - intros [k l] H. cbn. apply (concat_lane m r rd) in H as (H & _); auto. eapply gen_lane_total; eauto.
    - rewrite Eo. discriminate.
  Qed.
  Lemma line_nonempty r l : In r ids -> lane_of m r l -> l_line l <> [].
  Proof. intros Hr (s & Hs & Hl). destruct (Dw r s Hr Hs) as (_ & N). auto. Qed.
  Lemma tables_total : exists rs0 rs, gen_roads m g ids = Some rs0 /\ link_roads L g ids rs0 = Some rs.
  Proof.
    destruct gen_roads_total as (rs0 & G0). destruct (link_roads_total m L g ids rs0 OK E G0 LO line_nonempty) as (rs & K). eauto.
  Qed.

  Variable rs : croads (P:=P).
  Hypothesis LI : linkinv m L g ids (with_next ids) rs.
  Hypothesis RU : reference_unlinked m.

  Lemma solid_lane p c : get_lane rs p = Some c -> l_pos (cl_lane c) <> 0%Z -> solid c.
  Proof.
    intros G Z. destruct (t_names m g L ids rs LI p c G) as (Hr & Hn). destruct p as [r i]. cbn in Hr.
    pose proof Hn as ((s & Hs & Hl) & Ei). cbn in Hs.
    destruct (proj2 LI r i c G) as (D & _). rewrite with_next_fst in D. destruct (D Hr) as (_ & _ & Rb & Inn).
    destruct (Dw r s Hr Hs) as (Co & Ln). destruct (Co (cl_lane c) Hl Z) as (x & Hx & Ex).
    destruct (inner_spec m g r s (cl_lane c) OK (proj1 (generate_full m g OK E)) Hs Hl) as (I1 & _). specialize (I1 x Hx Z Ex).
    destruct Inn as [(i' & b & Ib & Hb & Lb & Ce)|(Ib & _)]; [|rewrite I1 in Ib; discriminate].
    assert (Nb : l_line b <> []) by (apply (line_nonempty r); auto; apply Hb).
    assert (Nl : l_line (cl_lane c) <> []) by auto.
    unfold solid. rewrite Lb, Rb. split; auto.
    destruct (proj1 (proj2 LO) _ _ Nb Nl) as (ce & Ec & Nc). congruence.
  Qed.
  Lemma solid_next p c q c' : get_lane rs p = Some c -> cl_next c = Some q -> get_lane rs q = Some c' -> solid c'.
  Proof.
    intros G N G'. apply (solid_lane q c' G').
    destruct (nxt_onward m g L ids rs LI p q) as (a & b & Ha & Hb & _ & J); [exists c; auto|].
    assert (b = cl_lane c') as <- by (eapply (names_inj m OK); eauto; eapply t_names; eauto).
    destruct J as [J|J]; apply RU in J; tauto.
  Qed.

  Lemma step_no_crash fuel st it : get_lane rs (item_ref it) = Some (snd (snd it)) -> st <> Crash -> step L rs fuel st it <> Crash.
  Proof.
    destruct it as [r [id c]]. unfold item_ref, step, calc_lane. cbn [fst snd]. intros G N. destruct st as [[mp us]| |]; auto.
    destruct ((match m_find id mp with Some _ => true | None => false end) || (l_pos (cl_lane c) =? 0)%Z) eqn:Sk; [discriminate|].
    destruct (negb _); [discriminate|]. apply orb_false_iff in Sk as (_ & Z). apply Z.eqb_neq in Z.
    destruct (solid_lane _ _ G Z) as (S1 & S2 & S3).
    pose proof (follow_no_crash L rs (t_closed m g L ids rs OK LI) fuel LO solid_next (length us) (start_corr L (r, id) c)
      (m_insert id (length us) mp) (r, id) c G S1 S2 S3) as K.
    destruct (follow L fuel rs _ _ _ _) as [[lc' mp']| |]; [|destruct K|discriminate].
    unfold finish. destruct LO as (_ & _ & Si). specialize (Si _ K). destruct (lo_simplify L (lc_left lc')); [congruence|discriminate].
  Qed.
  Lemma run_no_crash fuel its : (forall it, In it its -> get_lane rs (item_ref it) = Some (snd (snd it))) ->
    forall st, st <> Crash -> fold_left (step L rs fuel) its st <> Crash.
  Proof.
    induction its as [|it its IH]; intros H st N; cbn [fold_left]; auto.
    apply IH; [intros; apply H; cbn; auto|]. apply step_no_crash; auto. apply H. cbn. auto.
  Qed.
  Lemma items_ok it : In it (flat_map road_items rs) -> get_lane rs (item_ref it) = Some (snd (snd it)).
  Proof.
    pose proof LI as ((S & D & Ss & _) & _). intros H.
    apply in_flat_map in H as ([r l'] & Hr & Hit). unfold road_items in Hit. apply in_map_iff in Hit as ([k c] & <- & Hk).
    cbn in *. unfold get_lane, item_ref. cbn. assert (m_find r rs = Some l') as -> by (apply (m_find_iff _ _ _ S); auto).
    apply m_find_iff; eauto.
  Qed.
  Lemma all_items_ok first ls it : m_find first rs = Some ls -> In it (all_items rs first ls) -> get_lane rs (item_ref it) = Some (snd (snd it)).
  Proof.
    intros F H. apply items_ok. unfold all_items in H. apply in_app_or in H as [H|H]; auto.
    apply in_flat_map. exists (first, ls). split; auto. now apply m_find_In.
  Qed.

  Lemma step_ends fuel st it : simple_route m ids -> length ids < fuel ->
    get_lane rs (item_ref it) = Some (snd (snd it)) -> st <> OutOfFuel -> step L rs fuel st it <> OutOfFuel.
  Proof.
    intros (ND & NS) Hf G N. destruct it as [r [id c]]. unfold item_ref in G. unfold step, calc_lane. cbn [fst snd] in *.
    destruct st as [[mp us]| |]; auto.
    destruct (_ || _); [discriminate|]. destruct (negb _); [discriminate|].
    assert (NSr : forall r, In r ids -> ~ road_linked m r r).
    { intros r0 Hr (a & b & Ha & Hb & [J|J]); [exact (NS r0 a b Hr Ha Hb J)|exact (NS r0 b a Hr Hb Ha J)]. }
    set (rank := fun p : lane_ref => place (compress ids) (fst p)).
    assert (Len : length (compress ids) <= length ids).
    { clear. induction ids as [|a t IH]; auto. rewrite compress_cons. destruct t; cbn in *; [lia|]. destruct (_ =? _)%N; cbn in *; lia. }
    assert (Rk : forall p q, nxt rs p q -> rank p < rank q <= length (compress ids)).
    { intros p q X. apply (nxt_onward m g L ids rs LI) in X. unfold rank.
      rewrite (onward_rank m ids p q ND NSr X). split; [lia|]. rewrite <- (onward_rank m ids p q ND NSr X). apply place_le. }
    destruct (follow_ends L rs (t_closed m g L ids rs OK LI) rank _ Rk fuel (length us) (start_corr L (r, id) c) (m_insert id (length us) mp) (r, id) c G) as [K|K].
    - lia.
    - destruct (follow L fuel rs _ _ _ _) as [[lc' mp']| |]; [|discriminate|congruence]. destruct (finish L lc'); discriminate.
    - exfalso. unfold rank in K. pose proof (place_le (compress ids) (fst (r, id))). lia.
  Qed.
  Lemma run_ends fuel its : simple_route m ids -> length ids < fuel ->
    (forall it, In it its -> get_lane rs (item_ref it) = Some (snd (snd it))) ->
    forall st, st <> OutOfFuel -> fold_left (step L rs fuel) its st <> OutOfFuel.
  Proof.
    intros SR Hf. induction its as [|it its IH]; intros H st N; cbn [fold_left]; auto.
    apply IH; [intros; apply H; cbn; auto|]. apply step_ends; auto. apply H. cbn. auto.
  Qed.
End Total.
