(* Successor edges of a generated roadgraph. *)
From Coq Require Import List NArith ZArith Bool Arith Lia.
From Verif Require Import Model_Map Proof_Map Model_Roadgraph Spec_Roadgraph Proof_Roadgraph.
Import ListNotations.

Section Links.
  Context {P : Type}.
  Implicit Types (g : graph P) (m : xmap P) (s : section P) (l a b : xlane P).

  Lemma filter_length_lt {A : Type} (f h : A -> bool) (xs : list A) x :
    (forall y, f y = true -> h y = true) -> In x xs -> f x = false -> h x = true ->
    length (filter f xs) < length (filter h xs).
  Proof.
    intros Imp. induction xs as [|y r IH]; cbn; intros Hin Hf Hh; [destruct Hin|].
    assert (Le : length (filter f r) <= length (filter h r)).
    { clear - Imp. induction r as [|z q IH]; cbn; auto.
      destruct (f z) eqn:F; [rewrite (Imp _ F); cbn; lia|]. destruct (h z); cbn; lia. }
    destruct Hin as [->|Hin].
    - rewrite Hf, Hh. cbn. lia.
    - specialize (IH Hin Hf Hh). destruct (f y) eqn:F; [rewrite (Imp _ F); cbn; lia|].
      destruct (h y); cbn; lia.
  Qed.

  Definition within_pos (n : Z) (v : vertex P) : bool := (Z.abs (l_pos (v_lane v)) <=? n)%Z.
  Definition cnt g (n : Z) : nat := length (filter (within_pos n) (g_v g)).

  Definition pv_of m l (x : N) : Prop :=
    exists r s pv, section_of m r s /\ in_section l s /\ in_section pv s /\ l_pos pv = 0%Z /\ x = l_id pv.
  Definition all_contiguous m : Prop := forall r s, section_of m r s -> contiguous s.

  Lemma inward_abs p : (p <> 0)%Z -> Z.abs (inward p) = (Z.abs p - 1)%Z.
  Proof. intros H. unfold inward. destruct (Z.ltb_spec 0 p); lia. Qed.

  Lemma plan_view_f m g r s : map_ok m -> nb m g -> section_of m r s ->
    forall fuel l, in_section l s -> cnt g (Z.abs (l_pos l)) < fuel ->
    exists res, plan_view_for_lane_f fuel g (l_id l) = Some res /\
      (contiguous s -> exists pv, in_section pv s /\ l_pos pv = 0%Z /\ res = (l_id pv, true)).
  Proof.
    intros OK NB Hs. induction fuel as [|n IH]; intros l Hl Hc; [lia|].
    cbn [plan_view_for_lane_f].
    assert (HL : lane_of m r l) by (exists s; auto).
    rewrite (base_lane_ptr m g r l OK (proj1 NB) HL).
    destruct (Z.eqb_spec (l_pos l) 0) as [E|E].
    { exists (l_id l, true). split; auto. intros _. exists l. auto. }
    destruct (inner_spec m g r s l OK NB Hs Hl) as (I1 & I2).
    destruct (lane_by_position s (inward (l_pos l))) as [b|] eqn:F.
    - apply (lane_by_position_spec m r s _ OK Hs) in F as [Hb Eb].
      rewrite (I1 b Hb E Eb).
      destruct (IH b Hb) as (res & R1 & R2).
      + rewrite Eb, inward_abs by auto.
        destruct (base_vertex m g r l OK (proj1 NB) HL) as (v & Hv & _ & Ev & _).
        assert (cnt g (Z.abs (l_pos l) - 1) < cnt g (Z.abs (l_pos l))); [|lia].
        apply (filter_length_lt _ _ _ v); auto; unfold within_pos.
        * intros y. rewrite !Z.leb_le. lia.
        * rewrite Ev. apply Z.leb_gt. lia.
        * rewrite Ev. apply Z.leb_le. lia.
      + eauto.
    - rewrite I2.
      + exists (0%N, false). split; auto. intros C. exfalso.
        destruct (C l Hl E) as (b & Hb & Eb).
        pose proof (proj2 (lane_by_position_spec m r s _ OK Hs b) (conj Hb Eb)). congruence.
      + right. intros b Hb Eb.
        pose proof (proj2 (lane_by_position_spec m r s _ OK Hs b) (conj Hb Eb)). congruence.
  Qed.

  Lemma plan_view_total m g r s l : map_ok m -> nb m g -> section_of m r s -> in_section l s ->
    exists res, plan_view_for_lane g (l_id l) = Some res /\
      (contiguous s -> exists pv, in_section pv s /\ l_pos pv = 0%Z /\ res = (l_id pv, true)).
  Proof.
    intros OK NB Hs Hl. apply (plan_view_f m g r s OK NB Hs); auto. unfold cnt.
    assert (length (filter (within_pos (Z.abs (l_pos l))) (g_v g)) <= length (g_v g)); [|lia].
    clear. induction (g_v g) as [|v q IH]; cbn; auto. destruct (within_pos _ v); cbn; lia.
  Qed.

  (* ---- invariant: the successor edges are exactly those of the relation L ---- *)
  Definition inv m (L : xlane P -> xlane P -> Prop) g : Prop :=
    nb m g /\
    (forall x y, In (x, y, LANE_SUCC) (edge_ids g) <-> exists a b, L a b /\ x = l_id a /\ y = l_id b) /\
    (all_contiguous m -> forall x y, In (x, y, ROAD_SUCC) (edge_ids g) <->
       exists a b, L a b /\ pv_of m a x /\ pv_of m b y).

  Definition sym (R : xlane P -> xlane P -> Prop) a b : Prop := R a b \/ R b a.

  Lemma inv_ext m L L' g : (forall a b, L a b <-> L' a b) -> inv m L g -> inv m L' g.
  Proof.
    intros E (A & B & C). split; [auto|]. split.
    - intros x y. rewrite B. split; intros (a & b & H & H'); exists a, b; split; auto; now apply E.
    - intros HC x y. rewrite (C HC). split; intros (a & b & H & H'); exists a, b; split; auto; now apply E.
  Qed.

  Lemma inv_neighbours m : map_ok m -> inv m (fun _ _ => False) (generate_neighbours_only m).
  Proof.
    intros OK. destruct (neighbours_edges m OK) as (B & E).
    split; [now apply nb_neighbours|]. split.
    - intros x y. rewrite E. split.
      + intros (a & b & _ & [K|K]); inversion K.
      + intros (a & b & [] & _).
    - intros _ x y. rewrite E. split.
      + intros (a & b & _ & [K|K]); inversion K.
      + intros (a & b & [] & _).
  Qed.

  Lemma pv_of_unique m l x y : map_ok m -> pv_of m l x -> pv_of m l y -> x = y.
  Proof.
    intros OK (r & s & p & Hs & Hl & Hp & E & ->) (r' & s' & p' & Hs' & Hl' & Hp' & E' & ->).
    destruct (section_inj m r r' s s' l OK Hs Hs' Hl Hl') as (-> & ->).
    f_equal. eapply pos_inj; eauto. congruence.
  Qed.

  Lemma connect_inv m L g a b ra rb :
    map_ok m -> inv m L g -> lane_of m ra a -> lane_of m rb b ->
    exists g', connect (l_id a) (l_id b) g = Some g' /\
      inv m (fun u w => L u w \/ sym (fun u w => u = a /\ w = b) u w) g'.
  Proof.
    intros OK (NB & LS & RS) Ha Hb. unfold connect.
    set (g1 := fst (add_lane_succ g (l_id a) (l_id b))).
    set (g2 := fst (add_lane_succ g1 (l_id b) (l_id a))).
    assert (NB1 : nb m g1) by (apply nb_add_edge; auto; discriminate).
    assert (NB2 : nb m g2) by (apply nb_add_edge; auto; discriminate).
    assert (Ia : forall h, base m h -> In (l_id a) (ids_of (g_v h))) by (intros h Bh; eapply base_ids; eauto).
    assert (Ib : forall h, base m h -> In (l_id b) (ids_of (g_v h))) by (intros h Bh; eapply base_ids; eauto).
    destruct Ha as (sa & Hsa & Ha). destruct Hb as (sb & Hsb & Hb).
    destruct (plan_view_total m g2 ra sa a OK NB2 Hsa Ha) as (pa & Ea & Ca).
    destruct (plan_view_total m g2 rb sb b OK NB2 Hsb Hb) as (pb & Eb & Cb).
    rewrite Ea, Eb. eexists. split; [reflexivity|].
    set (g3 := fst (add_road_succ g2 (fst pa) (fst pb))).
    assert (NB3 : nb m g3) by (apply nb_add_edge; auto; discriminate).
    split; [apply nb_add_edge; auto; discriminate|]. split.
    - intros x y.
      assert (E : In (x, y, LANE_SUCC) (edge_ids (fst (add_road_succ g3 (fst pb) (fst pa)))) <->
                  In (x, y, LANE_SUCC) (edge_ids g2)).
      { split.
        - intros H. apply add_edge_In_sub in H as [H|H]; [|discriminate].
          apply add_edge_In_sub in H as [H|H]; [auto|discriminate].
        - intros H. apply add_edge_In_sup, add_edge_In_sup, H. }
      rewrite E. unfold g2, add_lane_succ.
      rewrite (add_edge_In g1 _ _ _ _ (Ib _ (proj1 NB1)) (Ia _ (proj1 NB1))).
      unfold g1, add_lane_succ.
      rewrite (add_edge_In g _ _ _ _ (Ia _ (proj1 NB)) (Ib _ (proj1 NB))).
      rewrite LS. split.
      + intros [[(u & w & H & Ex & Ey)|H]|H].
        * exists u, w. auto.
        * inversion H; subst. exists a, b. split; auto. right; left; auto.
        * inversion H; subst. exists b, a. split; auto. right; right; auto.
      + intros (u & w & [H|[[-> ->]|[-> ->]]] & -> & ->); [left; left; eauto|left; right; auto|right; auto].
    - intros HC x y.
      destruct (Ca (HC _ _ Hsa)) as (va & Hva & Pa & Epa).
      destruct (Cb (HC _ _ Hsb)) as (vb & Hvb & Pb & Epb).
      assert (La : lane_of m ra va) by (exists sa; auto).
      assert (Lb : lane_of m rb vb) by (exists sb; auto).
      assert (Wa : pv_of m a (l_id va)) by (exists ra, sa, va; auto).
      assert (Wb : pv_of m b (l_id vb)) by (exists rb, sb, vb; auto).
      subst pa pb. cbn [fst] in *. unfold add_road_succ.
      rewrite (add_edge_In g3).
      2:{ eapply base_ids; eauto. apply (proj1 NB3). }
      2:{ eapply base_ids; eauto. apply (proj1 NB3). }
      unfold g3, add_road_succ. rewrite (add_edge_In g2).
      2:{ eapply base_ids; eauto. apply (proj1 NB2). }
      2:{ eapply base_ids; eauto. apply (proj1 NB2). }
      assert (E : In (x, y, ROAD_SUCC) (edge_ids g2) <-> In (x, y, ROAD_SUCC) (edge_ids g)).
      { split.
        - intros H. apply add_edge_In_sub in H as [H|H]; [|discriminate].
          apply add_edge_In_sub in H as [H|H]; [auto|discriminate].
        - intros H. apply add_edge_In_sup, add_edge_In_sup, H. }
      rewrite E, (RS HC). split.
      + intros [[(u & w & H & Ex & Ey)|H]|H].
        * exists u, w. auto.
        * inversion H; subst. exists a, b. split; [right; left; auto|auto].
        * inversion H; subst. exists b, a. split; [right; right; auto|auto].
      + intros (u & w & [H|[[-> ->]|[-> ->]]] & Wx & Wy).
        * left; left; eauto.
        * left; right. rewrite (pv_of_unique m a x _ OK Wx Wa), (pv_of_unique m b y _ OK Wy Wb). auto.
        * right. rewrite (pv_of_unique m b x _ OK Wx Wb), (pv_of_unique m a y _ OK Wy Wa). auto.
  Qed.

  (* folding steps, each of which adds the relation R b *)
  Lemma ofold_inv {B : Type} m (f : graph P -> B -> option (graph P)) (R : B -> xlane P -> xlane P -> Prop) xs :
    (forall x L g g', In x xs -> inv m L g -> f g x = Some g' -> inv m (fun u w => L u w \/ sym (R x) u w) g') ->
    forall L g g', inv m L g -> ofold f xs g = Some g' ->
    inv m (fun u w => L u w \/ exists x, In x xs /\ sym (R x) u w) g'.
  Proof.
    induction xs as [|x r IH]; intros Step L g g' H E; cbn in E.
    - inversion E; subst. eapply inv_ext; [|exact H]. intros u w. split; auto.
      intros [K|(x & [] & _)]; auto.
    - destruct (f g x) as [g1|] eqn:F; [|discriminate].
      pose proof (Step x L g g1 (or_introl eq_refl) H F) as H1.
      pose proof (IH (fun y L g g' Hy => Step y L g g' (or_intror Hy)) _ _ _ H1 E) as H2.
      eapply inv_ext; [|exact H2]. intros u w. split.
      + intros [[K|K]|(y & Hy & K)]; [auto| |]; right; [exists x|exists y]; cbn; auto.
      + intros [K|(y & [->|Hy] & K)]; [auto|auto|]. right; eauto.
  Qed.
  Lemma ofold_total {B : Type} m (f : graph P -> B -> option (graph P)) xs :
    (forall x g, In x xs -> nb m g -> exists g', f g x = Some g' /\ nb m g') ->
    forall g, nb m g -> exists g', ofold f xs g = Some g' /\ nb m g'.
  Proof.
    induction xs as [|x r IH]; intros Step g H; cbn; [eauto|].
    destruct (Step x g (or_introl eq_refl) H) as (g1 & -> & H1).
    apply IH; auto. intros y h Hy. apply Step. now right.
  Qed.

  (* the relation one lane contributes *)
  Definition lane_links (ss ps : option (section P)) l a b : Prop :=
    (a = l /\ exists s, ss = Some s /\ in_section b s /\ l_to l <> 0%Z /\ l_pos b = l_to l) \/
    (b = l /\ exists s, ps = Some s /\ in_section a s /\ l_from l <> 0%Z /\ l_pos a = l_from l /\
       (l_to l = 0%Z -> ss = None)).

  Definition opt_section m (os : option (section P)) : Prop :=
    match os with None => True | Some s => exists r, section_of m r s end.

  Lemma gen_links_lane_inv m ss ps r l L g g' :
    map_ok m -> opt_section m ss -> opt_section m ps -> lane_of m r l -> inv m L g ->
    gen_links_lane ss ps g l = Some g' ->
    inv m (fun u w => L u w \/ sym (lane_links ss ps l) u w) g'.
  Proof.
    intros OK Hss Hps Hl H E. unfold gen_links_lane in E.
    (* predecessor part *)
    assert (Pred : forall L g g', inv m L g -> gen_pred_lane ps l g = Some g' ->
      inv m (fun u w => L u w \/ sym (fun a b => b = l /\ exists s, ps = Some s /\ in_section a s /\
        l_from l <> 0%Z /\ l_pos a = l_from l) u w) g').
    { intros L0 g0 g0' H0 E0. unfold gen_pred_lane in E0. destruct ps as [s|].
      - destruct Hps as (rp & Hsp). destruct (Z.eqb_spec (l_from l) 0) as [Z0|Z0].
        + inversion E0; subst. eapply inv_ext; [|exact H0]. intros u w. split; auto.
          intros [K|[(_ & s0 & _ & _ & K & _)|(_ & s0 & _ & _ & K & _)]]; [auto|contradiction|contradiction].
        + destruct (lane_by_position s (l_from l)) as [pl|] eqn:F.
          * apply (lane_by_position_spec m rp s _ OK Hsp) in F as [Hpl Ep].
            destruct (connect_inv m L0 g0 pl l rp r OK H0 (ex_intro _ s (conj Hsp Hpl)) Hl) as (g1 & C & I1).
            rewrite C in E0; inversion E0; subst.
            eapply inv_ext; [|exact I1]. intros u w. split.
            -- intros [K|[[-> ->]|[-> ->]]]; [auto| |]; right; [left|right]; split; auto;
                 exists s; auto.
            -- intros [K|[(-> & s0 & E1 & K1 & _ & K2)|(-> & s0 & E1 & K1 & _ & K2)]]; [auto| |];
                 inversion E1; subst s0; right; [left|right]; split; auto;
                 eapply pos_inj; eauto; congruence.
          * inversion E0; subst. eapply inv_ext; [|exact H0]. intros u w. split; auto.
            intros [K|[(-> & s0 & E1 & K1 & _ & K2)|(-> & s0 & E1 & K1 & _ & K2)]]; [auto| |];
              inversion E1; subst s0;
              pose proof (proj2 (lane_by_position_spec m rp s _ OK Hsp _) (conj K1 K2)); congruence.
      - inversion E0; subst. eapply inv_ext; [|exact H0]. intros u w. split; auto.
        intros [K|[(_ & s0 & K & _)|(_ & s0 & K & _)]]; [auto|discriminate|discriminate]. }
    destruct ss as [s|].
    - destruct Hss as (rs & Hs). destruct (Z.eqb_spec (l_to l) 0) as [Z0|Z0].
      + inversion E; subst. eapply inv_ext; [|exact H]. intros u w. split; auto.
        intros [K|[[(_ & s0 & _ & _ & K & _)|(_ & s0 & _ & _ & _ & _ & K)]|
                   [(_ & s0 & _ & _ & K & _)|(_ & s0 & _ & _ & _ & _ & K)]]]; auto;
          try contradiction; specialize (K Z0); discriminate.
      + destruct (lane_by_position s (l_to l)) as [sl|] eqn:F.
        * apply (lane_by_position_spec m rs s _ OK Hs) in F as [Hsl Ep].
          destruct (connect_inv m L g l sl r rs OK H Hl (ex_intro _ s (conj Hs Hsl))) as (g1 & C & I1).
          rewrite C in E. pose proof (Pred _ _ _ I1 E) as I2.
          eapply inv_ext; [|exact I2]. intros u w. split.
          -- intros [[K|[[-> ->]|[-> ->]]]|[(-> & s0 & K)|(-> & s0 & K)]]; [auto| | | |]; right.
             ++ left; left. split; auto. exists s; auto.
             ++ right; left. split; auto. exists s; auto.
             ++ left; right. split; auto. exists s0. repeat split; try apply K. intros; contradiction.
             ++ right; right. split; auto. exists s0. repeat split; try apply K. intros; contradiction.
          -- intros [K|[[(-> & s0 & E1 & K1 & _ & K2)|(-> & s0 & K)]|[(-> & s0 & E1 & K1 & _ & K2)|(-> & s0 & K)]]];
               [auto| | | |].
             ++ left; right; left. split; auto. inversion E1; subst s0. eapply pos_inj; eauto; congruence.
             ++ right; left. split; auto. exists s0. tauto.
             ++ left; right; right. split; auto. inversion E1; subst s0. eapply pos_inj; eauto; congruence.
             ++ right; right. split; auto. exists s0. tauto.
        * pose proof (Pred _ _ _ H E) as I2. eapply inv_ext; [|exact I2]. intros u w. split.
          -- intros [K|[(-> & s0 & K)|(-> & s0 & K)]]; [auto| |]; right; [left|right]; right; split; auto;
               exists s0; repeat split; try apply K; intros; contradiction.
          -- intros [K|[[(-> & s0 & E1 & K1 & _ & K2)|(-> & s0 & K)]|[(-> & s0 & E1 & K1 & _ & K2)|(-> & s0 & K)]]];
               [auto| | | |].
             ++ inversion E1; subst s0.
                pose proof (proj2 (lane_by_position_spec m rs s _ OK Hs _) (conj K1 K2)); congruence.
             ++ right; left. split; auto. exists s0. tauto.
             ++ inversion E1; subst s0.
                pose proof (proj2 (lane_by_position_spec m rs s _ OK Hs _) (conj K1 K2)); congruence.
             ++ right; right. split; auto. exists s0. tauto.
    - pose proof (Pred _ _ _ H E) as I2. eapply inv_ext; [|exact I2]. intros u w. split.
      + intros [K|[(-> & s0 & K)|(-> & s0 & K)]]; [auto| |]; right; [left|right]; right; split; auto;
          exists s0; repeat split; try apply K; auto.
      + intros [K|[[(-> & s0 & E1 & _)|(-> & s0 & K)]|[(-> & s0 & E1 & _)|(-> & s0 & K)]]];
          [auto|discriminate| |discriminate|].
        * right; left. split; auto. exists s0. tauto.
        * right; right. split; auto. exists s0. tauto.
  Qed.

  (* next_section / prev_section as computed *)
  Lemma succ_section_spec m r os : succ_section m r = Some os ->
    (forall s, os = Some s <-> next_section m r s) /\ opt_section m os.
  Proof.
    unfold succ_section, next_section, first_section. destruct (snd (r_succ r)) eqn:T.
    - destruct (m_find (fst (r_succ r)) (m_roads m)) as [r'|] eqn:F.
      + destruct (r_sections r') as [|s0 rest] eqn:S0; [discriminate|]. intros E; inversion E; subst.
        split.
        * intros s. split.
          -- intros K; inversion K; subst. split; auto. exists r'. split; auto. exists rest; auto.
          -- intros (_ & r'' & K & rest' & K'). inversion K; subst r''. rewrite S0 in K'. inversion K'; auto.
        * cbn. exists (fst (r_succ r)), r'. split; [now apply m_find_In|]. rewrite S0. now left.
      + intros E; inversion E; subst. split; cbn; auto. intros s. split; [discriminate|].
        intros (_ & r'' & K & _). discriminate.
    - intros E; inversion E; subst. split; cbn; auto. intros s; split; [discriminate|].
      intros (K & _); discriminate.
  Qed.
  Lemma pred_section_spec m r os : pred_section m r = Some os ->
    (forall s, os = Some s <-> prev_section m r s) /\ opt_section m os.
  Proof.
    unfold pred_section, prev_section, last_section. destruct (snd (r_pred r)) eqn:T.
    - destruct (m_find (fst (r_pred r)) (m_roads m)) as [r'|] eqn:F.
      + destruct (rev (r_sections r')) as [|s0 rest] eqn:S0; [discriminate|]. intros E; inversion E; subst.
        assert (S1 : r_sections r' = rev rest ++ [s0]).
        { rewrite <- (rev_involutive (r_sections r')), S0. reflexivity. }
        split.
        * intros s. split.
          -- intros K; inversion K; subst. split; auto. exists r'. split; auto. exists (rev rest); auto.
          -- intros (_ & r'' & K & rest' & K'). inversion K; subst r''. rewrite S1 in K'.
             apply app_inj_tail in K' as [_ ->]. auto.
        * cbn. exists (fst (r_pred r)), r'. split; [now apply m_find_In|]. rewrite S1.
          apply in_app_iff. right. now left.
      + intros E; inversion E; subst. split; cbn; auto. intros s. split; [discriminate|].
        intros (_ & r'' & K & _). discriminate.
    - intros E; inversion E; subst. split; cbn; auto. intros s; split; [discriminate|].
      intros (K & _); discriminate.
  Qed.

  Definition road_links m (r : road P) a b : Prop :=
    read_links r /\ exists s, In s (r_sections r) /\
      ((in_section a s /\ exists s', next_section m r s' /\ in_section b s' /\ l_to a <> 0%Z /\ l_pos b = l_to a) \/
       (in_section b s /\ exists s', prev_section m r s' /\ in_section a s' /\ l_from b <> 0%Z /\ l_pos a = l_from b /\
          (l_to b = 0%Z -> forall s'', ~ next_section m r s''))).

  Lemma gen_links_road_inv m k r L g g' :
    map_ok m -> In (k, r) (m_roads m) -> inv m L g -> gen_links_road m g r = Some g' ->
    inv m (fun u w => L u w \/ sym (road_links m r) u w) g'.
  Proof.
    intros OK Hr H E. unfold gen_links_road in E.
    destruct (N.ltb_spec 1000 (fst (r_succ r))) as [Lt|Ge].
    { inversion E; subst. eapply inv_ext; [|exact H]. intros u w. split; auto.
      unfold sym, road_links, read_links. intros [K|[(K & _)|(K & _)]]; [auto|lia|lia]. }
    destruct (succ_section m r) as [ss|] eqn:Es; [|discriminate].
    destruct (pred_section m r) as [ps|] eqn:Ep; [|discriminate].
    destruct (succ_section_spec m r ss Es) as (Sn & So).
    destruct (pred_section_spec m r ps Ep) as (Pn & Po).
    assert (Step : forall s L g g', In s (r_sections r) -> inv m L g ->
      ofold (fun g kl => gen_links_lane ss ps g (snd kl)) s g = Some g' ->
      inv m (fun u w => L u w \/ sym (fun a b => exists l, in_section l s /\ lane_links ss ps l a b) u w) g').
    { intros s L0 g0 g0' Hs H0 E0.
      assert (Hsec : section_of m k s) by (exists r; auto).
      pose proof (ofold_inv m _ (fun kl => lane_links ss ps (snd kl)) s
        (fun x L g g' Hx HI => gen_links_lane_inv m ss ps k (snd x) L g g' OK So Po
           (ex_intro _ s (conj Hsec (eq_ind (fst x) (fun i => In (i, snd x) s)
              (eq_ind x (fun y => In y s) Hx _ (surjective_pairing x)) _
              (ok_keys m OK k s (fst x) (snd x) Hsec (eq_ind x (fun y => In y s) Hx _ (surjective_pairing x)))))) HI)
        L0 g0 g0' H0 E0) as I.
      eapply inv_ext; [|exact I]. intros u w. split.
      - intros [K|([i l] & Hin & K)]; [auto|]. right.
        assert (Hl : in_section l s).
        { unfold in_section. rewrite <- (ok_keys m OK k s i l Hsec Hin). exact Hin. }
        destruct K as [K|K]; [left|right]; exists l; auto.
      - intros [K|[(l & Hl & K)|(l & Hl & K)]]; [auto| |]; right; exists (l_id l, l); split; auto;
          [left|right]; auto. }
    pose proof (ofold_inv m _ (fun s a b => exists l, in_section l s /\ lane_links ss ps l a b)
                  (r_sections r) Step L g g' H E) as I.
    eapply inv_ext; [|exact I].
    assert (Conv : forall a b, (exists s, In s (r_sections r) /\ exists l, in_section l s /\ lane_links ss ps l a b) <->
                               road_links m r a b).
    { intros a b. unfold road_links, lane_links. split.
      - intros (s & Hs & l & Hl & [(-> & s' & E1 & K)|(-> & s' & E1 & K1 & K2 & K3 & K4)]); (split; [exact Ge|]); exists s; split; auto.
        + left. split; auto. exists s'. split; [now apply Sn|auto].
        + right. split; auto. exists s'. split; [now apply Pn|]. repeat split; auto.
          intros Z0 s'' N''. apply Sn in N''. rewrite (K4 Z0) in N''. discriminate.
      - intros (_ & s & Hs & [(Ha & s' & K0 & K)|(Hb & s' & K0 & K1 & K2 & K3 & K4)]); exists s; (split; [auto|]).
        + exists a. split; auto. left. split; auto. exists s'. split; [now apply Sn|auto].
        + exists b. split; auto. right. split; auto. exists s'. split; [now apply Pn|]. repeat split; auto.
          intros Z0. destruct ss as [s''|]; auto. exfalso. apply (K4 Z0 s''). now apply Sn. }
    intros u w. split.
    - intros [K|(s & Hs & [K|K])]; [auto| |]; right; [left|right]; apply Conv; eauto.
    - intros [K|[K|K]]; [auto| |]; right; apply Conv in K as (s & Hs & K); exists s; split; auto; [left|right]; auto.
  Qed.

  Definition connection_links m (c : connection) a b : Prop :=
    exists ri rc si sc pa pb,
      m_find (c_incoming c) (m_roads m) = Some ri /\ m_find (c_connecting c) (m_roads m) = Some rc /\
      first_section ri si /\ first_section rc sc /\ In (pa, pb) (c_links c) /\
      in_section a si /\ l_pos a = pa /\ in_section b sc /\ l_pos b = pb.

  Lemma gen_connection_inv m c L g g' :
    map_ok m -> inv m L g -> gen_connection m g c = Some g' ->
    inv m (fun u w => L u w \/ sym (connection_links m c) u w) g'.
  Proof.
    intros OK H E. unfold gen_connection in E.
    destruct (m_find (c_incoming c) (m_roads m)) as [ri|] eqn:Fi; [|discriminate].
    destruct (m_find (c_connecting c) (m_roads m)) as [rc|] eqn:Fc; [|discriminate].
    destruct (r_sections ri) as [|si resti] eqn:Si; [discriminate|].
    destruct (r_sections rc) as [|sc restc] eqn:Sc; [discriminate|].
    assert (Hsi : section_of m (c_incoming c) si).
    { exists ri. split; [now apply m_find_In|]. rewrite Si; now left. }
    assert (Hsc : section_of m (c_connecting c) sc).
    { exists rc. split; [now apply m_find_In|]. rewrite Sc; now left. }
    set (Rl := fun (lk : Z * Z) a b => in_section a si /\ l_pos a = fst lk /\ in_section b sc /\ l_pos b = snd lk).
    assert (Step : forall (lk : Z * Z) L g g', In lk (c_links c) -> inv m L g ->
      match lane_by_position si (fst lk), lane_by_position sc (snd lk) with
      | Some pl, Some sl => connect (l_id pl) (l_id sl) g
      | _, _ => Some g
      end = Some g' -> inv m (fun u w => L u w \/ sym (Rl lk) u w) g').
    { intros lk L0 g0 g0' _ H0 E0.
      destruct (lane_by_position si (fst lk)) as [pl|] eqn:F1.
      - destruct (lane_by_position sc (snd lk)) as [sl|] eqn:F2.
        + apply (lane_by_position_spec m _ si _ OK Hsi) in F1 as [H1 P1].
          apply (lane_by_position_spec m _ sc _ OK Hsc) in F2 as [H2 P2].
          destruct (connect_inv m L0 g0 pl sl _ _ OK H0 (ex_intro _ si (conj Hsi H1)) (ex_intro _ sc (conj Hsc H2)))
            as (g1 & C & I).
          rewrite C in E0; inversion E0; subst. eapply inv_ext; [|exact I]. intros u w. split.
          * intros [K|[[-> ->]|[-> ->]]]; [auto| |]; right; [left|right]; red; auto.
          * intros [K|[(K1 & K2 & K3 & K4)|(K1 & K2 & K3 & K4)]]; [auto| |]; right; [left|right]; split;
              first [apply (pos_inj m _ si _ _ OK Hsi); auto; congruence
                    |apply (pos_inj m _ sc _ _ OK Hsc); auto; congruence].
        + inversion E0; subst. eapply inv_ext; [|exact H0]. intros u w. split; auto.
          intros [K|[(K1 & K2 & K3 & K4)|(K1 & K2 & K3 & K4)]]; [auto| |];
            pose proof (proj2 (lane_by_position_spec m _ sc _ OK Hsc _) (conj K3 K4)); congruence.
      - inversion E0; subst. eapply inv_ext; [|exact H0]. intros u w. split; auto.
        intros [K|[(K1 & K2 & K3 & K4)|(K1 & K2 & K3 & K4)]]; [auto| |];
          pose proof (proj2 (lane_by_position_spec m _ si _ OK Hsi _) (conj K1 K2)); congruence. }
    pose proof (ofold_inv m _ Rl (c_links c) Step L g g' H E) as I. eapply inv_ext; [|exact I].
    assert (Conv : forall a b, (exists lk, In lk (c_links c) /\ Rl lk a b) <-> connection_links m c a b).
    { intros a b. unfold connection_links, Rl, first_section. split.
      - intros ([pa pb] & Hlk & K1 & K2 & K3 & K4). exists ri, rc, si, sc, pa, pb.
        repeat split; auto; eauto.
      - intros (ri' & rc' & si' & sc' & pa & pb & E1 & E2 & (x1 & E3) & (x2 & E4) & Hlk & K1 & K2 & K3 & K4).
        assert (ri' = ri) as -> by congruence. assert (rc' = rc) as -> by congruence.
        rewrite Si in E3; inversion E3; subst. rewrite Sc in E4; inversion E4; subst.
        exists (l_pos a, l_pos b). auto. }
    intros u w. split.
    - intros [K|(lk & Hlk & [K|K])]; [auto| |]; right; [left|right]; apply Conv; eauto.
    - intros [K|[K|K]]; [auto| |]; right; apply Conv in K as (lk & Hlk & K); exists lk; split; auto; [left|right]; auto.
  Qed.

  Lemma generate_inv m g : map_ok m -> generate m = Some g -> exists g0, inv m (sym (linked m)) g0 /\
    gen_polygons g0 = Some g.
  Proof.
    intros OK E. unfold generate in E.
    destruct (gen_links m (gen_neighbours m (gen_vertices m empty_graph))) as [g1|] eqn:E1; [|discriminate].
    destruct (gen_junctions m g1) as [g2|] eqn:E2; [|discriminate].
    exists g2. split; auto.
    pose proof (ofold_inv m _ (fun kr => road_links m (snd kr)) (m_roads m)
      (fun x L g g' Hx HI => gen_links_road_inv m (fst x) (snd x) L g g' OK
         (eq_ind x (fun y => In y (m_roads m)) Hx _ (surjective_pairing x)) HI)
      _ _ _ (inv_neighbours m OK) E1) as I1.
    pose proof (ofold_inv m (fun g kj => ofold (fun g kc => gen_connection m g (snd kc)) (snd kj) g)
      (fun kj a b => exists kc, In kc (snd kj) /\ connection_links m (snd kc) a b) (m_junctions m)) as Q.
    assert (I2 : inv m (fun u w => (False \/ (exists x, In x (m_roads m) /\ sym (road_links m (snd x)) u w)) \/
      exists x, In x (m_junctions m) /\
        sym (fun a b => exists kc, In kc (snd x) /\ connection_links m (snd kc) a b) u w) g2).
    { eapply Q; [|exact I1|exact E2]. clear Q. intros x L h h' Hx HI Eh.
      pose proof (ofold_inv m _ (fun kc => connection_links m (snd kc)) (snd x)
        (fun y L g g' Hy HI => gen_connection_inv m (snd y) L g g' OK HI) L h h' HI Eh) as I.
      eapply inv_ext; [|exact I]. intros u w. split.
      - intros [K|(kc & Hkc & [K|K])]; [auto| |]; right; [left|right]; eauto.
      - intros [K|[(kc & Hkc & K)|(kc & Hkc & K)]]; [auto| |]; right; exists kc; split; auto; [left|right]; auto. }
    clear Q. eapply inv_ext; [|exact I2].
    assert (C1 : forall a b, (exists x, In x (m_roads m) /\ road_links m (snd x) a b) <-> (road_link m a b \/ road_back_link m a b)).
    { intros a b. unfold road_link, road_back_link, road_links. split.
      - intros ([k r] & Hr & Rl & s & Hs & [(Ha & s' & K)|(Hb & s' & K)]); [left|right];
          exists k, r, s, s'; cbn in *; tauto.
      - intros [(k & r & s & s' & Hr & Rl & Hs & Ha & K)|(k & r & s & s' & Hr & Rl & Hs & Hb & K)];
          exists (k, r); cbn; (split; [auto|]); (split; [auto|]); exists s; (split; [auto|]); [left|right];
          (split; [auto|]); exists s'; tauto. }
    assert (C2 : forall a b, (exists x, In x (m_junctions m) /\ exists kc, In kc (snd x) /\ connection_links m (snd kc) a b) <-> junction_link m a b).
    { intros a b. unfold junction_link, connection_links. split.
      - intros ([j cs] & Hj & [k c] & Hc & ri & rc & si & sc & pa & pb & K). cbn in *.
        exists j, cs, k, c, ri, rc, si, sc, pa, pb. tauto.
      - intros (j & cs & k & c & ri & rc & si & sc & pa & pb & Hj & Hc & K).
        exists (j, cs). split; auto. exists (k, c). split; auto. exists ri, rc, si, sc, pa, pb. exact K. }
    intros u w. unfold sym, linked. rewrite <- !C2.
    rewrite <- !(or_assoc (road_link _ _ _)), <- !C1. split.
    - intros [[[]|(x & Hx & [K|K])]|(x & Hx & [K|K])].
      + left; left; eauto.
      + right; left; eauto.
      + left; right; eauto.
      + right; right; eauto.
    - intros [[(x & Hx & K)|(x & Hx & K)]|[(x & Hx & K)|(x & Hx & K)]].
      + left; right; eauto.
      + right. exists x; auto.
      + left; right; eauto.
      + right. exists x; auto.
  Qed.

  (* ---- polygons leave the structure alone ---- *)
  Lemma gen_polys_keys g vs vs' : gen_polys g vs = Some vs' ->
    map vkey vs' = map vkey vs /\ map v_id vs' = map v_id vs.
  Proof.
    revert vs'; induction vs as [|v r IH]; cbn; intros vs' E.
    - inversion E; auto.
    - destruct (gen_polys g r) as [r'|]; [|discriminate]. destruct (IH r' eq_refl) as (A & B).
      destruct (l_pos (v_lane v) =? 0)%Z; [inversion E; subst; cbn; rewrite A, B; auto|].
      destruct (lane_polygon g (l_id (v_lane v))) as [[p|]|]; inversion E; subst; cbn; rewrite A, B; auto.
  Qed.

  Lemma vid_ids g g' i : map v_id (g_v g') = map v_id (g_v g) -> vid g' i = vid g i.
  Proof.
    intros E. unfold vid.
    assert (A : option_map v_id (nth_error (g_v g') i) = option_map v_id (nth_error (g_v g) i)).
    { rewrite <- !nth_error_map, E. reflexivity. }
    destruct (nth_error (g_v g') i), (nth_error (g_v g) i); cbn in A; congruence.
  Qed.

  Lemma gen_polygons_inv m L g g' : inv m L g -> gen_polygons g = Some g' -> inv m L g'.
  Proof.
    intros ((B & I & O) & LS & RS) E. unfold gen_polygons in E.
    destruct (gen_polys g (g_v g)) as [vs|] eqn:F; [|discriminate]. cbn in E. inversion E; subst.
    destruct (gen_polys_keys g _ _ F) as (K1 & K2).
    assert (EE : edge_ids (mkGraph vs (g_e g)) = edge_ids g).
    { unfold edge_ids. cbn. apply map_ext. intros e.
      rewrite !(vid_ids g (mkGraph vs (g_e g))) by exact K2. reflexivity. }
    assert (BB : base m (mkGraph vs (g_e g))).
    { destruct B as (B1 & B2 & B3 & B4). split; [cbn; congruence|]. split; [|split]; cbn.
      - unfold ids_of. rewrite K2. exact B2.
      - intros v Hv. apply In_nth_error in Hv as (i & Hi).
        assert (A : option_map v_id (nth_error vs i) = option_map v_id (nth_error (g_v g) i)).
        { rewrite <- !nth_error_map, K2. reflexivity. }
        assert (A' : option_map vkey (nth_error vs i) = option_map vkey (nth_error (g_v g) i)).
        { rewrite <- !nth_error_map, K1. reflexivity. }
        rewrite Hi in A, A'. destruct (nth_error (g_v g) i) as [w|] eqn:W; [|discriminate].
        cbn in A, A'. unfold vkey in A'. inversion A; inversion A'.
        rewrite H0, H2. apply B3. eapply nth_error_In; eauto.
      - rewrite <- (map_length v_id vs), K2, map_length. exact B4. }
    split; [|split]; [split; [exact BB|split]| |]; try (intros x y; rewrite EE; auto).
  Qed.

  Lemma generate_full m g : map_ok m -> generate m = Some g -> inv m (sym (linked m)) g.
  Proof.
    intros OK E. destruct (generate_inv m g OK E) as (g0 & I & G). eapply gen_polygons_inv; eauto.
  Qed.

  (* ---- totality ---- *)
  Definition refs_ok m : Prop :=
    (forall k r, In (k, r) (m_roads m) -> r_sections r <> []) /\
    (forall j cs k c, In (j, cs) (m_junctions m) -> In (k, c) cs ->
       m_find (c_incoming c) (m_roads m) <> None /\ m_find (c_connecting c) (m_roads m) <> None) /\
    (forall r l, lane_of m r l -> l_line l <> []).

  Lemma connect_nb m g a b ra rb : map_ok m -> nb m g -> lane_of m ra a -> lane_of m rb b ->
    exists g', connect (l_id a) (l_id b) g = Some g' /\ nb m g'.
  Proof.
    intros OK NB Ha Hb. unfold connect.
    set (g1 := fst (add_lane_succ g (l_id a) (l_id b))).
    set (g2 := fst (add_lane_succ g1 (l_id b) (l_id a))).
    assert (NB1 : nb m g1) by (apply nb_add_edge; auto; discriminate).
    assert (NB2 : nb m g2) by (apply nb_add_edge; auto; discriminate).
    destruct Ha as (sa & Hsa & Ha). destruct Hb as (sb & Hsb & Hb).
    destruct (plan_view_total m g2 ra sa a OK NB2 Hsa Ha) as (pa & Ea & _).
    destruct (plan_view_total m g2 rb sb b OK NB2 Hsb Hb) as (pb & Eb & _).
    rewrite Ea, Eb. eexists. split; [reflexivity|].
    apply nb_add_edge; [apply nb_add_edge; auto|..]; discriminate.
  Qed.

  Lemma gen_links_lane_total m ss ps r l g :
    map_ok m -> opt_section m ss -> opt_section m ps -> lane_of m r l -> nb m g ->
    exists g', gen_links_lane ss ps g l = Some g' /\ nb m g'.
  Proof.
    intros OK Hss Hps Hl NB. unfold gen_links_lane.
    assert (Pred : forall g, nb m g -> exists g', gen_pred_lane ps l g = Some g' /\ nb m g').
    { intros h Hh. unfold gen_pred_lane. destruct ps as [s|]; [|eauto]. destruct Hps as (rp & Hsp).
      destruct (l_from l =? 0)%Z; [eauto|].
      destruct (lane_by_position s (l_from l)) as [pl|] eqn:F; [|eauto].
      apply (lane_by_position_spec m rp s _ OK Hsp) in F as [Hpl _].
      eapply connect_nb; eauto. exists s; eauto. }
    destruct ss as [s|]; [|auto]. destruct Hss as (rs & Hs).
    destruct (l_to l =? 0)%Z; [eauto|].
    destruct (lane_by_position s (l_to l)) as [sl|] eqn:F; [|auto].
    apply (lane_by_position_spec m rs s _ OK Hs) in F as [Hsl _].
    destruct (connect_nb m g l sl r rs OK NB Hl) as (g1 & C & N1); [exists s; auto|].
    rewrite C. auto.
  Qed.

  Lemma generate_total m : map_ok m -> refs_ok m -> exists g, generate m = Some g.
  Proof.
    intros OK (R1 & R2 & R3). unfold generate.
    destruct (ofold_total m (fun g kr => gen_links_road m g (snd kr)) (m_roads m)) with (g := generate_neighbours_only m)
      as (g1 & E1 & N1).
    - intros [k r] g Hr NB. cbn [snd]. unfold gen_links_road.
      destruct (1000 <? fst (r_succ r))%N; [eauto|].
      assert (S1 : exists ss, succ_section m r = Some ss).
      { unfold succ_section. destruct (snd (r_succ r)); [|eauto].
        destruct (m_find (fst (r_succ r)) (m_roads m)) as [r'|] eqn:F; [|eauto].
        apply m_find_In in F. pose proof (R1 _ _ F). destruct (r_sections r'); [contradiction|eauto]. }
      assert (S2 : exists ps, pred_section m r = Some ps).
      { unfold pred_section. destruct (snd (r_pred r)); [|eauto].
        destruct (m_find (fst (r_pred r)) (m_roads m)) as [r'|] eqn:F; [|eauto].
        apply m_find_In in F. pose proof (R1 _ _ F) as Hne.
        destruct (rev (r_sections r')) eqn:V; [|eauto]. exfalso. apply Hne.
        rewrite <- (rev_involutive (r_sections r')), V. reflexivity. }
      destruct S1 as (ss & S1), S2 as (ps & S2). rewrite S1, S2.
      destruct (succ_section_spec m r ss S1) as (_ & So).
      destruct (pred_section_spec m r ps S2) as (_ & Po).
      apply (ofold_total m (fun g s => ofold (fun g kl => gen_links_lane ss ps g (snd kl)) s g)); auto.
      intros s h Hs Nh. apply (ofold_total m (fun g kl => gen_links_lane ss ps g (snd kl))); auto.
      intros [i l] h' Hi Nh'. cbn [snd]. apply (gen_links_lane_total m ss ps k l h' OK So Po); auto.
      assert (Hsec : section_of m k s) by (exists r; auto).
      exists s. split; auto. unfold in_section. rewrite <- (ok_keys m OK k s i l Hsec Hi). exact Hi.
    - now apply nb_neighbours.
    - unfold gen_links. unfold generate_neighbours_only in E1. rewrite E1.
      destruct (ofold_total m (fun g kj => ofold (fun g kc => gen_connection m g (snd kc)) (snd kj) g) (m_junctions m))
        with (g := g1) as (g2 & E2 & N2); auto.
      + intros [j cs] g Hj NB. cbn [snd].
        apply (ofold_total m (fun g kc => gen_connection m g (snd kc))); auto.
        intros [k c] h Hc Nh. cbn [snd]. unfold gen_connection.
        destruct (R2 _ _ _ _ Hj Hc) as (Q1 & Q2).
        destruct (m_find (c_incoming c) (m_roads m)) as [ri|] eqn:Fi; [|contradiction].
        destruct (m_find (c_connecting c) (m_roads m)) as [rc|] eqn:Fc; [|contradiction].
        apply m_find_In in Fi, Fc. pose proof (R1 _ _ Fi) as Ni. pose proof (R1 _ _ Fc) as Nc.
        destruct (r_sections ri) as [|si xi] eqn:Si; [contradiction|].
        destruct (r_sections rc) as [|sc xc] eqn:Sc; [contradiction|].
        assert (Hsi : section_of m (c_incoming c) si) by (exists ri; split; auto; rewrite Si; now left).
        assert (Hsc : section_of m (c_connecting c) sc) by (exists rc; split; auto; rewrite Sc; now left).
        apply (ofold_total m (fun g lk => match lane_by_position si (fst lk), lane_by_position sc (snd lk) with
              | Some pl, Some sl => connect (l_id pl) (l_id sl) g
              | _, _ => Some g
              end)); auto.
        intros lk h' _ Nh'.
        destruct (lane_by_position si (fst lk)) as [pl|] eqn:F1; [|eauto].
        destruct (lane_by_position sc (snd lk)) as [sl|] eqn:F2; [|eauto].
        apply (lane_by_position_spec m _ si _ OK Hsi) in F1 as [H1 _].
        apply (lane_by_position_spec m _ sc _ OK Hsc) in F2 as [H2 _].
        eapply connect_nb; eauto; [exists si|exists sc]; eauto.
      + unfold gen_junctions. rewrite E2.
        assert (Pol : forall vs, (forall v, In v vs -> In v (g_v g2)) -> exists vs', gen_polys g2 vs = Some vs').
        { induction vs as [|v r IH]; intros Hv; cbn; [eauto|].
          destruct IH as (r' & ->); [intros w Hw; apply Hv; now right|].
          destruct (l_pos (v_lane v) =? 0)%Z eqn:Z0; [eauto|].
          destruct (base_lane m g2 v OK (proj1 N2) (Hv v (or_introl eq_refl))) as ((s & Hs & Hl) & _).
          set (l := v_lane v) in *.
          unfold lane_polygon, lane_boundaries.
          rewrite (base_lane_ptr m g2 (v_road v) l OK (proj1 N2)) by (exists s; auto).
          destruct (inner_spec m g2 (v_road v) s l OK N2 Hs Hl) as (I1 & I2).
          apply Z.eqb_neq in Z0.
          destruct (lane_by_position s (inward (l_pos l))) as [b|] eqn:F.
          - apply (lane_by_position_spec m _ s _ OK Hs) in F as [Hb Eb].
            rewrite (I1 b Hb Z0 Eb). rewrite (base_lane_ptr m g2 (v_road v) b OK (proj1 N2)) by (exists s; auto).
            pose proof (R3 (v_road v) b (ex_intro _ s (conj Hs Hb))) as Hline.
            destruct (l_line b); [contradiction|eauto].
          - rewrite I2; [eauto|]. right. intros b Hb Eb.
            pose proof (proj2 (lane_by_position_spec m _ s _ OK Hs b) (conj Hb Eb)). congruence. }
        destruct (Pol (g_v g2) (fun _ H => H)) as (vs' & Ev). unfold gen_polygons. rewrite Ev. cbn. eauto.
  Qed.
End Links.
