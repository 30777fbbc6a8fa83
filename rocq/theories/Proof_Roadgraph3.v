(* Left/right neighbours, chains of neighbours, lane polygons: consequences of the graph invariant. *)
From Coq Require Import List NArith ZArith Bool Arith Lia.
From Verif Require Import Model_Map Model_Roadgraph Spec_Roadgraph Proof_Map Proof_Roadgraph Proof_Roadgraph2.
Import ListNotations.

Section Sides.
  Context {P : Type}.
  Implicit Types (m : xmap P) (g : graph P) (s : section P) (l a b : xlane P).

  (* the lane towards the reference line, crossing it when the neighbour is the reference line *)
  Definition toward g (id : N) : option (N * bool) :=
    match inner_neighbor g id with
    | None => None
    | Some (_, false) => Some (0%N, false)
    | Some (i, true) =>
        match lane_ptr g i with
        | None => None
        | Some il =>
            if negb (l_pos il =? 0)%Z then Some (i, true)
            else option_map (fun ns => across_plan_view ns id) (outer_neighbors_plan_view g i)
        end
    end.
  Definition toward_pos (p : Z) : Z := if (inward p =? 0)%Z then (- p)%Z else inward p.

  Lemma toward_spec m g r s l : map_ok m -> nb m g -> section_of m r s -> in_section l s ->
    l_pos l <> 0%Z -> has_plan_view s ->
    (forall b, in_section b s -> l_pos b = toward_pos (l_pos l) -> toward g (l_id l) = Some (l_id b, true)) /\
    ((forall b, in_section b s -> l_pos b <> toward_pos (l_pos l)) -> toward g (l_id l) = Some (0%N, false)).
  Proof.
    intros OK NB Hs Hl Hz (pv & Hpv & Epv). unfold toward, toward_pos.
    destruct (inner_spec m g r s l OK NB Hs Hl) as (I1 & I2).
    destruct (Z.eqb_spec (inward (l_pos l)) 0) as [E|E].
    - assert (E1 : (l_pos l = 1 \/ l_pos l = -1)%Z)
        by (unfold inward in E; destruct (Z.ltb_spec 0 (l_pos l)); lia).
      rewrite (I1 pv Hpv Hz) by congruence.
      rewrite (base_lane_ptr m g r pv OK (proj1 NB)) by (exists s; auto). rewrite Epv. cbn.
      destruct (across_spec m g r s l pv OK NB Hs Hl Hpv Epv E1) as (ns & -> & A & B). cbn.
      split; [intros b Hb Eb; now rewrite (A b Hb Eb)|intros H; now rewrite (B H)].
    - split.
      + intros b Hb Eb. rewrite (I1 b Hb Hz Eb).
        rewrite (base_lane_ptr m g r b OK (proj1 NB)) by (exists s; auto).
        destruct (Z.eqb_spec (l_pos b) 0); [congruence|reflexivity].
      + intros H. rewrite I2 by (right; exact H). reflexivity.
  Qed.

  Lemma left_lane_toward g id d l : lane_ptr g id = Some l ->
    left_lane g id d = if dir_eqb d (l_dir l) then toward g id else outer_neighbor g id.
  Proof. intros E. unfold left_lane, toward. now rewrite E. Qed.
  Lemma right_lane_toward g id d l : lane_ptr g id = Some l ->
    right_lane g id d = if dir_eqb d (l_dir l) then outer_neighbor g id else toward g id.
  Proof. intros E. unfold right_lane, toward. now rewrite E. Qed.

  Definition at_pos s (p : Z) (res : option (N * bool)) : Prop :=
    (forall b, in_section b s -> l_pos b = p -> res = Some (l_id b, true)) /\
    ((forall b, in_section b s -> l_pos b <> p) -> res = Some (0%N, false)).

  Lemma at_pos_ext s p q res : p = q -> at_pos s p res -> at_pos s q res.
  Proof. now intros ->. Qed.

  Lemma sides m g r s l d : map_ok m -> nb m g -> section_of m r s -> in_section l s ->
    l_pos l <> 0%Z -> has_plan_view s -> right_hand l -> d <> BOTH ->
    at_pos s (left_pos d (l_pos l)) (left_lane g (l_id l) d) /\
    at_pos s (right_pos d (l_pos l)) (right_lane g (l_id l) d).
  Proof.
    intros OK NB Hs Hl Hz HP (RN & RP) Hd.
    pose proof (base_lane_ptr m g r l OK (proj1 NB) (ex_intro _ s (conj Hs Hl))) as HL.
    rewrite (left_lane_toward g _ d l HL), (right_lane_toward g _ d l HL).
    pose proof (toward_spec m g r s l OK NB Hs Hl Hz HP) as T.
    pose proof (outer_spec m g r s l OK NB Hs Hl Hz) as O.
    assert (Case : (0 < l_pos l \/ l_pos l < 0)%Z) by lia.
    destruct Case as [Hp|Hn].
    - rewrite (RP Hp). destruct d; cbn [dir_eqb]; [| |contradiction]; split.
      + eapply at_pos_ext; [|exact O]. cbn. unfold outward, up. destruct (Z.ltb_spec 0 (l_pos l)); [|lia].
        destruct (Z.eqb_spec (l_pos l) (-1)); lia.
      + eapply at_pos_ext; [|exact T]. cbn. unfold toward_pos, inward, down. destruct (Z.ltb_spec 0 (l_pos l)); [|lia].
        destruct (Z.eqb_spec (l_pos l - 1) 0), (Z.eqb_spec (l_pos l) 1); lia.
      + eapply at_pos_ext; [|exact T]. cbn. unfold toward_pos, inward, down. destruct (Z.ltb_spec 0 (l_pos l)); [|lia].
        destruct (Z.eqb_spec (l_pos l - 1) 0), (Z.eqb_spec (l_pos l) 1); lia.
      + eapply at_pos_ext; [|exact O]. cbn. unfold outward, up. destruct (Z.ltb_spec 0 (l_pos l)); [|lia].
        destruct (Z.eqb_spec (l_pos l) (-1)); lia.
    - rewrite (RN Hn). destruct d; cbn [dir_eqb]; [| |contradiction]; split.
      + eapply at_pos_ext; [|exact T]. cbn. unfold toward_pos, inward, up. destruct (Z.ltb_spec 0 (l_pos l)); [lia|].
        destruct (Z.eqb_spec (l_pos l + 1) 0), (Z.eqb_spec (l_pos l) (-1)); lia.
      + eapply at_pos_ext; [|exact O]. cbn. unfold outward, down. destruct (Z.ltb_spec 0 (l_pos l)); [lia|].
        destruct (Z.eqb_spec (l_pos l) 1); lia.
      + eapply at_pos_ext; [|exact O]. cbn. unfold outward, down. destruct (Z.ltb_spec 0 (l_pos l)); [lia|].
        destruct (Z.eqb_spec (l_pos l) 1); lia.
      + eapply at_pos_ext; [|exact T]. cbn. unfold toward_pos, inward, up. destruct (Z.ltb_spec 0 (l_pos l)); [lia|].
        destruct (Z.eqb_spec (l_pos l + 1) 0), (Z.eqb_spec (l_pos l) (-1)); lia.
  Qed.

  Lemma left_right_pos d p : p <> 0%Z ->
    right_pos d (left_pos d p) = p /\ left_pos d (right_pos d p) = p /\ left_pos d p <> 0%Z /\ right_pos d p <> 0%Z.
  Proof.
    intros Hp.
    assert (A : down (up p) = p) by (unfold down, up; destruct (Z.eqb_spec p (-1)); [subst; reflexivity|destruct (Z.eqb_spec (p+1) 1); lia]).
    assert (B : up (down p) = p) by (unfold down, up; destruct (Z.eqb_spec p 1); [subst; reflexivity|destruct (Z.eqb_spec (p-1) (-1)); lia]).
    assert (C : up p <> 0%Z) by (unfold up; destruct (Z.eqb_spec p (-1)); lia).
    assert (D : down p <> 0%Z) by (unfold down; destruct (Z.eqb_spec p 1); lia).
    destruct d; cbn; auto.
  Qed.

  (* ---- all neighbours on one side of the reference line ---- *)
  Definition same_side l b : Prop := (0 < l_pos l * l_pos b)%Z.

  Lemma inward_pos_cases p : p <> 0%Z -> (inward p = 0 /\ Z.abs p = 1)%Z \/ (inward p <> 0 /\ 0 < p * inward p)%Z.
  Proof.
    intros Hp. unfold inward. destruct (Z.ltb_spec 0 p); [destruct (Z.eq_dec p 1)|destruct (Z.eq_dec p (-1))]; [left|right|left|right]; nia.
  Qed.

  Lemma same_side_trans a b c : same_side a b -> same_side b c -> same_side a c.
  Proof. unfold same_side. nia. Qed.
  Lemma same_side_sym a b : same_side a b -> same_side b a.
  Proof. unfold same_side. nia. Qed.
  Lemma same_side_abs a b : same_side a b -> Z.abs (l_pos a) = Z.abs (l_pos b) -> l_pos a = l_pos b.
  Proof. unfold same_side. nia. Qed.

  Lemma inner_chain_spec m g r s : map_ok m -> nb m g -> section_of m r s -> contiguous s ->
    forall fuel a, in_section a s -> l_pos a <> 0%Z -> cnt g (Z.abs (l_pos a)) <= fuel ->
    exists nxt ids, inner_neighbor g (l_id a) = Some nxt /\ inner_chain fuel g (l_id a, true) nxt = Some ids /\ NoDup ids /\
      forall x, In x ids <-> exists b, in_section b s /\ x = l_id b /\ same_side a b /\ (Z.abs (l_pos b) <= Z.abs (l_pos a))%Z.
  Proof.
    intros OK NB Hs HC. induction fuel as [|n IH]; intros a Ha Hz Hf.
    - exfalso. destruct (base_vertex m g r a OK (proj1 NB) (ex_intro _ s (conj Hs Ha))) as (v & Hv & _ & E & _).
      assert (In v (filter (within_pos (Z.abs (l_pos a))) (g_v g))).
      { apply filter_In. split; auto. unfold within_pos. rewrite E. apply Z.leb_le. lia. }
      unfold cnt in Hf. destruct (filter _ (g_v g)); [contradiction|cbn in Hf; lia].
    - destruct (HC a Ha Hz) as (i & Hi & Ei).
      destruct (inner_spec m g r s a OK NB Hs Ha) as (I1 & _). rewrite (I1 i Hi Hz Ei).
      exists (l_id i, true). cbn [inner_chain snd fst].
      assert (Dec : cnt g (Z.abs (l_pos i)) < cnt g (Z.abs (l_pos a))).
      { destruct (base_vertex m g r a OK (proj1 NB) (ex_intro _ s (conj Hs Ha))) as (v & Hv & _ & E & _).
        unfold cnt. apply (filter_length_lt _ _ _ v); auto; unfold within_pos.
        - intros y. rewrite !Z.leb_le, Ei, inward_abs by auto. lia.
        - rewrite E, Ei, inward_abs by auto. apply Z.leb_gt. lia.
        - rewrite E. apply Z.leb_le. lia. }
      destruct (inward_pos_cases (l_pos a) Hz) as [(E0 & E1)|(E0 & E1)].
      + destruct (inner_spec m g r s i OK NB Hs Hi) as (_ & I2). rewrite I2 by (left; congruence).
        exists [l_id a]. destruct n; cbn.
        all: split; [reflexivity|split; [reflexivity|split; [constructor; [intros []|constructor]|]]].
        all: intros x; split; [intros [<-|[]]; exists a; repeat split; auto; [unfold same_side; nia|lia]|].
        all: intros (b & Hb & -> & Sb & Lb); left; f_equal; eapply pos_inj; eauto;
             apply same_side_abs; auto; unfold same_side in Sb; nia.
      + assert (Hzi : l_pos i <> 0%Z) by congruence.
        destruct (IH i Hi Hzi) as (nxt & ids & En & Ec & ND & Sp); [lia|].
        rewrite En, Ec. exists (l_id a :: ids). cbn [option_map]. split; [auto|]. split; [auto|].
        assert (SS : same_side a i) by (unfold same_side; rewrite Ei; exact E1).
        split.
        * constructor; auto. intros H. apply Sp in H as (b & Hb & E & _ & Lb).
          assert (b = a) as ->.
          { assert (A : r = r /\ a = b) by (apply (lane_id_inj m r r a b OK); auto; exists s; auto). intuition. }
          rewrite Ei, inward_abs in Lb by auto. lia.
        * intros x. cbn. rewrite Sp. split.
          -- intros [<-|(b & Hb & -> & Sb & Lb)].
             ++ exists a. repeat split; auto; [unfold same_side; nia|lia].
             ++ exists b. repeat split; auto; [eapply same_side_trans; eauto|].
                rewrite Ei, inward_abs in Lb by auto. lia.
          -- intros (b & Hb & -> & Sb & Lb). destruct (Z.eq_dec (Z.abs (l_pos b)) (Z.abs (l_pos a))) as [E|E].
             ++ left. f_equal. eapply pos_inj; eauto. apply same_side_abs; auto.
             ++ right. exists b. repeat split; auto.
                ** eapply same_side_trans; [apply same_side_sym|]; eauto.
                ** rewrite Ei, inward_abs by auto. lia.
  Qed.

  (* under contiguity every position between a lane and the reference line is taken *)
  Lemma contiguous_between s : contiguous s -> forall n b, in_section b s -> l_pos b <> 0%Z ->
    Z.abs_nat (l_pos b) = n -> forall k, (0 < k <= Z.abs (l_pos b))%Z ->
    exists a, in_section a s /\ same_side b a /\ Z.abs (l_pos a) = k.
  Proof.
    intros HC. induction n as [|n IH]; intros b Hb Hz En k Hk; [lia|].
    destruct (Z.eq_dec k (Z.abs (l_pos b))) as [->|Ne].
    - exists b. repeat split; auto. unfold same_side. nia.
    - destruct (HC b Hb Hz) as (i & Hi & Ei).
      destruct (inward_pos_cases (l_pos b) Hz) as [(E0 & E1)|(E0 & E1)]; [lia|].
      pose proof (inward_abs _ Hz) as A. rewrite <- Ei in A.
      destruct (IH i Hi ltac:(congruence) ltac:(lia) k ltac:(lia)) as (a & Ha & Sa & Ka).
      exists a. repeat split; auto. eapply same_side_trans; [|eauto]. unfold same_side. now rewrite Ei.
  Qed.

  Definition beyond (n : Z) (v : vertex P) : bool := (n <=? Z.abs (l_pos (v_lane v)))%Z.
  Definition cnt_out g (n : Z) : nat := length (filter (beyond n) (g_v g)).

  Lemma outward_abs p : p <> 0%Z -> Z.abs (outward p) = (Z.abs p + 1)%Z /\ (0 < p * outward p)%Z.
  Proof. intros H. unfold outward. destruct (Z.ltb_spec 0 p); nia. Qed.

  Lemma outer_chain_spec m g r s : map_ok m -> nb m g -> section_of m r s -> contiguous s ->
    forall fuel a, in_section a s -> l_pos a <> 0%Z -> cnt_out g (Z.abs (l_pos a)) <= fuel ->
    exists ids, outer_chain fuel g (l_id a, true) = Some ids /\ NoDup ids /\
      forall x, In x ids <-> exists b, in_section b s /\ x = l_id b /\ same_side a b /\ (Z.abs (l_pos a) <= Z.abs (l_pos b))%Z.
  Proof.
    intros OK NB Hs HC. induction fuel as [|n IH]; intros a Ha Hz Hf.
    - exfalso. destruct (base_vertex m g r a OK (proj1 NB) (ex_intro _ s (conj Hs Ha))) as (v & Hv & _ & E & _).
      assert (In v (filter (beyond (Z.abs (l_pos a))) (g_v g))).
      { apply filter_In. split; auto. unfold beyond. rewrite E. apply Z.leb_le. lia. }
      unfold cnt_out in Hf. destruct (filter _ (g_v g)); [contradiction|cbn in Hf; lia].
    - cbn [outer_chain snd fst]. destruct (outer_spec m g r s a OK NB Hs Ha Hz) as (O1 & O2).
      destruct (lane_by_position s (outward (l_pos a))) as [o|] eqn:Lby.
      + apply (lane_by_position_spec m r s _ OK Hs) in Lby as (Ho & Eo). rewrite (O1 o Ho Eo).
        destruct (outward_abs (l_pos a) Hz) as (A1 & A2). rewrite <- Eo in A1, A2.
        assert (Hzo : l_pos o <> 0%Z) by lia.
        assert (Dec : cnt_out g (Z.abs (l_pos o)) < cnt_out g (Z.abs (l_pos a))).
        { destruct (base_vertex m g r a OK (proj1 NB) (ex_intro _ s (conj Hs Ha))) as (v & Hv & _ & E & _).
          unfold cnt_out. apply (filter_length_lt _ _ _ v); auto; unfold beyond.
          - intros y. rewrite !Z.leb_le. lia.
          - rewrite E. apply Z.leb_gt. lia.
          - rewrite E. apply Z.leb_le. lia. }
        destruct (IH o Ho Hzo) as (ids & Ec & ND & Sp); [lia|]. rewrite Ec. cbn [option_map].
        exists (l_id a :: ids). split; [auto|]. split.
        * constructor; auto. intros H. apply Sp in H as (b & Hb & E & _ & Lb).
          assert (b = a) as ->.
          { assert (A : r = r /\ a = b) by (apply (lane_id_inj m r r a b OK); auto; exists s; auto). intuition. }
          lia.
        * intros x. cbn. rewrite Sp. split.
          -- intros [<-|(b & Hb & -> & Sb & Lb)].
             ++ exists a. repeat split; auto; [unfold same_side; nia|lia].
             ++ exists b. repeat split; auto; [eapply same_side_trans; eauto|lia].
          -- intros (b & Hb & -> & Sb & Lb). destruct (Z.eq_dec (Z.abs (l_pos b)) (Z.abs (l_pos a))) as [E|E].
             ++ left. f_equal. eapply pos_inj; eauto. apply same_side_abs; auto.
             ++ right. exists b. repeat split; auto.
                ** eapply same_side_trans; [apply same_side_sym|]; eauto. 
                ** lia.
      + assert (No : forall b, in_section b s -> l_pos b <> outward (l_pos a)).
        { intros b Hb E. assert (K := proj2 (lane_by_position_spec m r s _ OK Hs b) (conj Hb E)). congruence. }
        rewrite (O2 No). exists [l_id a]. destruct (outward_abs (l_pos a) Hz) as (A1 & A2). destruct n; cbn.
        all: split; [reflexivity|split; [constructor; [intros []|constructor]|]].
        all: intros x; split; [intros [<-|[]]; exists a; repeat split; auto; [unfold same_side; nia|lia]|].
        all: intros (b & Hb & -> & Sb & Lb); left; f_equal.
        all: destruct (Z.eq_dec (Z.abs (l_pos b)) (Z.abs (l_pos a))) as [E|E];
             [eapply pos_inj; eauto; now apply same_side_abs|exfalso].
        all: assert (Hzb : l_pos b <> 0%Z) by (unfold same_side in Sb; nia).
        all: destruct (contiguous_between s HC _ b Hb Hzb eq_refl (Z.abs (l_pos a) + 1)) as (c & Hc & Sc & Kc); [lia|].
        all: apply (No c Hc).
        all: assert (Sac : same_side a c) by (eapply same_side_trans; eauto).
        all: unfold same_side in Sac; nia.
  Qed.

  Lemma filter_len {A : Type} (f : A -> bool) xs : length (filter f xs) <= length xs.
  Proof. induction xs as [|x r IH]; cbn; auto. destruct (f x); cbn; lia. Qed.

  Lemma nodup_app {A : Type} (u w : list A) : NoDup u -> NoDup w -> (forall x, In x u -> ~ In x w) -> NoDup (u ++ w).
  Proof.
    induction u as [|y u IH]; cbn; intros Nu Nw D; auto. inversion Nu; subst. constructor.
    - rewrite in_app_iff. intros [H|H]; [contradiction|exact (D y (or_introl eq_refl) H)].
    - apply IH; auto.
  Qed.

  Lemma all_neighbors_spec m g r s l : map_ok m -> nb m g -> section_of m r s -> contiguous s ->
    in_section l s -> l_pos l <> 0%Z ->
    exists ids, all_neighbors g (l_id l) = Some ids /\ NoDup ids /\
      forall x, In x ids <-> exists b, in_section b s /\ x = l_id b /\ same_side l b /\ b <> l.
  Proof.
    intros OK NB Hs HC Hl Hz. unfold all_neighbors.
    rewrite (base_lane_ptr m g r l OK (proj1 NB) (ex_intro _ s (conj Hs Hl))).
    destruct (Z.eqb_spec (l_pos l) 0); [contradiction|].
    destruct (HC l Hl Hz) as (i & Hi & Ei).
    destruct (inner_spec m g r s l OK NB Hs Hl) as (I1 & _). rewrite (I1 i Hi Hz Ei). cbn [snd fst].
    assert (In_ids : exists nxt ids, inner_neighbor g (l_id i) = Some nxt /\
      inner_chain (S (length (g_v g))) g (l_id i, true) nxt = Some ids /\ NoDup ids /\
      forall x, In x ids <-> exists b, in_section b s /\ x = l_id b /\ same_side l b /\ (Z.abs (l_pos b) < Z.abs (l_pos l))%Z).
    { destruct (inward_pos_cases (l_pos l) Hz) as [(E0 & E1)|(E0 & E1)].
      - destruct (inner_spec m g r s i OK NB Hs Hi) as (_ & I2). rewrite I2 by (left; congruence).
        exists (0%N, false), []. cbn. repeat split; auto; [constructor|tauto|].
        intros (b & Hb & _ & Sb & Lb). exfalso. unfold same_side in Sb. nia.
      - destruct (inner_chain_spec m g r s OK NB Hs HC (S (length (g_v g))) i Hi ltac:(congruence))
          as (nxt & ids & En & Ec & ND & Sp).
        { unfold cnt. pose proof (filter_len (within_pos (Z.abs (l_pos i))) (g_v g)). lia. }
        exists nxt, ids. split; auto. split; auto. split; auto. intros x. rewrite Sp.
        pose proof (inward_abs _ Hz) as A. rewrite <- Ei in A.
        assert (SS : same_side l i) by (unfold same_side; now rewrite Ei).
        split; intros (b & Hb & -> & Sb & Lb); exists b; repeat split; auto; try lia.
        + eapply same_side_trans; eauto.
        + eapply same_side_trans; [apply same_side_sym|]; eauto. }
    destruct In_ids as (nxt & ids & -> & -> & NDi & Spi).
    assert (Out_ids : exists o ids', outer_neighbor g (l_id l) = Some o /\
      outer_chain (S (length (g_v g))) g o = Some ids' /\ NoDup ids' /\
      forall x, In x ids' <-> exists b, in_section b s /\ x = l_id b /\ same_side l b /\ (Z.abs (l_pos l) < Z.abs (l_pos b))%Z).
    { destruct (outer_spec m g r s l OK NB Hs Hl Hz) as (O1 & O2).
      destruct (outward_abs (l_pos l) Hz) as (A1 & A2).
      destruct (lane_by_position s (outward (l_pos l))) as [o|] eqn:Lby.
      - apply (lane_by_position_spec m r s _ OK Hs) in Lby as (Ho & Eo). rewrite (O1 o Ho Eo).
        rewrite <- Eo in A1, A2.
        destruct (outer_chain_spec m g r s OK NB Hs HC (S (length (g_v g))) o Ho ltac:(lia)) as (ids' & Ec & ND & Sp).
        { unfold cnt_out. pose proof (filter_len (beyond (Z.abs (l_pos o))) (g_v g)). lia. }
        exists (l_id o, true), ids'. split; auto. split; auto. split; auto. intros x. rewrite Sp.
        split; intros (b & Hb & -> & Sb & Lb); exists b; repeat split; auto; try lia.
        + eapply same_side_trans; eauto.
        + eapply same_side_trans; [apply same_side_sym|]; eauto.
      - assert (No : forall b, in_section b s -> l_pos b <> outward (l_pos l)).
        { intros b Hb E. assert (K := proj2 (lane_by_position_spec m r s _ OK Hs b) (conj Hb E)). congruence. }
        rewrite (O2 No). exists (0%N, false), []. cbn. repeat split; auto; [constructor|tauto|].
        intros (b & Hb & -> & Sb & Lb).
        assert (Hzb : l_pos b <> 0%Z) by (unfold same_side in Sb; nia).
        destruct (contiguous_between s HC _ b Hb Hzb eq_refl (Z.abs (l_pos l) + 1)) as (c & Hc & Sc & Kc); [lia|].
        apply (No c Hc). assert (Sac : same_side l c) by (eapply same_side_trans; eauto).
        unfold same_side in Sac; nia. }
    destruct Out_ids as (o & ids' & -> & -> & NDo & Spo). cbn [option_map].
    exists (ids ++ ids'). split; auto. split.
    - apply nodup_app; auto. intros x Hx Hx'.
      apply Spi in Hx as (b & Hb & -> & _ & Lb). apply Spo in Hx' as (c & Hc & E & _ & Lc).
      assert (A : r = r /\ b = c) by (apply (lane_id_inj m r r b c OK); auto; exists s; auto).
      destruct A as (_ & ->). lia.
    - intros x. rewrite in_app_iff, Spi, Spo. split.
      + intros [(b & Hb & -> & Sb & Lb)|(b & Hb & -> & Sb & Lb)]; exists b; repeat split; auto; intros ->; lia.
      + intros (b & Hb & -> & Sb & Nb). destruct (Z.lt_total (Z.abs (l_pos b)) (Z.abs (l_pos l))) as [L|[L|L]].
        * left. exists b; auto.
        * exfalso. apply Nb. eapply pos_inj; eauto. symmetry. apply same_side_abs; auto.
        * right. exists b; auto.
  Qed.

  (* ---- polygons stored in the graph ---- *)
  Lemma gen_polys_In g vs vs' v : gen_polys g vs = Some vs' -> In v vs' ->
    exists v0, In v0 vs /\ v_road v = v_road v0 /\ v_id v = v_id v0 /\ v_lane v = v_lane v0 /\
      (l_pos (v_lane v) = 0%Z -> v_poly v = v_poly v0) /\
      (l_pos (v_lane v) <> 0%Z -> exists q, lane_polygon g (l_id (v_lane v)) = Some q /\
         v_poly v = match q with Some p => Some p | None => v_poly v0 end).
  Proof.
    revert vs'; induction vs as [|u r IH]; cbn; intros vs' E Hv.
    - inversion E; subst. destruct Hv.
    - destruct (gen_polys g r) as [r'|]; [|discriminate].
      destruct (Z.eqb_spec (l_pos (v_lane u)) 0) as [Z0|Z0].
      + inversion E; subst. destruct Hv as [<-|Hv].
        * exists u. repeat split; auto. intros; contradiction.
        * destruct (IH r' eq_refl Hv) as (v0 & H & K). exists v0. split; auto.
      + destruct (lane_polygon g (l_id (v_lane u))) as [[p|]|] eqn:LP; inversion E; subst.
        * destruct Hv as [<-|Hv].
          -- exists u. cbn. repeat split; auto; try contradiction. intros _. eexists; split; [exact LP|]. reflexivity.
          -- destruct (IH r' eq_refl Hv) as (v0 & H & K). exists v0. split; auto.
        * destruct Hv as [<-|Hv].
          -- exists u. repeat split; auto; try contradiction. intros _. eexists; split; [exact LP|]. reflexivity.
          -- destruct (IH r' eq_refl Hv) as (v0 & H & K). exists v0. split; auto.
  Qed.
End Sides.
