(* C40, C41: road corridors and lane corridors. *)
From Coq Require Import List NArith ZArith QArith Bool Arith Lia Sorted.
From Verif Require Import Model_Map Model_Roadgraph Model_RoadSearch Model_Intersection Spec_Roadgraph
  Spec_Roadgraph2 Spec_RoadSearch Model_Corridor Spec_Corridor
  Proof_Map Proof_Roadgraph Proof_Roadgraph2 Proof_Roadgraph3 Props_Roadgraph
  Proof_Corridor Proof_Corridor2 Proof_Corridor3.
Import ListNotations.
Local Open Scope nat_scope.

(* ------------------------------------------------------------------------------------ C40 *)

(* whatever the map and the two roads, no corridor comes back and none is stored *)
Theorem C40_no_corridor_between_roads {P : Type} (L : line_ops P) h fuel ver D m g r1 r2 st st' oc :
  corridor_between_roads L h fuel ver D m g r1 r2 st = Done (st', oc) -> oc = None /\ st' = st.
Proof.
  unfold corridor_between_roads. destruct (find_road_path ver D g r1 r2); [|discriminate].
  cbn. intros E. inversion E. auto.
Qed.
(* and the call does return whenever the road search does *)
Theorem C40_returns_null {P : Type} (L : line_ops P) h fuel ver D m g r1 r2 st path :
  find_road_path ver D g r1 r2 = Some path ->
  corridor_between_roads L h fuel ver D m g r1 r2 st = Done (st, None).
Proof. unfold corridor_between_roads. intros ->. reflexivity. Qed.

(* ------------------------------------------------------------------------------------ C41 *)
Section C41.
  Context {P : Type} (m : xmap P) (g : graph P) (L : line_ops P) (fuel : nat) (ids : list N) (d : dir) (rc : rcorr P).
  Hypothesis OK : map_ok m.
  Hypothesis G : generate m = Some g.
  Hypothesis B : build_corridor L fuel m g ids d = Done (Some rc).

  (* the lane objects of a corridor are the lanes of the listed roads *)
  Theorem C41_lanes_of_the_roads :
    (forall p c, get_lane (rc_roads rc) p = Some c -> In (fst p) ids /\ names m p (cl_lane c)) /\
    (forall p l, In (fst p) ids -> names m p l -> exists c, get_lane (rc_roads rc) p = Some c /\ cl_lane c = l).
  Proof.
    destruct (build_parts L fuel m g ids d rc OK G B) as (first & rest & ls & _ & LI & _).
    split; intros; [eapply t_names; eauto|eapply t_get; eauto].
  Qed.

  (* next lanes: a connected lane of the road listed next, and there is none only if no such lane exists *)
  Theorem C41_next_lane p c :
    get_lane (rc_roads rc) p = Some c ->
    match cl_next c with
    | Some q => onward m ids p q
    | None => forall q, ~ onward m ids p q
    end.
  Proof.
    destruct (build_parts L fuel m g ids d rc OK G B) as (first & rest & ls & _ & LI & _). intros Gp.
    destruct (cl_next c) as [q|] eqn:N.
    - eapply nxt_onward; eauto. exists c. auto.
    - eapply no_next; eauto.
  Qed.

  (* a lane corridor: starts with a usable lane, follows connected lanes along the roads, and cannot be
     continued *)
  Theorem C41_lane_corridors_are_chains lc :
    In lc (rc_unique rc) ->
    exists h z, starts h (lc_chain lc) /\ ends z (lc_chain lc) /\ usable m ids h /\
      chain (onward m ids) (lc_chain lc) /\ forall q, ~ onward m ids z q.
  Proof.
    destruct (build_parts L fuel m g ids d rc OK G B) as (first & rest & ls & _ & LI & _ & I & _).
    intros H. apply In_nth_error in H as (i & Hi). destruct I as (I1 & _).
    destruct (I1 i lc Hi) as (h & tl & c & lc0 & A1 & A2 & A3 & A4 & A5 & _).
    destruct (full_last _ _ _ A5) as (z & cz & Z1 & Z2 & Z3).
    exists h, z. rewrite A1. split; [exists tl; reflexivity|]. split; auto. split.
    - eapply open_usable; eauto. exists c. auto.
    - split; [|eapply no_next; eauto].
      assert (K : chain (nxt (rc_roads rc)) (h :: tl)) by (eapply full_chain; eauto).
      clear - K LI OK G. revert h K. induction tl as [|q tl IH]; intros h K; cbn; auto.
      cbn in K. destruct K as (K1 & K2). split; [eapply nxt_onward; eauto|]. apply IH. exact K2.
  Qed.

  (* GetLaneCorridor: every usable lane has one, it contains the lane, and it is the last one built that
     does *)
  Theorem C41_every_usable_lane_has_a_corridor p :
    usable m ids p -> exists lc, lane_corridor rc (snd p) = Some lc /\ In p (lc_chain lc).
  Proof.
    destruct (build_parts L fuel m g ids d rc OK G B) as (first & rest & ls & Eids & LI & Fi & I & _).
    intros U. pose proof U as (Hr & l & Hn & _). destruct (t_get m g L ids _ OK LI p l Hr Hn) as (c & Gp & _).
    apply (open_usable m g L ids _ OK LI) in U. destruct I as (I1 & I2 & I3 & I4).
    assert (It : In (fst p, (snd p, c)) (all_items (rc_roads rc) first ls)).
    { unfold all_items. apply in_or_app. right. apply in_flat_map. unfold get_lane in Gp.
      destruct (m_find (fst p) (rc_roads rc)) as [lsp|] eqn:F; [|discriminate]. exists (fst p, lsp).
      split; [now apply m_find_In|]. unfold road_items. cbn. apply in_map_iff. exists (snd p, c). split; auto. now apply m_find_In. }
    specialize (I4 _ It). unfold item_ref in I4. cbn in I4. destruct p as [r id]. cbn in *.
    destruct (m_find id (rc_map rc)) as [i|] eqn:F; [|exfalso; apply I4; auto].
    destruct (I2 _ _ F) as (lc & N & Hlc). exists lc. unfold lane_corridor. rewrite F. split; auto.
    destruct (I1 i lc N) as (h & tl & ch & lc0 & A1 & A2 & _ & _ & A5 & _).
    unfold has_lane_id in Hlc. apply in_map_iff in Hlc as (x & Ex & Hx).
    rewrite A1 in Hx. destruct (full_in_table _ _ _ A5 x Hx) as (cx & Gx). rewrite <- A1 in Hx.
    assert (x = (r, id)) as -> by (eapply (t_uniq m g L ids); eauto). exact Hx.
  Qed.
  Theorem C41_lane_corridor_query id lc :
    lane_corridor rc id = Some lc <->
    exists i, nth_error (rc_unique rc) i = Some lc /\ In id (map snd (lc_chain lc)) /\
      forall j lc', i < j -> nth_error (rc_unique rc) j = Some lc' -> ~ In id (map snd (lc_chain lc')).
  Proof.
    destruct (build_parts L fuel m g ids d rc OK G B) as (first & rest & ls & _ & LI & _ & I & _).
    destruct I as (I1 & I2 & I3 & _). unfold lane_corridor. split.
    - intros E. destruct (m_find id (rc_map rc)) as [i|] eqn:F; [|discriminate].
      destruct (I2 _ _ F) as (lc' & N & H). assert (lc' = lc) as -> by congruence.
      exists i. split; auto. split; auto. intros j lc' Hj N' H'. destruct (I3 id j lc' N' H') as (k & K & Hk).
      assert (k = i) as -> by congruence. lia.
    - intros (i & N & H & No). destruct (I3 id i lc N H) as (j & J & Hij). rewrite J.
      destruct (I2 _ _ J) as (lcj & Nj & Hj).
      destruct (Nat.eq_dec i j) as [<-|D]; [exact N|]. exfalso. apply (No j lcj); auto. lia.
  Qed.

  (* no corridor starts inside an earlier one; in particular all corridors are different *)
  Theorem C41_starts_are_new i j lc lc' h :
    nth_error (rc_unique rc) i = Some lc -> nth_error (rc_unique rc) j = Some lc' -> j < i ->
    starts h (lc_chain lc) -> ~ In h (lc_chain lc').
  Proof.
    destruct (build_parts L fuel m g ids d rc OK G B) as (first & rest & ls & _ & LI & _ & (I1 & _) & _).
    intros N N' Hj (tl & Eh) Hin. destruct (I1 i lc N) as (h' & tl' & c & lc0 & A1 & _ & _ & _ & _ & _ & _ & A8 & _).
    assert (h' = h) as -> by congruence. apply (A8 j lc' Hj N'). now apply (in_map snd) in Hin.
  Qed.

  (* along a simple route listed in increasing order, no usable lane leads into the start of a corridor *)
  Theorem C41_starts_have_no_predecessor lc h p c :
    simple_route m ids -> ordered ids ->
    In lc (rc_unique rc) -> starts h (lc_chain lc) ->
    usable m ids p -> get_lane (rc_roads rc) p = Some c -> cl_next c <> Some h.
  Proof.
    destruct (build_parts L fuel m g ids d rc OK G B) as (first & rest & ls & Eids & LI & Fi & (I1 & _) & _).
    intros (ND & NS) Or H (tl & Eh) U Gp Nx. apply In_nth_error in H as (i & Hi).
    destruct (I1 i lc Hi) as (h' & tl' & ch & lc0 & A1 & A2 & _ & _ & _ & _ & _ & _ & pre & post & A9 & A10).
    assert (h' = h) as -> by congruence.
    assert (X : nxt (rc_roads rc) p h) by (exists c; auto).
    pose proof (nxt_onward m g L ids _ LI p h X) as On.
    assert (NSr : forall r, In r ids -> ~ road_linked m r r).
    { intros r Hr (a & b & Ha & Hb & [J|J]); [exact (NS r a b Hr Ha Hb J)|exact (NS r b a Hr Hb Ha J)]. }
    pose proof On as (a & b & Ha & Hb & F & J). destruct (follows_in _ _ _ F) as (Ip & Ih).
    assert (Dif : fst p <> fst h).
    { intros Eq. apply (NSr (fst p) Ip). exists a, b. split; [apply Ha|]. split; [rewrite Eq; apply Hb|exact J]. }
    assert (Hf : fst h <> first).
    { intros Eq. pose proof (onward_rank m ids p h ND NSr On) as Rk.
      destruct (compress_head first rest) as (t & Et). rewrite <- Eids in Et. rewrite Et, Eq in Rk. cbn in Rk.
      rewrite N.eqb_refl in Rk. discriminate. }
    assert (It : In (fst p, (snd p, c)) pre).
    { pose proof LI as ((S & D & Ss & _) & _).
      assert (Ip' : In (fst p, (snd p, c)) (flat_map road_items (rc_roads rc))).
      { apply in_flat_map. unfold get_lane in Gp. destruct (m_find (fst p) (rc_roads rc)) as [lsp|] eqn:Fp; [|discriminate].
        exists (fst p, lsp). split; [now apply m_find_In|]. apply in_map_iff. exists (snd p, c). split; auto. now apply m_find_In. }
      unfold all_items in A9.
      (* h does not occur among the lanes of the first road *)
      assert (Sp : exists pre2, pre = road_items (first, ls) ++ pre2 /\
                 flat_map road_items (rc_roads rc) = pre2 ++ (fst h, (snd h, ch)) :: post).
      { assert (Gen : forall (u : list (item (P:=P))) v pr, (forall x, In x u -> fst x = first) ->
           u ++ v = pr ++ (fst h, (snd h, ch)) :: post -> exists pr2, pr = u ++ pr2 /\ v = pr2 ++ (fst h, (snd h, ch)) :: post).
        { induction u as [|x u IHu]; intros v pr Hu Eq; cbn in *; [eauto|].
          destruct pr as [|y pr]; cbn in Eq; inversion Eq; subst.
          - exfalso. apply Hf. specialize (Hu (fst h, (snd h, ch)) (or_introl eq_refl)). exact Hu.
          - destruct (IHu v pr) as (pr2 & -> & ->); auto. exists pr2. auto. }
        apply Gen; auto. intros x Hx. unfold road_items in Hx. cbn in Hx. apply in_map_iff in Hx as (y & <- & _). reflexivity. }
      destruct Sp as (pre2 & -> & E2). apply in_or_app.
      destruct (Or _ _ F Dif) as [Hd|Lt].
      - left. rewrite Eids in Hd. cbn in Hd. inversion Hd as [Hd']. unfold road_items. cbn. apply in_map_iff. exists (snd p, c).
        split; auto. unfold get_lane in Gp. rewrite <- Hd', Fi in Gp. now apply m_find_In.
      - right. eapply (items_order (rc_roads rc) S pre2 post (fst h, (snd h, ch))); eauto. }
    apply (A10 _ It); unfold item_ref; cbn; [eapply open_usable; eauto; now destruct p|now destruct p].
  Qed.

  (* ... and if moreover lanes do not merge and drivable lanes lead to drivable lanes, every lane lies in
     at most one corridor *)
  Theorem C41_corridors_are_disjoint i j lc lc' x :
    simple_route m ids -> ordered ids ->
    (forall p q h c c', get_lane (rc_roads rc) p = Some c -> get_lane (rc_roads rc) q = Some c' ->
       cl_next c = Some h -> cl_next c' = Some h -> p = q) ->
    (forall p q, usable m ids p -> onward m ids p q -> usable m ids q) ->
    nth_error (rc_unique rc) i = Some lc -> nth_error (rc_unique rc) j = Some lc' ->
    In x (lc_chain lc) -> In x (lc_chain lc') -> i = j.
  Proof.
    destruct (build_parts L fuel m g ids d rc OK G B) as (first & rest & ls & Eids & LI & Fi & (I1 & _) & _).
    intros SR Or Inj Dr N N' Hx Hx'.
    destruct (I1 i lc N) as (h & tl & c & lc0 & A1 & A2 & A3 & A4 & A5 & _).
    destruct (I1 j lc' N') as (h' & tl' & c' & lc0' & B1 & B2 & B3 & B4 & B5 & _).
    assert (Us : forall h c tl, get_lane (rc_roads rc) h = Some c -> l_type (cl_lane c) = DRIVING -> l_pos (cl_lane c) <> 0%Z ->
        full (rc_roads rc) h tl -> forall y, In y (h :: tl) -> usable m ids y).
    { clear - LI OK G Dr. intros h c tl Gh Th Ph F. assert (U : usable m ids h) by (eapply open_usable; eauto; exists c; auto).
      clear c Gh Th Ph. induction F as [p c Gp Np|p c q tl Gp Np F IH]; intros y [<-|Hy]; auto; [destruct Hy|].
      apply IH; auto. apply (Dr p q U). eapply nxt_onward; eauto. exists c. auto. }
    (* the predecessor of an element of a chain other than its start, inside the chain *)
    assert (Pred : forall h tl, full (rc_roads rc) h tl -> forall y, In y tl -> exists z, In z (h :: tl) /\ nxt (rc_roads rc) z y).
    { clear. intros h tl F. induction F as [p c Gp Np|p c q tl Gp Np F IH]; intros y Hy; [destruct Hy|].
      destruct Hy as [<-|Hy]; [exists p; split; cbn; auto; exists c; auto|].
      destruct (IH y Hy) as (z & Hz & Nz). exists z. split; auto. cbn. auto. }
    assert (Start : forall k k' lck lck' hk tk hk' tk', nth_error (rc_unique rc) k = Some lck -> nth_error (rc_unique rc) k' = Some lck' ->
        lc_chain lck = hk :: tk -> lc_chain lck' = hk' :: tk' -> In hk (hk' :: tk') -> hk = hk').
    { intros k k' lck lck' hk tk hk' tk' Nk Nk' Ek Ek' [Hin|Hin]; [auto|]. exfalso.
      destruct (I1 k' lck' Nk') as (h2 & t2 & c2 & lc2 & C1 & C2 & C3 & C4 & C5 & _).
      assert (h2 = hk' /\ t2 = tk') as (-> & ->) by (rewrite Ek' in C1; inversion C1; auto).
      destruct (Pred _ _ C5 hk Hin) as (z & Hz & (cz & Gz & Nz)).
      apply (C41_starts_have_no_predecessor lck hk z cz SR Or); auto.
      - eapply nth_error_In; eauto.
      - exists tk. auto.
      - eapply (Us hk' c2 tk'); eauto. }
    assert (Same : h = h').
    { rewrite A1 in Hx. rewrite B1 in Hx'.
      (* walk back from x along chain i *)
      assert (Back : forall h1 t1, full (rc_roads rc) h1 t1 -> forall y, In y (h1 :: t1) -> In y (h' :: tl') ->
                exists hh, (hh = h1 \/ hh = h') /\ In hh (h1 :: t1) /\ In hh (h' :: tl')).
      { clear - Inj Pred B5. intros h1 t1 F. induction F as [p c Gp Np|p c q tl Gp Np F IH]; intros y Hy Hy'.
        - destruct Hy as [<-|[]]. exists p. cbn. auto.
        - destruct Hy as [<-|Hy]; [exists p; cbn; auto|].
          destruct (IH y Hy Hy') as (hh & [->| ->] & I1 & I2).
          + destruct I2 as [<-|I2]; [exists h'; cbn; auto|].
            destruct (Pred _ _ B5 q I2) as (z & Hz & (cz & Gz & Nz)).
            assert (z = p) as -> by (eapply Inj; eauto). exists p. cbn [In]. auto.
          + exists h'. cbn [In] in *. auto. }
      destruct (Back h tl A5 x Hx Hx') as (hh & [->| ->] & J1 & J2).
      - eapply Start; [exact N|exact N'|exact A1|exact B1|exact J2].
      - symmetry. eapply Start; [exact N'|exact N|exact B1|exact A1|exact J1]. }
    subst h'. destruct (Nat.lt_trichotomy i j) as [Hlt|[Heq|Hlt]]; [|exact Heq|].
    - exfalso. apply (C41_starts_are_new j i lc' lc h N' N Hlt); [exists tl'; auto|rewrite A1; cbn; auto].
    - exfalso. apply (C41_starts_are_new i j lc lc' h N N' Hlt); [exists tl; auto|rewrite B1; cbn; auto].
  Qed.
End C41.

(* building terminates without undefined behaviour on a simple route, and the result does not depend on
   how many steps are allowed *)
Theorem C41_corridor_is_built {P : Type} (m : xmap P) g L fuel ids d :
  map_ok m -> generate m = Some g -> lines_ok L -> drawable m ids -> reference_unlinked m ->
  (forall r, In r ids -> m_find r (m_roads m) <> None) ->
  simple_route m ids -> ids <> [] -> length ids < fuel ->
  exists rc, build_corridor L fuel m g ids d = Done (Some rc).
Proof.
  intros OK G LO Dw RU Kn SR Ne Hf.
  destruct (tables_total m g L ids OK G LO Dw Kn) as (rs0 & rs & G0 & K).
  pose proof (link_roads_spec m L g ids rs0 rs OK G G0 K) as LI.
  unfold build_corridor. rewrite G0, K. destruct ids as [|first rest]; [congruence|].
  pose proof LI as ((S & D & _) & _).
  destruct (m_find first rs) as [ls|] eqn:F.
  2: { exfalso. apply m_find_None_notin in F. apply F. apply D. cbn. auto. }
  unfold calc_corridors. rewrite F. rewrite calc_road_items, calc_roads_items, <- fold_left_app.
  change (road_items (first, ls) ++ flat_map road_items rs) with (all_items rs first ls).
  assert (A : forall it, In it (all_items rs first ls) -> get_lane rs (item_ref it) = Some (snd (snd it))).
  { intros it. eapply all_items_ok; eauto. }
  pose proof (run_no_crash m g L _ OK G LO Dw rs LI RU fuel _ A (Done ([], []))) as N1.
  pose proof (run_ends m g L _ OK rs LI fuel _ SR Hf A (Done ([], []))) as N2.
  destruct (fold_left (step L rs fuel) (all_items rs first ls) (Done ([], []))) as [[mp us]| |].
  - eauto.
  - exfalso. apply N1; [discriminate|reflexivity].
  - exfalso. apply N2; [discriminate|reflexivity].
Qed.
Theorem C41_steps_do_not_matter {P : Type} (m : xmap P) g L f1 f2 ids d x y :
  build_corridor L f1 m g ids d = Done x -> build_corridor L f2 m g ids d = Done y -> x = y.
Proof.
  assert (M : forall f f' z, f <= f' -> build_corridor L f m g ids d = Done z -> build_corridor L f' m g ids d = Done z).
  { intros f f' z Hf. unfold build_corridor. destruct (gen_roads m g ids) as [rs0|]; auto.
    destruct (link_roads L g ids rs0) as [rs|]; auto. destruct ids as [|first rest]; auto.
    destruct (calc_corridors L f rs first) as [[mp us]| |] eqn:C; try discriminate.
    now rewrite (calc_mono L rs f f' first _ Hf C). }
  intros E1 E2. destruct (Nat.le_ge_cases f1 f2) as [Hf|Hf].
  - apply (M f1 f2 x Hf) in E1. congruence.
  - apply (M f2 f1 y Hf) in E2. congruence.
Qed.

(* two connected roads that follow each other in the list: building never ends *)
Theorem C41_return_route_never_ends {P : Type} (m : xmap P) g L ids d r r' a b :
  map_ok m -> generate m = Some g -> lines_ok L -> drawable m ids -> reference_unlinked m ->
  (forall x, In x ids -> m_find x (m_roads m) <> None) ->
  follows ids r r' -> follows ids r' r ->
  (forall x, follows ids r x -> road_linked m r x -> x = r') ->
  (forall x, follows ids r' x -> road_linked m r' x -> x = r) ->
  lane_of m r a -> l_type a = DRIVING -> l_pos a <> 0%Z -> lane_of m r' b -> joined m a b ->
  forall fuel, build_corridor L fuel m g ids d = OutOfFuel.
Proof.
  intros OK G LO Dw RU Kn F1 F2 O1 O2 Ha Ta Pa Hb J fuel.
  destruct (tables_total m g L ids OK G LO Dw Kn) as (rs0 & rs & G0 & K).
  pose proof (link_roads_spec m L g ids rs0 rs OK G G0 K) as LI.
  assert (NoDone : forall rc, build_corridor L fuel m g ids d <> Done (Some rc)).
  { intros rc B. destruct (follows_in _ _ _ F1) as (Ir & Ir').
    assert (U : usable m ids (r, l_id a)) by (split; [exact Ir|exists a; split; [split; auto|auto]]).
    destruct (C41_every_usable_lane_has_a_corridor m g L fuel ids d rc OK G B _ U) as (lc & Q & Hin).
    destruct (build_parts L fuel m g ids d rc OK G B) as (first & rest & ls & _ & LI2 & _ & (I1 & _) & _).
    assert (exists i, nth_error (rc_unique rc) i = Some lc) as (i & N).
    { unfold lane_corridor in Q. destruct (m_find (snd (r, l_id a)) (rc_map rc)); [eauto|discriminate]. }
    destruct (I1 i lc N) as (h & tl & ch & lc0 & A1 & _ & _ & _ & A5 & _). rewrite A1 in Hin.
    destruct (full_suffix _ _ _ A5 _ Hin) as (tl2 & Fu & _).
    (* lanes of the two roads that are connected with the other road *)
    assert (Bad : forall p tl2, full (rc_roads rc) p tl2 ->
      (exists x y, names m p x /\ fst p = r /\ lane_of m r' y /\ joined m x y) \/
      (exists x y, names m p x /\ fst p = r' /\ lane_of m r y /\ joined m x y) -> False).
    { clear - F1 F2 O1 O2 LI2 OK. intros p tl2 Fu. induction Fu as [p c Gp Np|p c q tl2 Gp Np Fu IH]; intros [(x & y & Hx & Ep & Hy & J)|(x & y & Hx & Ep & Hy & J)].
      - apply (no_next m g L ids _ OK LI2 p c Gp Np (r', l_id y)). exists x, y. rewrite Ep. cbn. split; auto. split; [split; auto|]. auto.
      - apply (no_next m g L ids _ OK LI2 p c Gp Np (r, l_id y)). exists x, y. rewrite Ep. cbn. split; auto. split; [split; auto|]. auto.
      - destruct (nxt_onward m g L ids _ LI2 p q) as (a & b & Na & Nb & Fo & J'); [exists c; auto|]. rewrite Ep in Fo.
        assert (fst q = r') as Eq.
        { apply O1; auto. exists a, b. split; [rewrite <- Ep; apply Na|]. split; [apply Nb|exact J']. }
        apply IH. right. exists b, a. split; auto. split; auto. split; [rewrite <- Ep; apply Na|]. destruct J'; [right|left]; auto.
      - destruct (nxt_onward m g L ids _ LI2 p q) as (a & b & Na & Nb & Fo & J'); [exists c; auto|]. rewrite Ep in Fo.
        assert (fst q = r) as Eq.
        { apply O2; auto. exists a, b. split; [rewrite <- Ep; apply Na|]. split; [apply Nb|exact J']. }
        apply IH. left. exists b, a. split; auto. split; auto. split; [rewrite <- Ep; apply Na|]. destruct J'; [right|left]; auto. }
    apply (Bad _ _ Fu). left. exists a, b. split; [split; auto|]. split; auto. }
  unfold build_corridor in *. rewrite G0, K in *. destruct ids as [|first rest]; [now apply follows_nil in F1|].
  pose proof LI as ((S & D & _) & _).
  destruct (m_find first rs) as [ls|] eqn:F.
  2: { exfalso. apply m_find_None_notin in F. apply F. apply D. cbn. auto. }
  unfold calc_corridors in *. rewrite F in *. rewrite calc_road_items, calc_roads_items, <- fold_left_app in *.
  change (road_items (first, ls) ++ flat_map road_items rs) with (all_items rs first ls) in *.
  assert (A : forall it, In it (all_items rs first ls) -> get_lane rs (item_ref it) = Some (snd (snd it))).
  { intros it. eapply all_items_ok; eauto. }
  pose proof (run_no_crash m g L _ OK G LO Dw rs LI RU fuel _ A (Done ([], []))) as N1.
  destruct (fold_left (step L rs fuel) (all_items rs first ls) (Done ([], []))) as [[mp us]| |].
  - exfalso. eapply NoDone. reflexivity.
  - exfalso. apply N1; [discriminate|reflexivity].
  - reflexivity.
Qed.

(* neighbours and boundaries of a lane object *)
Theorem C41_sides_of_a_lane {P : Type} (m : xmap P) g L fuel ids d rc r s l c :
  map_ok m -> generate m = Some g -> build_corridor L fuel m g ids d = Done (Some rc) ->
  In r ids -> section_of m r s -> in_section l s -> get_lane (rc_roads rc) (r, l_id l) = Some c ->
  cl_rbound c = l_line l /\
  (l_pos l <> 0%Z -> forall i, in_section i s -> l_pos i = inward (l_pos l) ->
     cl_lbound c = l_line i /\ lo_center L (l_line i) (l_line l) = Some (cl_center c)) /\
  (l_pos l <> 0%Z -> has_plan_view s -> right_hand l -> l_dir l <> BOTH ->
     (forall b, in_section b s -> l_pos b = left_pos (l_dir l) (l_pos l) -> cl_left c = Some (r, l_id b)) /\
     ((forall b, in_section b s -> l_pos b <> left_pos (l_dir l) (l_pos l)) -> cl_left c = None) /\
     (forall b, in_section b s -> l_pos b = right_pos (l_dir l) (l_pos l) -> cl_right c = Some (r, l_id b)) /\
     ((forall b, in_section b s -> l_pos b <> right_pos (l_dir l) (l_pos l)) -> cl_right c = None)).
Proof.
  intros OK G B Hr Hs Hl Gc.
  destruct (build_parts L fuel m g ids d rc OK G B) as (first & rest & ls & _ & LI & _).
  assert (El : cl_lane c = l).
  { destruct (t_names m g L ids _ LI _ c Gc) as (_ & Hn). apply (names_inj m OK (r, l_id l)); auto. split; [exists s; auto|reflexivity]. }
  destruct (proj2 LI r (l_id l) c Gc) as (D & _). rewrite with_next_fst in D. destruct (D Hr) as (D1 & D2 & D3 & D4).
  rewrite El in *. split; auto. split.
  - intros Z i Hi Ei. destruct (inner_spec m g r s l OK (proj1 (generate_full m g OK G)) Hs Hl) as (I1 & _).
    specialize (I1 i Hi Z Ei). destruct D4 as [(x & b & Ix & Hb & Lb & Ce)|(Ix & _)]; [|rewrite I1 in Ix; discriminate].
    assert (b = i) as ->.
    { apply (names_inj m OK (r, x)); auto. split; [exists s; auto|cbn; congruence]. }
    auto.
  - intros Z HP RH Hd. destruct (sides m g r s l (l_dir l) OK (proj1 (generate_full m g OK G)) Hs Hl Z HP RH Hd) as ((L1 & L2) & (R1 & R2)).
    rewrite D1, D2. split; [|split; [|split]].
    + intros b Hb Eb. now rewrite (L1 b Hb Eb).
    + intros No. now rewrite (L2 No).
    + intros b Hb Eb. now rewrite (R1 b Hb Eb).
    + intros No. now rewrite (R2 No).
Qed.

(* the lines of a lane corridor are the lanes' lines joined in order and simplified; the polygon runs along
   the left boundary, back along the right one and is closed *)
Theorem C41_lines_of_a_corridor {P : Type} (m : xmap P) g L fuel ids d rc lc :
  map_ok m -> generate m = Some g -> build_corridor L fuel m g ids d = Done (Some rc) -> In lc (rc_unique rc) ->
  exists lanes cen lef rig p tl,
    Forall2 (fun q c => get_lane (rc_roads rc) q = Some c) (lc_chain lc) lanes /\
    join_lines L (map cl_center lanes) = Some cen /\ join_lines L (map cl_lbound lanes) = Some lef /\
    join_lines L (map cl_rbound lanes) = Some rig /\
    lc_center lc = lo_simplify L cen /\ lc_fine lc = lo_simplify_fine L cen /\
    lc_left lc = lo_simplify L lef /\ lc_right lc = lo_simplify L rig /\
    lc_left lc = p :: tl /\ lc_polygon lc = lc_left lc ++ rev (lc_right lc) ++ [p].
Proof.
  intros OK G B H. destruct (build_parts L fuel m g ids d rc OK G B) as (first & rest & ls & _ & LI & _ & (I1 & _) & _).
  apply In_nth_error in H as (i & Hi). destruct (I1 i lc Hi) as (h & tl & c & lc0 & A1 & A2 & _ & _ & A5 & A6 & A7 & _).
  assert (Ext : forall rst lc1, lc_fine lc1 = lc_center lc1 -> extended L (rc_roads rc) rst lc1 = Some lc0 ->
    exists lanes, Forall2 (fun q c => get_lane (rc_roads rc) q = Some c) rst lanes /\
      ofold (lo_concat L) (map cl_center lanes) (lc_center lc1) = Some (lc_center lc0) /\
      ofold (lo_concat L) (map cl_lbound lanes) (lc_left lc1) = Some (lc_left lc0) /\
      ofold (lo_concat L) (map cl_rbound lanes) (lc_right lc1) = Some (lc_right lc0) /\ lc_fine lc0 = lc_center lc0).
  { clear. induction rst as [|q rst IH]; intros lc1 Fe E; unfold extended in *; cbn in E.
    - inversion E; subst. exists []. cbn. auto.
    - destruct (get_lane (rc_roads rc) q) as [cq|] eqn:Gq; [|discriminate]. unfold extend in E at 1.
      destruct (lo_concat L (lc_center lc1) (cl_center cq)) as [x1|] eqn:X1; [|discriminate].
      destruct (lo_concat L (lc_left lc1) (cl_lbound cq)) as [x2|] eqn:X2; [|discriminate].
      destruct (lo_concat L (lc_right lc1) (cl_rbound cq)) as [x3|] eqn:X3; [|discriminate].
      apply IH in E as (lanes & F & E1 & E2 & E3 & E4); [|reflexivity]. cbn in E1, E2, E3.
      exists (cq :: lanes). split; [constructor; auto|]. cbn. rewrite X1, X2, X3. auto. }
  destruct (Ext tl (start_corr L h c) eq_refl A6) as (lanes & F & E1 & E2 & E3 & E4). cbn in E1, E2, E3.
  unfold finish in A7. destruct (lo_simplify L (lc_left lc0)) as [|p tl2] eqn:Sl; [discriminate|]. inversion A7; subst lc. cbn in A1.
  exists (c :: lanes), (lc_center lc0), (lc_left lc0), (lc_right lc0), p, tl2. cbn [lc_chain lc_center lc_fine lc_left lc_right lc_polygon].
  split; [rewrite A1; constructor; auto|]. cbn [map join_lines].
  repeat (split; [first [assumption | reflexivity | congruence]|]). cbn. reflexivity.
Qed.

(* GetLanes: if appending a lane makes the centre line longer, the map holds exactly the lanes of the chain
   in driving order *)
Theorem C41_lanes_in_driving_order {P : Type} (m : xmap P) g L fuel ids d rc lc :
  map_ok m -> generate m = Some g -> build_corridor L fuel m g ids d = Done (Some rc) -> In lc (rc_unique rc) ->
  (forall p c a x, get_lane (rc_roads rc) p = Some c -> lo_concat L a (cl_center c) = Some x ->
     (lo_length L a < lo_length L x)%Q) ->
  map snd (lc_lanes lc) = lc_chain lc /\ StronglySorted (fun a b => fst a < fst b)%Q (lc_lanes lc).
Proof.
  intros OK G B H Gr. destruct (build_parts L fuel m g ids d rc OK G B) as (first & rest & ls & _ & LI & _ & (I1 & _) & _).
  apply In_nth_error in H as (i & Hi). destruct (I1 i lc Hi) as (h & tl & c & lc0 & A1 & A2 & _ & _ & A5 & A6 & A7 & _).
  assert (Ins : forall (k : Q) (v : lane_ref) mp, Forall (fun kv => fst kv < k)%Q mp -> q_insert k v mp = mp ++ [(k, v)]).
  { clear. intros k v mp. induction 1 as [|[k' v'] mp Hk F IH]; cbn; auto. cbn in Hk.
    assert (Qle_bool k' k = true) as -> by (apply Qle_bool_iff; now apply Qlt_le_weak).
    assert (Qle_bool k k' = false) as ->.
    { destruct (Qle_bool k k') eqn:E; auto. apply Qle_bool_iff in E. exfalso. apply (Qlt_not_le _ _ Hk E). }
    now rewrite IH. }
  assert (Ext : forall rst lc1, extended L (rc_roads rc) rst lc1 = Some lc0 ->
    map snd (lc_lanes lc1) = lc_chain lc1 -> Forall (fun kv => fst kv <= lo_length L (lc_center lc1))%Q (lc_lanes lc1) ->
    StronglySorted (fun a b => fst a < fst b)%Q (lc_lanes lc1) ->
    map snd (lc_lanes lc0) = lc_chain lc0 /\ StronglySorted (fun a b => fst a < fst b)%Q (lc_lanes lc0)).
  { clear - Gr Ins. induction rst as [|q rst IH]; intros lc1 E M F S; unfold extended in *; cbn in E.
    - inversion E; subst. auto.
    - destruct (get_lane (rc_roads rc) q) as [cq|] eqn:Gq; [|discriminate]. unfold extend in E at 1.
      destruct (lo_concat L (lc_center lc1) (cl_center cq)) as [x1|] eqn:X1; [|discriminate].
      destruct (lo_concat L (lc_left lc1) (cl_lbound cq)) as [x2|] eqn:X2; [|discriminate].
      destruct (lo_concat L (lc_right lc1) (cl_rbound cq)) as [x3|] eqn:X3; [|discriminate].
      pose proof (Gr q cq _ _ Gq X1) as Lt.
      assert (F' : Forall (fun kv => fst kv < lo_length L x1)%Q (lc_lanes lc1)).
      { apply Forall_forall. intros kv Hk. rewrite Forall_forall in F. eapply Qle_lt_trans; [apply F; exact Hk|exact Lt]. }
      apply IH in E; auto; cbn; rewrite (Ins _ _ _ F').
      + rewrite map_app, M. reflexivity.
      + apply Forall_app. split; [|repeat constructor; cbn; apply Qle_refl].
        apply Forall_forall. intros kv Hk. rewrite Forall_forall in F'. apply Qlt_le_weak. auto.
      + clear - S F'. induction S as [|a l S IHS Fa]; cbn; [repeat constructor|].
        inversion F'; subst. constructor; auto. apply Forall_app. split; auto. }
  assert (R : map snd (lc_lanes lc0) = lc_chain lc0 /\ StronglySorted (fun a b => fst a < fst b)%Q (lc_lanes lc0)).
  { apply (Ext tl (start_corr L h c) A6); cbn; auto; repeat constructor; cbn; apply Qle_refl. }
  unfold finish in A7. destruct (lo_simplify L (lc_left lc0)) as [|p tl2] eqn:Sl; [discriminate|]. inversion A7; subst lc. exact R.
Qed.

(* ------------------------------------------------------------------------------------ queries *)
Section Queries41.
  Context {P Pt : Type} (O : point_ops P Pt) (rc : rcorr P) (pt : Pt).
  Let hit (c : lcorr P) := po_collide O pt (lc_polygon c) = true.

  Lemma current_index_from_spec us : forall i,
    (fst (current_index_from O pt i us) = find (fun c => po_collide O pt (lc_polygon c)) us) /\
    match fst (current_index_from O pt i us) with
    | Some c => exists k, nth_error us k = Some c /\ snd (current_index_from O pt i us) = N.of_nat (i + k) /\ hit c /\
                  forall j c', j < k -> nth_error us j = Some c' -> ~ hit c'
    | None => snd (current_index_from O pt i us) = 4294967295%N /\ forall c, In c us -> ~ hit c
    end.
  Proof.
    induction us as [|c us IH]; intros i; cbn.
    - split; auto.
    - destruct (po_collide O pt (lc_polygon c)) eqn:Ec.
      + cbn. split; auto. exists 0. cbn. rewrite Nat.add_0_r. repeat split; auto. intros j c' Hj. lia.
      + destruct (IH (S i)) as (E & H). split; auto.
        destruct (fst (current_index_from O pt (S i) us)) as [x|].
        * destruct H as (k & N1 & N2 & N3 & N4). exists (S k). cbn. rewrite N2. repeat split; auto; [f_equal; lia|].
          intros [|j] c' Hj; cbn; [intros X; inversion X; subst; unfold hit; congruence|]. apply N4. lia.
        * destruct H as (H1 & H2). split; auto. intros x [<-|Hx]; [unfold hit; congruence|auto].
  Qed.

  (* the first corridor that contains the point, and its index *)
  Theorem C41_current_corridor :
    match current_corridor O rc pt with
    | Some c => exists k, nth_error (rc_unique rc) k = Some c /\
                  current_corridor_and_index O rc pt = (Some c, N.of_nat k) /\
                  po_collide O pt (lc_polygon c) = true /\
                  forall j c', j < k -> nth_error (rc_unique rc) j = Some c' -> po_collide O pt (lc_polygon c') = false
    | None => current_corridor_and_index O rc pt = (None, 4294967295%N) /\
              forall c, In c (rc_unique rc) -> po_collide O pt (lc_polygon c) = false
    end.
  Proof.
    unfold current_corridor, current_corridor_and_index. destruct (current_index_from_spec (rc_unique rc) 0) as (E & H).
    rewrite <- E. destruct (current_index_from O pt 0 (rc_unique rc)) as [oc i]. cbn in *. destruct oc as [c|].
    - destruct H as (k & N1 & -> & N3 & N4). exists k. repeat split; auto. intros j c' Hj N. specialize (N4 j c' Hj N).
      unfold hit in N4. destruct (po_collide O pt (lc_polygon c')); congruence.
    - destruct H as (-> & H). split; auto. intros c Hc. specialize (H c Hc). unfold hit in H. destruct (po_collide O pt (lc_polygon c)); congruence.
  Qed.

  Let lat (c : lcorr P) := po_lat O pt (lc_center c).
  Lemma nearest_from us : forall pre i b c0 k0, length pre = i -> nth_error pre k0 = Some c0 -> b = lat c0 ->
    (forall c, In c pre -> b <= lat c)%Q -> (forall j c, j < k0 -> nth_error pre j = Some c -> (b < lat c)%Q) ->
    exists k c, nth_error (pre ++ us) k = Some c /\ nearest_index_from O pt i us (Some b) (Some c0, N.of_nat k0) = (Some c, N.of_nat k) /\
      fold_left (nearer O pt) us (Some b, Some c0) = (Some (lat c), Some c) /\
      (forall c', In c' (pre ++ us) -> lat c <= lat c')%Q /\
      (forall j c', j < k -> nth_error (pre ++ us) j = Some c' -> (lat c < lat c')%Q).
  Proof.
    induction us as [|x us IH]; intros pre i b c0 k0 Li N0 Eb Lo Fi.
    - exists k0, c0. rewrite app_nil_r. cbn. subst b. auto 10.
    - assert (k0 < i) by (subst i; apply nth_error_Some; congruence).
      replace (pre ++ x :: us) with ((pre ++ [x]) ++ us) by (rewrite <- app_assoc; reflexivity).
      cbn [nearest_index_from fold_left]. unfold nearer at 2. cbn [fst]. change (po_lat O pt (lc_center x)) with (lat x).
      destruct (Qle_bool b (lat x)) eqn:Q.
      + apply IH; auto.
        * rewrite app_length. cbn. lia.
        * rewrite nth_error_app1 by lia. auto.
        * intros c Hc. apply in_app_or in Hc as [Hc|Hc]; auto. destruct Hc as [<-|[]]. now apply Qle_bool_iff.
        * intros j c Hj. rewrite nth_error_app1 by lia. apply Fi. exact Hj.
      + assert (Lt : (lat x < b)%Q).
        { apply Qnot_le_lt. intros Hle. apply Qle_bool_iff in Hle. congruence. }
        apply IH; auto.
        * rewrite app_length. cbn. lia.
        * rewrite nth_error_app2 by lia. rewrite Li, Nat.sub_diag. reflexivity.
        * intros c Hc. apply in_app_or in Hc as [Hc|Hc].
          -- apply Qlt_le_weak. eapply Qlt_le_trans; [exact Lt|auto].
          -- destruct Hc as [<-|[]]. apply Qle_refl.
        * intros j c Hj. rewrite nth_error_app1 by lia. intros N. eapply Qlt_le_trans; [exact Lt|]. apply Lo. eapply nth_error_In; eauto.
  Qed.

  (* the current corridor if there is one, else the first of the corridors with the least lateral distance *)
  Theorem C41_nearest_corridor :
    match rc_unique rc with
    | [] => nearest_corridor O rc pt = None /\ nearest_corridor_and_index O rc pt = (None, 4294967295%N)
    | _ => exists k c, nth_error (rc_unique rc) k = Some c /\
        nearest_corridor O rc pt = Some c /\ nearest_corridor_and_index O rc pt = (Some c, N.of_nat k) /\
        (current_corridor O rc pt = Some c \/
         (current_corridor O rc pt = None /\
          (forall c', In c' (rc_unique rc) -> po_lat O pt (lc_center c) <= po_lat O pt (lc_center c'))%Q /\
          (forall j c', j < k -> nth_error (rc_unique rc) j = Some c' ->
             (po_lat O pt (lc_center c) < po_lat O pt (lc_center c'))%Q)))
    end.
  Proof.
    pose proof C41_current_corridor as Cu. unfold nearest_corridor, nearest_corridor_and_index.
    destruct (rc_unique rc) as [|c0 us] eqn:Eu.
    - destruct (current_corridor O rc pt) as [c|]; [destruct Cu as (k & N & _); destruct k; discriminate|].
      destruct Cu as (-> & _). cbn. auto.
    - destruct (current_corridor O rc pt) as [c|].
      + destruct Cu as (k & N & E & _). exists k, c. rewrite E. cbn. auto 10.
      + destruct Cu as (E & _). rewrite E. cbn [fst].
        destruct (nearest_from us [c0] 1 (lat c0) c0 0) as (k & c & N & Ei & Ef & Lo & Fi); auto.
        * intros c [<-|[]]. apply Qle_refl.
        * intros j c Hj. lia.
        * exists k, c. cbn [app] in *. split; auto. split.
          { change (fold_left (nearer O pt) (c0 :: us) (None, None)) with (fold_left (nearer O pt) us (Some (lat c0), Some c0)). now rewrite Ef. }
          split; auto.
  Qed.

  (* the corridors left and right: those of the neighbours of the lane under the point *)
  Theorem C41_left_right_corridor c p l :
    current_corridor O rc pt = Some c -> current_lane O rc c pt = Some p -> get_lane (rc_roads rc) p = Some l ->
    lane_corridor rc 10000000 = None ->
    left_right_corridor O rc pt =
      (match cl_left l with Some q => lane_corridor rc (snd q) | None => None end,
       match cl_right l with Some q => lane_corridor rc (snd q) | None => None end).
  Proof.
    intros E1 E2 E3 S. unfold left_right_corridor. rewrite E1, E2, E3. destruct (cl_left l), (cl_right l); rewrite ?S; reflexivity.
  Qed.
  Theorem C41_left_right_outside :
    lane_corridor rc 10000000 = None ->
    (current_corridor O rc pt = None \/ exists c, current_corridor O rc pt = Some c /\ current_lane O rc c pt = None) ->
    left_right_corridor O rc pt = (None, None).
  Proof.
    intros S [E|(c & E1 & E2)]; unfold left_right_corridor; [now rewrite E|rewrite E1, E2, S; reflexivity].
  Qed.
  (* GetCurrentLane returns a lane of the corridor whose polygon holds the point *)
  Theorem C41_current_lane c p : current_lane O rc c pt = Some p ->
    exists s l, In (s, p) (lc_lanes c) /\ get_lane (rc_roads rc) p = Some l /\ po_within O pt (cl_polygon l) = true.
  Proof.
    unfold current_lane. destruct (find _ (lc_lanes c)) as [[s q]|] eqn:F; [|discriminate]. intros E. inversion E; subst.
    apply find_some in F as (H & W). cbn in *. destruct (get_lane (rc_roads rc) p) as [l|] eqn:Gl; [|discriminate]. eauto 10.
  Qed.
End Queries41.

(* lane 10000000 is the code's "no lane": it has no corridor unless the map uses that id *)
Theorem C41_sentinel {P : Type} (m : xmap P) g L fuel ids d rc :
  map_ok m -> generate m = Some g -> build_corridor L fuel m g ids d = Done (Some rc) ->
  (forall r l, In r ids -> lane_of m r l -> l_id l <> 10000000%N) -> lane_corridor rc 10000000 = None.
Proof.
  intros OK G B No. destruct (lane_corridor rc 10000000) as [lc|] eqn:E; auto. exfalso.
  apply (C41_lane_corridor_query m g L fuel ids d rc OK G B) in E as (i & N & H & _).
  destruct (build_parts L fuel m g ids d rc OK G B) as (first & rest & ls & _ & LI & _ & (I1 & _) & _).
  destruct (I1 i lc N) as (h & tl & c & lc0 & A1 & _ & _ & _ & A5 & _).
  apply in_map_iff in H as (x & Ex & Hx). rewrite A1 in Hx. destruct (full_in_table _ _ _ A5 x Hx) as (cx & Gx).
  destruct (t_names m g L ids _ LI x cx Gx) as (A & Hl & Ei). apply (No (fst x) (cl_lane cx) A Hl). congruence.
Qed.

(* ------------------------------------------------------------------------------------ stored corridors *)

Lemma get_generate {P : Type} (m : xmap P) g L h fuel ids d st st' ids' d' :
  generate_corridor L h fuel m g ids d st = Done st' -> h d' ids' <> h d ids ->
  get_corridor h ids' d' st' = get_corridor h ids' d' st.
Proof.
  unfold generate_corridor, get_corridor. intros E Hn. destruct (m_find (h d ids) st); [inversion E; auto|].
  destruct (build_corridor L fuel m g ids d) as [[rc|]| |]; inversion E; subst; auto. now rewrite m_find_insert_other.
Qed.
Lemma get_generate_present {P : Type} (m : xmap P) g L h fuel ids d st st' ids' d' rc :
  generate_corridor L h fuel m g ids d st = Done st' -> get_corridor h ids' d' st = Some rc ->
  get_corridor h ids' d' st' = Some rc.
Proof.
  unfold generate_corridor, get_corridor. intros E Hg. destruct (m_find (h d ids) st) eqn:F; [inversion E; subst; auto|].
  destruct (build_corridor L fuel m g ids d) as [[rc'|]| |]; inversion E; subst; auto.
  destruct (N.eq_dec (h d' ids') (h d ids)) as [Eq|Ne]; [congruence|]. now rewrite m_find_insert_other.
Qed.

(* after any history of calls, every requested corridor is the one built for exactly these roads and this
   direction -- provided the hash keys of the requests differ *)
Theorem C41_cache {P : Type} (m : xmap P) g L h fuel calls st ids d :
  injective_on calls h -> generate_all L h fuel m g calls [] = Done st -> In (ids, d) calls ->
  exists oc, build_corridor L fuel m g ids d = Done oc /\ get_corridor h ids d st = oc.
Proof.
  intros Inj.
  assert (A : forall todo st0, (forall x, In x todo -> In x calls) ->
    (forall ids d, In (ids, d) calls -> forall rc, get_corridor h ids d st0 = Some rc -> build_corridor L fuel m g ids d = Done (Some rc)) ->
    forall st, generate_all L h fuel m g todo st0 = Done st ->
    (forall ids d, In (ids, d) calls -> forall rc, get_corridor h ids d st = Some rc -> build_corridor L fuel m g ids d = Done (Some rc)) /\
    (forall ids d rc, get_corridor h ids d st0 = Some rc -> get_corridor h ids d st = Some rc) /\
    forall ids d, In (ids, d) todo -> exists oc, build_corridor L fuel m g ids d = Done oc /\ get_corridor h ids d st = oc).
  { clear st ids d. induction todo as [|[ids d] todo IH]; intros st0 Sub Ok0 st E; cbn in E.
    - inversion E; subst. split; auto. split; auto. intros ? ? [].
    - destruct (generate_corridor L h fuel m g ids d st0) as [st1| |] eqn:G1; try discriminate.
      assert (Ok1 : forall ids d, In (ids, d) calls -> forall rc, get_corridor h ids d st1 = Some rc -> build_corridor L fuel m g ids d = Done (Some rc)).
      { intros ids' d' Hc rc Hg. destruct (N.eq_dec (h d' ids') (h d ids)) as [Eq|Ne].
        - assert ((ids', d') = (ids, d)) as X by (apply Inj; auto; apply Sub; cbn; auto). inversion X; subst.
          unfold generate_corridor, get_corridor in *. destruct (m_find (h d ids) st0) eqn:F; [inversion G1; subst; apply Ok0; auto|].
          destruct (build_corridor L fuel m g ids d) as [[rc'|]| |] eqn:Bu; inversion G1; subst.
          + rewrite m_find_insert_same in Hg. congruence.
          + congruence.
        - rewrite (get_generate m g L h fuel ids d st0 st1 ids' d' G1 Ne) in Hg. auto. }
      destruct (IH st1 (fun x H => Sub x (or_intror H)) Ok1 st E) as (J1 & J2 & J3). split; auto. split.
      { intros ids' d' rc Hg. apply J2. eapply get_generate_present; eauto. }
      intros ids' d' [X|Hin]; [|auto]. inversion X; subst ids' d'.
      assert (Here : In (ids, d) calls) by (apply Sub; cbn; auto).
      destruct (get_corridor h ids d st1) as [rc|] eqn:Hg.
      { exists (Some rc). split; [apply Ok1; auto|apply J2; auto]. }
      assert (Bn : build_corridor L fuel m g ids d = Done None).
      { unfold generate_corridor, get_corridor in *. destruct (m_find (h d ids) st0) eqn:F; [inversion G1; subst; congruence|].
        destruct (build_corridor L fuel m g ids d) as [[rc'|]| |] eqn:Bu; inversion G1; subst; auto.
        rewrite m_find_insert_same in Hg. discriminate. }
      exists None. split; auto. destruct (get_corridor h ids d st) as [rc|] eqn:Hs; auto.
      rewrite (J1 ids d Here rc Hs) in Bn. discriminate. }
  intros E Hin. destruct (A calls [] (fun x H => H)) with (st := st) as (_ & _ & J); auto. discriminate.
Qed.

(* the overload for a start and a goal lane: the roads of the lanes of a shortest drivable path, and the
   start lane's direction *)
Theorem C41_corridor_to_goal {P : Type} (m : xmap P) g L h fuel ver D a b st' oc :
  map_ok m -> generate m = Some g ->
  corridor_to_goal L h fuel ver D m g (Some a) (Some b) [] = Done (st', oc) ->
  exists path ids, find_drivable_lane_path ver D g (l_id a) (l_id b) = Some path /\
    Forall2 (fun id r => exists l, lane_of m r l /\ l_id l = id) path ids /\
    build_corridor L fuel m g ids (l_dir a) = Done oc /\ (oc = None <-> path = []).
Proof.
  intros OK G E. unfold corridor_to_goal in E.
  destruct (find_drivable_lane_path ver D g (l_id a) (l_id b)) as [path|]; [|discriminate].
  set (rd := fold_right _ _ _) in E.
  assert (Rd : forall ids, rd = Some ids -> Forall2 (fun id r => exists l, lane_of m r l /\ l_id l = id) path ids).
  { subst rd. clear E. induction path as [|x path IH]; intros ids E; cbn in E; [inversion E; constructor|].
    destruct (road_for_lane g x) as [r|] eqn:Rx; [|discriminate].
    destruct (fold_right _ (Some []) path) as [rs|]; [|discriminate]. inversion E; subst. constructor; [|auto].
    destruct (generate_full m g OK G) as ((Bs & _) & _). unfold road_for_lane, vertex_by_lane in Rx.
    destruct (find_v (g_v g) x) as [i|] eqn:Fx; [|discriminate]. inversion Rx; subst.
    destruct (find_v_Some _ _ _ Fx) as (v & Nv & Ev).

    destruct (base_lane m g v OK Bs (nth_error_In _ _ Nv)) as (Hl & El). exists (v_lane v).
    unfold vroad. rewrite Nv. split; auto. congruence. }
  destruct rd as [ids|]; [|discriminate].
  exists path, ids. specialize (Rd ids eq_refl). split; auto. split; auto.
  unfold generate_corridor, get_corridor in E. cbn [m_find] in E.
  destruct (build_corridor L fuel m g ids (l_dir a)) as [[rc|]| |] eqn:Bu; inversion E; subst.
  - rewrite ?m_find_insert_same, ?N.eqb_refl. split; auto. split; [discriminate|]. intros ->. inversion Rd; subst. discriminate.
  - cbn. split; auto. split; auto. intros _. destruct ids as [|f r]; [inversion Rd; auto|].
    unfold build_corridor in Bu. destruct (gen_roads m g (f :: r)); [|discriminate]. destruct (link_roads L g (f :: r) _); [|discriminate].
    destruct (calc_corridors L fuel _ f) as [[? ?]| |]; discriminate.
Qed.

(* Agent::GenerateRoadCorridor: an agent with a goal but no route crashes exactly when no corridor is found *)
Theorem C41_agent_without_route {P : Type} (m : xmap P) g L h fuel ver D start goal ar st st' oc :
  ar_ids ar = [] -> corridor_to_goal L h fuel ver D m g start goal st = Done (st', oc) ->
  agent_generate L h fuel ver D m g true start goal ar st =
  match oc with
  | Some rc => Done (st', mkAR (rc_ids rc) (rc_dir rc) (Some rc), true)
  | None => Crash
  end.
Proof. intros E C. unfold agent_generate. rewrite E, C. destruct oc; reflexivity. Qed.
Theorem C41_agent_without_goal {P : Type} (m : xmap P) g L h fuel ver D start goal ar st :
  ar_ids ar = [] -> agent_generate (P:=P) L h fuel ver D m g false start goal ar st = Done (st, ar, false).
Proof. intros E. unfold agent_generate. now rewrite E. Qed.
Theorem C41_agent_with_route {P : Type} (m : xmap P) g L h fuel ver D hg start goal ar rc :
  ar_ids ar <> [] -> build_corridor L fuel m g (ar_ids ar) (ar_dir ar) = Done (Some rc) ->
  exists st', agent_generate L h fuel ver D m g hg start goal ar [] = Done (st', mkAR (ar_ids ar) (ar_dir ar) (Some rc), true).
Proof.
  intros E Bu. unfold agent_generate. destruct (ar_ids ar) as [|f r] eqn:Ei; [congruence|].
  unfold generate_corridor, get_corridor. cbn [m_find]. rewrite Bu. rewrite m_find_insert_same. eauto.
Qed.
