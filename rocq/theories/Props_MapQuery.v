(* C98: where is a point on the map? C99: maps from a CSV table. C100: giving an interface another map. *)
From Coq Require Import List NArith ZArith QArith Qminmax Bool Arith Lia Lqa Permutation.
From Verif Require Import Model_Map Model_Roadgraph Model_RoadSearch Model_Intersection Model_Corridor
  Spec_Roadgraph Spec_RoadSearch Model_MapQuery Spec_MapQuery Proof_Map Proof_Roadgraph Proof_Roadgraph2 Proof_Roadgraph3
  Props_Roadgraph Props_Corridor Proof_MapQuery Toy_MapQuery.
Import ListNotations.
Local Open Scope Q_scope.

Lemma set_map_parts m mi0 mi : set_map m mi0 = Some mi ->
  exists g t, generate m = Some g /\ lane_tree m = Some t /\
    mi = mkMI (Some m) (Some g) t (envelope (map_points m)) (mi_corr mi0) (mi_csv mi0).
Proof.
  unfold set_map. destruct (generate m) as [g|]; [|discriminate]. destruct (lane_tree m) as [t|]; [|discriminate].
  intros E. inversion E. eauto.
Qed.

(* ------------------------------------------------------------------------------------ C98 *)

(* FindNearestXodrLanes: n different lanes (all, if there are fewer), never a reference line, none of them
   farther away than a lane left out -- where the distance of a lane is the distance of the straight line
   from the first to the last point of its outer border. False exactly if there is no lane at all. *)
Section C98.
  Context (nearest : list entry -> (xlane qp -> bool) -> qp -> nat -> list entry) (NOK : nearest_ok nearest).
  Context (covers : list qp -> qp -> bool).
  Context (m : xmap qp) (OK : map_ok m) (mi0 mi : miface) (SM : set_map m mi0 = Some mi).

  Let keep (drv : bool) (l : xlane qp) : bool := if drv then is_driving (l_type l) else true.
  Lemma keep_spec drv l : keep drv l = true <-> (drv = true -> l_type l = DRIVING).
  Proof.
    unfold keep. destruct drv; [|split; auto; discriminate]. destruct (l_type l); cbn; split; intros H; try discriminate; auto; specialize (H eq_refl); discriminate.
  Qed.
  Lemma eligible_tree drv l :
    eligible m drv l <-> exists e, In e (filter (fun e => keep drv (snd e)) (mi_tree mi)) /\ snd e = l.
  Proof.
    destruct (set_map_parts m mi0 mi SM) as (g & t & G & T & ->). cbn [mi_tree]. unfold eligible. split.
    - intros (R & Z0 & D). assert (I : In l (map snd t)) by (apply (tree_In m t l OK T); auto).
      apply in_map_iff in I as (e & <- & I). exists e. split; auto. apply filter_In. split; auto. now apply keep_spec.
    - intros (e & I & <-). apply filter_In in I as (I & K). pose proof (proj1 (keep_spec drv (snd e)) K) as K'.
      assert (J : In (snd e) (map snd t)) by now apply in_map. apply (tree_In m t _ OK T) in J. tauto.
  Qed.

  Lemma NoDup_app_l {A} (a b : list A) : NoDup (a ++ b) -> NoDup a.
  Proof. induction a; cbn; intros H; [constructor|]. inversion H; subst. constructor; auto. intros I. apply H2, in_or_app. auto. Qed.

  Theorem C98_nearest_lanes p n drv : (0 < n)%nat ->
    match find_nearest nearest mi p n drv with
    | Some ls =>
        ls <> [] /\ NoDup (map (fun l => l_id l) ls) /\ (forall l, In l ls -> eligible m drv l) /\
        (length ls <= n)%nat /\ ((length ls < n)%nat -> forall l, eligible m drv l -> In l ls) /\
        (forall l l', In l ls -> eligible m drv l' -> ~ In l' ls -> as_near p l l')
    | None => forall l, ~ eligible m drv l
    end.
  Proof.
    intros Hn. destruct (NOK (mi_tree mi) (keep drv) p n Hn) as (rest & PM & LN & NR).
    unfold find_nearest. fold (keep drv). set (res := nearest (mi_tree mi) (keep drv) p n) in *.
    assert (Inm : forall l, eligible m drv l <-> exists e, In e (res ++ rest) /\ snd e = l).
    { intros l. rewrite eligible_tree. split; intros (e & I & E); exists e; split; auto.
      - eapply Permutation_in; eauto.
      - eapply Permutation_in; [apply Permutation_sym|]; eauto. }
    destruct res as [|e0 es] eqn:ER.
    - intros l H. apply Inm in H as (e & I & _). cbn [app] in *. pose proof (Permutation_length PM) as PL.
      destruct rest; [destruct I|]. cbn in LN, PL. rewrite PL in LN. lia.
    - assert (In_es : forall e, In e (e0 :: es) -> In e (mi_tree mi)).
      { intros e I. assert (J : In e ((e0 :: es) ++ rest)) by (apply in_or_app; auto).
        apply (Permutation_in _ (Permutation_sym PM)) in J. apply filter_In in J. tauto. }
      assert (In_rest : forall e, In e rest -> In e (mi_tree mi)).
      { intros e I. assert (J : In e ((e0 :: es) ++ rest)) by (apply in_or_app; auto).
        apply (Permutation_in _ (Permutation_sym PM)) in J. apply filter_In in J. tauto. }
      assert (EO : forall e, In e (mi_tree mi) -> ent_ok e).
      { destruct (set_map_parts m mi0 mi SM) as (g & t & G & T & ->). cbn [mi_tree].
        destruct (tree_lanes m t T) as (_ & F). now apply Forall_forall. }
      split; [discriminate|]. split; [|split; [|split; [|split]]].
      + rewrite map_map. apply (NoDup_app_l _ (map (fun e => l_id (snd e)) rest)). rewrite <- map_app.
        apply (Permutation_NoDup (Permutation_map (fun e : entry => l_id (snd e)) PM)). apply NoDup_map_filter.
        destruct (set_map_parts m mi0 mi SM) as (g & t & G & T & ->). eapply tree_ids; eauto.
      + intros l I. apply in_map_iff in I as (e & <- & I). apply Inm. exists e. split; auto. apply in_or_app; auto.
      + etransitivity; [apply Nat.eq_le_incl, map_length|]. unfold entry in *. rewrite LN. apply Nat.le_min_l.
      + intros LT0. assert (LT : (length (e0 :: es) < n)%nat) by (eapply Nat.le_lt_trans; [apply Nat.eq_le_incl; symmetry; apply map_length|exact LT0]). clear LT0. unfold entry in *. revert LT. intros LT l H. apply Inm in H as (e & I & <-). apply in_map.
        pose proof (Permutation_length PM) as PL. rewrite app_length in PL.
        assert (rest = []) as -> by (destruct rest; [auto|exfalso; unfold entry in *; cbn [length] in *; lia]). now rewrite app_nil_r in I.
      + intros l l' I H NI. apply in_map_iff in I as (e & <- & I). apply Inm in H as (e' & I' & <-).
        apply in_app_or in I' as [I'|I']; [exfalso; apply NI, in_map; auto|]. apply entry_as_near; auto.
  Qed.

  Lemma filter_length_le {A} (f : A -> bool) (l : list A) : (length (filter f l) <= length l)%nat.
  Proof. induction l as [|x l IH]; cbn; [lia|]. destruct (f x); cbn; lia. Qed.

  (* the answer does not depend on the R-tree when the caller's point and lanes leave no choice: asking for as
     many lanes as there are returns all of them *)
  Theorem C98_all_lanes p n drv : (0 < n)%nat -> (length (lanes_list m) <= n)%nat ->
    (exists l, eligible m drv l) ->
    exists ls, find_nearest nearest mi p n drv = Some ls /\ forall l, In l ls <-> eligible m drv l.
  Proof.
    intros Hn Le (l0 & E0). destruct (NOK (mi_tree mi) (keep drv) p n Hn) as (rest & PM & LN & NR).
    unfold find_nearest. fold (keep drv). set (res := nearest (mi_tree mi) (keep drv) p n) in *.
    assert (LT : (length (filter (fun e => keep drv (snd e)) (mi_tree mi)) <= n)%nat).
    { etransitivity; [|exact Le]. destruct (set_map_parts m mi0 mi SM) as (g & t & G & T & ->). cbn [mi_tree].
      destruct (tree_lanes m t T) as (T1 & _). etransitivity; [apply filter_length_le|].
      rewrite <- (map_length snd t), T1. etransitivity; [apply filter_length_le|]. now rewrite map_length. }
    assert (rest = []) as ->.
    { pose proof (Permutation_length PM) as PL. rewrite app_length in PL. destruct rest; auto. exfalso. unfold entry in *. cbn [length] in *. lia. }
    rewrite app_nil_r in PM.
    assert (M : forall l, In l (map snd res) <-> eligible m drv l).
    { intros l. rewrite in_map_iff, eligible_tree. split; intros (e & A & B); exists e; split; auto.
      - eapply Permutation_in; [apply Permutation_sym|]; eauto.
      - eapply Permutation_in; eauto. }
    destruct res as [|e es] eqn:R'.
    - apply M in E0. destruct E0.
    - exists (map snd (e :: es)). split; auto.
  Qed.

  (* FindXodrLane: a lane it returns is a lane of the map whose ring holds the point; it returns null only if
     none of the 20 nearest lanes holds it, hence, on a map with at most 20 lanes, exactly if no lane does. *)
  Lemma first_holding_spec p ls : (forall l, In l ls -> exists r, lane_of m r l) ->
    exists res, first_holding covers mi p ls = Some res /\
      match res with
      | Some l => exists a b, ls = a ++ l :: b /\ holds covers m l p /\ forall l', In l' a -> ~ holds covers m l' p
      | None => forall l, In l ls -> ~ holds covers m l p
      end.
  Proof.
    induction ls as [|l ls IH]; intros H; cbn [first_holding].
    - exists None. split; auto.
    - destruct (H l (or_introl eq_refl)) as (r & Hr).
      destruct (is_in_lane_spec covers m mi0 mi p r l OK SM Hr) as (b & -> & Hb). destruct b.
      + exists (Some l). split; auto. exists [], ls. split; auto. split; [now apply Hb|intros ? []].
      + destruct IH as (res & -> & HR); [intros; apply H; now right|]. exists res. split; auto.
        assert (NH : ~ holds covers m l p) by (intros X; apply Hb in X; discriminate).
        destruct res as [l'|].
        * destruct HR as (a & b & -> & H1 & H2). exists (l :: a), b. split; auto. split; auto. intros x [<-|I]; auto.
        * intros x [<-|I]; auto.
  Qed.

  Theorem C98_find_lane p :
    exists res, find_lane nearest covers mi p = Some res /\
    match res with
    | Some l => eligible m false l /\ holds covers m l p /\
        exists a b, find_nearest nearest mi p 20 false = Some (a ++ l :: b) /\ forall l', In l' a -> ~ holds covers m l' p
    | None => forall ls, find_nearest nearest mi p 20 false = Some ls -> forall l, In l ls -> ~ holds covers m l p
    end /\
    ((length (lanes_list m) <= 20)%nat -> (res = None <-> forall l, ~ holds covers m l p)).
  Proof.
    assert (HE : forall l, holds covers m l p -> eligible m false l).
    { intros l (ring & (r & s & i & q & rest & A & B & _ & Z0 & _) & _). split; [exists r, s; auto|]. split; auto. discriminate. }
    unfold find_lane. pose proof (C98_nearest_lanes p 20 false (le_n_S _ _ (Nat.le_0_l 19))) as N.
    destruct (find_nearest nearest mi p 20 false) as [ls|] eqn:F.
    - destruct N as (_ & _ & El & _). destruct (first_holding_spec p ls) as (res & E & H).
      { intros l I. apply El in I. apply I. }
      exists res. split; auto. destruct res as [l|].
      + destruct H as (a & b & -> & H & Ha). split; [split; [apply El, in_elt|split; [auto|exists a, b; auto]]|]. intros _. split; [discriminate|].
        intros X. exfalso. eapply X; eauto.
      + split; [intros ls' X; inversion X; subst; auto|]. intros Le. split; auto. intros _ l Hl.
        destruct (C98_all_lanes p 20 false) as (ls' & F' & A); [lia|auto|exists l; auto|]. rewrite F in F'. inversion F'; subst.
        apply (H l); auto. apply A; auto.
    - exists None. split; auto. split; [discriminate|]. intros _. split; auto. intros _ l Hl. apply (N l). auto.
  Qed.

  (* FindCurrentLane and FindCurrentRoad: the lane's id and its road; without a lane they dereference null. *)
  Theorem C98_current_lane_and_road p :
    match find_lane nearest covers mi p with
    | Some (Some l) => exists r, lane_of m r l /\ current_lane_id nearest covers mi p = Some (l_id l) /\
                         current_road_id nearest covers mi p = Some r
    | _ => current_lane_id nearest covers mi p = None /\ current_road_id nearest covers mi p = None
    end.
  Proof.
    destruct (C98_find_lane p) as (res & E & H & _). unfold current_road_id, current_lane_id. rewrite E.
    destruct res as [l|]; [|auto]. destruct H as (((r & Hr) & _) & _). exists r. split; auto. split; auto.
    destruct (set_map_parts m mi0 mi SM) as (g & t & G & T & ->). cbn [mi_graph].
    assert (B : built m g) by (right; exact G).
    destruct (C61_vertices m g OK B) as (V & _). apply V in Hr. tauto.
  Qed.

  (* the bounding box: the smallest box around all borders and reference lines *)
  Theorem C98_bounding_box :
    match mi_bbox mi with
    | Some b => exists pts, (forall q, In q pts <-> exists r l, lane_of m r l /\ In q (l_line l)) /\ is_box pts b
    | None => forall r l, lane_of m r l -> l_line l = []
    end.
  Proof.
    destruct (set_map_parts m mi0 mi SM) as (g & t & G & T & ->). cbn [mi_bbox].
    pose proof (envelope_box (map_points m)) as B. destruct (envelope (map_points m)) as [b|].
    - exists (map_points m). split; auto. intros q. now apply map_points_In.
    - intros r l Hl. destruct (l_line l) as [|q rest] eqn:L; auto. exfalso.
      assert (I : In q (map_points m)) by (apply map_points_In; auto; exists r, l; rewrite L; split; [auto|now left]).
      rewrite B in I. destruct I.
  Qed.
End C98.

(* the queries of an interface without a map *)
Theorem C98_no_map nearest covers p n drv : nearest_ok nearest -> (0 < n)%nat ->
  find_nearest nearest new_iface p n drv = None /\ find_lane nearest covers new_iface p = Some None.
Proof.
  intros NOK Hn.
  assert (A : forall n drv, (0 < n)%nat -> find_nearest nearest new_iface p n drv = None).
  { clear n drv Hn. intros n drv Hn. unfold find_nearest.
    destruct (NOK (mi_tree new_iface) (fun l => if drv then is_driving (l_type l) else true) p n Hn) as (rest & PM & _).
    cbn [mi_tree new_iface filter] in *. apply Permutation_nil in PM. apply app_eq_nil in PM as (-> & _). reflexivity. }
  split; [now apply A|]. unfold find_lane. rewrite A by lia. reflexivity.
Qed.

(* The corridor between a point and a goal region: nothing without a driving lane; otherwise the corridor
   built from the roads of a drivable lane path from a lane nearest to the start to a lane nearest to the goal's
   center, in the direction of the start lane. *)
Definition store_ok (L : line_ops qp) h fuel m g (st : kmap (rcorr qp)) : Prop :=
  forall ids d rc, m_find (h d ids) st = Some rc -> build_corridor L fuel m g ids d = Done (Some rc).

Section C98Corridor.
  Context (nearest : list entry -> (xlane qp -> bool) -> qp -> nat -> list entry) (NOK : nearest_ok nearest).
  Context (m : xmap qp) (OK : map_ok m) (mi0 mi : miface) (SM : set_map m mi0 = Some mi).
  Context (g : graph qp) (G : generate m = Some g).
  Context (L : line_ops qp) (h : hash_fn) (fuel : nat) (ver : nv_version) (D : dijkstra qp).

  Definition a_nearest_driving_lane (p : qp) (a : xlane qp) : Prop :=
    eligible m true a /\ forall l, eligible m true l -> l <> a -> as_near p a l.

  Lemma nearest_one p :
    match find_nearest nearest mi p 1 true with
    | Some (a :: _) => a_nearest_driving_lane p a
    | Some [] => False
    | None => forall l, ~ eligible m true l
    end.
  Proof.
    pose proof (C98_nearest_lanes nearest NOK m OK mi0 mi SM p 1 true (le_n 1)) as N.
    destruct (find_nearest nearest mi p 1 true) as [[|a r]|]; auto.
    - destruct N as (N & _). congruence.
    - destruct N as (_ & _ & El & Le & _ & NR). cbn in Le. assert (r = []) as -> by (destruct r; [auto|cbn in Le; lia]).
      split; [apply El; now left|]. intros l H NE. apply NR; auto; [now left|]. intros [X|[]]; congruence.
  Qed.

  Theorem C98_corridor_between_points start goal mi' oc :
    store_ok L h fuel m g (mi_corr mi) ->
    corridor_from_points nearest L h fuel ver D start goal mi = Done (mi', oc) ->
    ((forall l, ~ eligible m true l) /\ oc = None /\ mi' = mi) \/
    exists a b path ids, a_nearest_driving_lane start a /\ a_nearest_driving_lane goal b /\
      find_drivable_lane_path ver D g (l_id a) (l_id b) = Some path /\
      Forall2 (fun id r => exists l, lane_of m r l /\ l_id l = id) path ids /\
      build_corridor L fuel m g ids (l_dir a) = Done oc /\ (oc = None <-> path = []).
  Proof.
    intros SO E. unfold corridor_from_points, lane_at_polygon in E.
    pose proof (nearest_one start) as N1. pose proof (nearest_one goal) as N2.
    destruct (find_nearest nearest mi start 1 true) as [[|a r1]|]; [destruct N1| |inversion E; subst; left; auto].
    destruct (find_nearest nearest mi goal 1 true) as [[|b r2]|]; [destruct N2| |inversion E; subst; left; auto].
    right. destruct (set_map_parts m mi0 mi SM) as (g' & t & G' & T & Emi). rewrite G in G'. inversion G'; subst g'; clear G'.
    rewrite Emi in E. cbn [mi_map mi_graph mi_corr] in E. rewrite Emi in SO. cbn [mi_corr] in SO.
    destruct (corridor_to_goal L h fuel ver D m g (Some a) (Some b) (mi_corr mi0)) as [[st oc']| |] eqn:C; try discriminate.
    inversion E; subst oc'. clear E. unfold corridor_to_goal in C.
    destruct (find_drivable_lane_path ver D g (l_id a) (l_id b)) as [path|] eqn:FP; [|discriminate].
    destruct (fold_right _ (Some []) path) as [ids|] eqn:FR; [|discriminate].
    assert (C0 : exists st0 oc0, corridor_to_goal L h fuel ver D m g (Some a) (Some b) [] = Done (st0, oc0) /\ oc0 = oc).
    { unfold corridor_to_goal. rewrite FP, FR. unfold generate_corridor, get_corridor in *. cbn [m_find].
      destruct (m_find (h (l_dir a) ids) (mi_corr mi0)) as [rc|] eqn:F.
      - rewrite (SO _ _ _ F). inversion C; subst. rewrite F. exists (m_insert (h (l_dir a) ids) rc []), (Some rc). split; auto.
        cbn. rewrite N.eqb_refl. reflexivity.
      - destruct (build_corridor L fuel m g ids (l_dir a)) as [[rc|]| |]; inversion C; subst.
        + exists (m_insert (h (l_dir a) ids) rc []), (Some rc). split; [cbn; rewrite N.eqb_refl; auto|].
          now rewrite m_find_insert_same.
        + exists [], None. split; auto. }
    destruct C0 as (st0 & oc0 & C0 & ->).
    destruct (C41_corridor_to_goal m g L h fuel ver D a b st0 oc OK G C0) as (path' & ids' & A1 & A2 & A3 & A4).
    exists a, b, path', ids'. rewrite FP in A1. inversion A1; subst. auto 10.
  Qed.

  (* the hypothesis on the store holds at the start and is kept by every request, if no two requests share a
     hash *)
  Theorem C98_store_empty : store_ok L h fuel m g [].
  Proof. intros ids d rc E. discriminate. Qed.
  Theorem C98_store_kept ids d st st' :
    (forall d1 i1 d2 i2, h d1 i1 = h d2 i2 -> d1 = d2 /\ i1 = i2) ->
    store_ok L h fuel m g st -> generate_corridor L h fuel m g ids d st = Done st' -> store_ok L h fuel m g st'.
  Proof.
    intros Inj SO E. unfold generate_corridor in E. destruct (m_find (h d ids) st); [inversion E; subst; auto|].
    destruct (build_corridor L fuel m g ids d) as [[rc|]| |] eqn:B; inversion E; subst; auto.
    intros i2 d2' rc2 F. destruct (N.eq_dec (h d2' i2) (h d ids)) as [Eq|Ne].
    - rewrite Eq, m_find_insert_same in F. apply Inj in Eq as (-> & ->). congruence.
    - rewrite m_find_insert_other in F by exact Ne. eauto.
  Qed.
End C98Corridor.

(* The nearest lane need not be the lane one stands on, because distances are measured to the straight line
   between the ends of the outer border: the corridor from a point in the right-hand lane starts in the oncoming
   lane. *)
Lemma two_way_section r s : section_of two_way r s -> r = 1%N /\ s = secq [W1; W2; W3].
Proof. intros (rd & Hr & Hs). cbn in Hr. destruct Hr as [E|[]]. inversion E; subst. cbn in Hs. destruct Hs as [<-|[]]. auto. Qed.
Lemma two_way_lane r l : lane_of two_way r l -> l = W1 \/ l = W2 \/ l = W3.
Proof.
  intros (s & S & I). apply two_way_section in S as (_ & ->). unfold in_section in I. cbn in I.
  destruct I as [I|[I|[I|[]]]]; inversion I; auto.
Qed.
Lemma two_way_in l : In l [W1; W2; W3] -> lane_of two_way 1 l.
Proof.
  intros H. exists (secq [W1; W2; W3]). split; [exists (mkRoad (1000000%N, false) (1000000%N, false) [secq [W1; W2; W3]]); cbn; auto|].
  unfold in_section. cbn [In] in H. destruct H as [<-|[<-|[<-|[]]]]; cbn; auto.
Qed.
Theorem C98_nearest_is_not_where_you_are_refuted nearest covers :
  nearest_ok nearest ->
  (forall l ring, ring_of two_way l ring -> (covers ring (5, -1) = true <-> l = W2)) ->
  exists mi, set_map two_way new_iface = Some mi /\
    find_lane nearest covers mi (5, -1) = Some (Some W2) /\ l_dir W2 = FORWARD /\
    find_nearest nearest mi (5, -1) 1 true = Some [W3] /\ l_dir W3 = BACKWARD.
Proof.
  intros NOK CV. exists two_way_iface. split; [apply two_way_set|].
  assert (R2 : ring_of two_way W2 (l_line W1 ++ rev (l_line W2) ++ [(0, 0)])).
  { destruct (two_way_in W1) as (s & S1 & I1); [cbn; auto|]. destruct (two_way_in W2) as (s' & S2 & I2); [cbn; auto|].
    pose proof (two_way_section _ _ S1) as (_ & ->). pose proof (two_way_section _ _ S2) as (_ & ->).
    exists 1%N, (secq [W1; W2; W3]), W1, (0, 0), [(10, 0)]. repeat split; auto. cbn. discriminate. }
  assert (H2 : holds covers two_way W2 (5, -1)).
  { eexists. split; [exact R2|]. now apply (CV W2 _ R2). }
  split; [|split; [reflexivity|split; [|reflexivity]]].
  - destruct (C98_find_lane nearest NOK covers two_way two_way_ok new_iface two_way_iface two_way_set (5, -1)) as (res & E & R & N).
    rewrite E. destruct res as [l|].
    + destruct R as (_ & (ring & R1 & R3) & _). apply (CV l ring R1) in R3. now subst.
    + exfalso. destruct N as (N & _); [cbn; lia|]. exact (N eq_refl W2 H2).
  - pose proof (nearest_one nearest NOK two_way two_way_ok new_iface two_way_iface two_way_set (5, -1)) as N.
    assert (E3 : eligible two_way true W3).
    { split; [exists 1%N; apply two_way_in; cbn; auto|]. split; [cbn; discriminate|reflexivity]. }
    pose proof (C98_nearest_lanes nearest NOK two_way two_way_ok new_iface two_way_iface two_way_set (5, -1) 1 true (le_n 1)) as N1.
    destruct (find_nearest nearest two_way_iface (5, -1) 1 true) as [[|a r]|]; [destruct N| |exfalso; exact (N _ E3)].
    destruct N1 as (_ & _ & _ & Le & _). cbn in Le. assert (r = []) as -> by (destruct r; [auto|cbn in Le; lia]).
    destruct N as (((r & Hr) & Z0 & _) & NR). do 2 f_equal. apply two_way_lane in Hr as [Hr|[Hr|Hr]]; subst a; auto.
    + exfalso. now apply Z0.
    + exfalso. destruct (NR W3 E3 ltac:(discriminate) (0, -6) (10, -6) (0, 3) (10, 3) (5, 3)) as (q & (t & T0 & T1 & X & Y) & D).
      * split; [exists [(10, -6)]|exists [(0, -6)]]; reflexivity.
      * split; [exists [(10, 3)]|exists [(0, 3)]]; reflexivity.
      * exists (1#2). cbn [fst snd]. repeat split; lra.
      * unfold d2 in D. cbn [fst snd] in *. assert (S : snd q == -6) by lra. rewrite S in D.
        pose proof (sq_pos (5 - fst q)). lra.
Qed.

(* FindXodrLane only looks at the 20 nearest lanes: on a larger map it can miss the only lane that holds the
   point. *)
Definition u_point : qp := (102, 50).
Lemma u_turn_section r s : section_of u_turn r s -> s = secq [U1; U2] \/ s = secq (P0 :: map Pk (seq 1 20)).
Proof.
  intros (rd & Hr & Hs). unfold u_turn in Hr. cbn [m_roads In] in Hr. destruct Hr as [E|[E|[]]]; inversion E; subst; cbn [r_sections In] in Hs; destruct Hs as [<-|[]]; auto.
Qed.
Lemma u_far : forall e, In e (mi_tree u_turn_iface) -> snd e = U2 \/ entry_d2 u_point e < 10000.
Proof.
  assert (A : forallb (fun e => (l_id (snd e) =? 2)%N || negb (Qle_bool 10000 (entry_d2 u_point e))) (mi_tree u_turn_iface) = true) by (vm_compute; reflexivity).
  intros e I. rewrite forallb_forall in A. specialize (A e I). apply orb_true_iff in A as [A|A].
  - left. apply N.eqb_eq in A. destruct (set_map_parts u_turn new_iface u_turn_iface u_turn_set) as (g & t & G & T & Em).
    rewrite Em in I. cbn [mi_tree] in I. apply (in_map snd) in I. apply (tree_In u_turn t _ u_turn_ok T) in I as ((r & Hr) & _).
    assert (H2 : lane_of u_turn 1 U2).
    { exists (secq [U1; U2]). split; [|cbn; auto]. eexists. split; [left; reflexivity|cbn; auto]. }
    apply (lane_id_inj u_turn r 1%N (snd e) U2 u_turn_ok Hr H2). exact A.
  - right. apply Qnot_le_lt. intros H. apply Qle_bool_iff in H. rewrite H in A. cbn [negb] in A. exact (diff_false_true A).
Qed.
Lemma u_near e : In e (mi_tree u_turn_iface) -> snd e = U2 -> 10000 <= entry_d2 u_point e.
Proof.
  assert (A : forallb (fun e => negb (l_id (snd e) =? 2)%N || (Qle_bool 10000 (entry_d2 u_point e))) (mi_tree u_turn_iface) = true) by (vm_compute; reflexivity).
  intros I E. rewrite forallb_forall in A. specialize (A e I). rewrite E in A. cbn [l_id U2 ql N.eqb Pos.eqb negb orb] in A. apply Qle_bool_iff. exact A.
Qed.
Theorem C98_find_lane_misses_refuted nearest covers :
  nearest_ok nearest ->
  (forall l ring, ring_of u_turn l ring -> (covers ring u_point = true <-> l = U2)) ->
  exists mi, set_map u_turn new_iface = Some mi /\
    holds covers u_turn U2 u_point /\ find_lane nearest covers mi u_point = Some None.
Proof.
  intros NOK CV. exists u_turn_iface. split; [apply u_turn_set|]. split.
  { exists (l_line U1 ++ rev (l_line U2) ++ [(0, 0)]).
    assert (R2 : ring_of u_turn U2 (l_line U1 ++ rev (l_line U2) ++ [(0, 0)])).
    { exists 1%N, (secq [U1; U2]), U1, (0, 0), [(100, 0); (100, 100); (0, 100)].
      split; [eexists; split; [left; reflexivity|cbn; auto]|]. repeat split; cbn; auto. discriminate. }
    split; auto. now apply (CV U2 _ R2). }
  destruct (C98_find_lane nearest NOK covers u_turn u_turn_ok new_iface u_turn_iface u_turn_set u_point) as (res & E & R & _).
  rewrite E. destruct res as [l|]; [|reflexivity]. exfalso.
  destruct R as (_ & (ring & R1 & R2) & a & b & F & _). apply (CV l ring R1) in R2. subst l.
  unfold find_nearest in F. cbv beta iota in F.
  destruct (NOK (mi_tree u_turn_iface) (fun _ => true) u_point 20%nat ltac:(lia)) as (rest & PM & LN & NR).
  assert (FT : forall l : list (qp * qp * xlane qp), filter (fun _ => true) l = l) by (clear; intros l; induction l as [|x l IH]; [reflexivity|cbn; now rewrite IH]).
  cbv beta in PM, LN. rewrite (FT (mi_tree u_turn_iface)) in PM, LN. clear FT.
  remember (nearest (mi_tree u_turn_iface) (fun _ => true) u_point 20%nat) as res eqn:Eres. clear Eres.
  assert (LT : length (mi_tree u_turn_iface) = 21%nat) by (vm_compute; reflexivity).
  assert (Hin : exists e, In e res /\ snd e = U2).
  { assert (In U2 (map snd res)) as I.
    { destruct res as [|x xs]; [discriminate F|]. assert (F' : map snd (x :: xs) = a ++ U2 :: b) by congruence. rewrite F'. apply in_elt. }
    apply in_map_iff in I as (e & A & B). eauto. }
  destruct Hin as (e & Ie & Ee).
  assert (TI : forall x, In x (res ++ rest) -> In x (mi_tree u_turn_iface)).
  { intros x I. eapply Permutation_in; [apply Permutation_sym; exact PM|exact I]. }
  destruct rest as [|y rest].
  - rewrite app_nil_r in PM. apply Permutation_length in PM. unfold entry in *. rewrite LN, LT in PM. discriminate PM.
  - assert (Iy : In y (mi_tree u_turn_iface)) by (apply TI, in_or_app; right; left; reflexivity).
    assert (Iee : In e (mi_tree u_turn_iface)) by (apply TI, in_or_app; left; exact Ie).
    pose proof (u_near e Iee Ee) as D1. pose proof (NR e y Ie (or_introl eq_refl)) as D2.
    destruct (u_far y Iy) as [Ey|Dy]; [|clear - D1 D2 Dy; lra].
    destruct (set_map_parts u_turn new_iface u_turn_iface u_turn_set) as (g & t & G & T & Em).
    pose proof (tree_ids u_turn t u_turn_ok T) as ND. replace t with (mi_tree u_turn_iface) in ND by (rewrite Em at 1; reflexivity).
    apply (Permutation_NoDup (Permutation_map (fun e : entry => l_id (snd e)) PM)) in ND.
    apply in_split in Ie as (r1 & r2 & Er). rewrite Er in ND. rewrite map_app in ND. cbn [map] in ND.
    rewrite map_app in ND. cbn [map] in ND. rewrite <- app_assoc in ND. apply NoDup_remove_2 in ND. apply ND.
    rewrite Ee, Ey. rewrite !in_app_iff. right. right. left. reflexivity.
Qed.

(* ------------------------------------------------------------------------------------ C99 *)

(* a line of the table: an ignored first column, then the centre, right and left point as x, y; more columns are
   ignored. The offset is subtracted from every point. *)
Definition row_ok (xo yo : Q) (r : csv_line) (t : qp * qp * qp) : Prop :=
  exists c0 cx cy rx ry lx ly more,
    r = c0 :: Some cx :: Some cy :: Some rx :: Some ry :: Some lx :: Some ly :: more /\
    t = ((cx - xo, cy - yo), (rx - xo, ry - yo), (lx - xo, ly - yo)).
Definition row_bad (r : csv_line) : Prop := forall xo yo t, ~ row_ok xo yo r t.

Lemma row_cells xo yo r :
  match csv_point xo yo r 1 2, csv_point xo yo r 3 4, csv_point xo yo r 5 6 with
  | Some c, Some ri, Some le => row_ok xo yo r (c, ri, le)
  | _, _, _ => row_bad r
  end.
Proof.
  unfold csv_point, cell.
  destruct r as [|c0 r]; [intros ? ? ? (? & ? & ? & ? & ? & ? & ? & ? & E & _); discriminate|].
  do 6 (destruct r as [|[?|] r]; [cbn [nth_error]; repeat (match goal with |- context [match ?x with Some _ => _ | None => _ end] => is_var x; destruct x end); intros ? ? ? (? & ? & ? & ? & ? & ? & ? & ? & E & _); discriminate| |cbn [nth_error]; repeat (match goal with |- context [nth_error r ?k] => destruct (nth_error r k) as [[?|]|] end); intros ? ? ? (? & ? & ? & ? & ? & ? & ? & ? & E & _); discriminate]).
  cbn [nth_error]. do 8 eexists. split; reflexivity.
Qed.
Lemma row_ok_fun xo yo r t t' : row_ok xo yo r t -> row_ok xo yo r t' -> t = t'.
Proof.
  intros (? & ? & ? & ? & ? & ? & ? & ? & E & ->) (? & ? & ? & ? & ? & ? & ? & ? & E' & ->). rewrite E in E'. now inversion E'; subst.
Qed.
Lemma csv_rows_spec xo yo ls :
  match csv_rows xo yo ls with
  | Some rows => Forall2 (row_ok xo yo) ls rows
  | None => exists r, In r ls /\ row_bad r
  end.
Proof.
  induction ls as [|r ls IH]; cbn [csv_rows]; [constructor|]. pose proof (row_cells xo yo r) as R.
  destruct (csv_point xo yo r 1 2); [|exists r; split; [now left|exact R]].
  destruct (csv_point xo yo r 3 4); [|exists r; split; [now left|exact R]].
  destruct (csv_point xo yo r 5 6); [|exists r; split; [now left|exact R]].
  destruct (csv_rows xo yo ls); [now constructor|]. destruct IH as (x & I & B). exists x. split; [now right|exact B].
Qed.

(* what the interface holds after the table was read *)
Definition table_iface (h : hash_fn) (rows : list (qp * qp * qp)) (se : qp * qp) (mi : miface) : miface :=
  let center := map (fun t => fst (fst t)) rows in
  let poly := map (fun t => snd t) rows ++ rev (map (fun t => snd (fst t)) rows) in
  mkMI (Some (mkMap [(0%N, mkRoad (1000000%N, false) (1000000%N, false) [[(0%N, csv_lane center)]])] []))
       (Some (mkGraph [mkVertex 0%N 0%N (csv_lane center) (Some poly)] [])) [(se, csv_lane center)] (envelope poly)
       (m_insert (h FORWARD [0%N]) (csv_corridor center poly) (mi_corr mi)) true.

(* Loading: a missing file changes nothing and is reported; a table without data rows, or with a row that lacks a
   number, is undefined (it throws or reads outside); every other table is loaded. *)
Theorem C99_missing_file h xo yo mi : set_csv h None xo yo mi = Done (mi, false).
Proof. reflexivity. Qed.
Theorem C99_load h ls xo yo mi :
  (exists rows se, rows <> [] /\ Forall2 (row_ok xo yo) (tl ls) rows /\
     line_ends (map (fun t => fst (fst t)) rows) = Some se /\
     set_csv h (Some ls) xo yo mi = Done (table_iface h rows se mi, true)) \/
  ((tl ls = [] \/ exists r, In r (tl ls) /\ row_bad r) /\ set_csv h (Some ls) xo yo mi = Crash).
Proof.
  unfold set_csv, csv_table. pose proof (csv_rows_spec xo yo (tl ls)) as R.
  destruct (csv_rows xo yo (tl ls)) as [rows|]; [|right; auto].
  cbv zeta. unfold set_polygon, add_lane, vertex_by_lane. cbn [g_v empty_graph app find_v v_id csv_lane l_id N.eqb snd fst].
  destruct rows as [|t rows].
  - right. split; [|reflexivity]. left. now inversion R.
  - left. cbn [map line_ends]. eexists (t :: rows), _. split; [discriminate|]. split; [exact R|]. split; reflexivity.
Qed.

Section C99.
  Context (h : hash_fn) (xo yo : Q) (ls : list csv_line) (mi0 mi : miface).
  Context (LD : set_csv h (Some ls) xo yo mi0 = Done (mi, true)).
  (* the three lines of the table *)
  Context (center right left : list qp).
  Context (RW : exists rows, Forall2 (row_ok xo yo) (tl ls) rows /\ center = map (fun t => fst (fst t)) rows /\
                  right = map (fun t => snd (fst t)) rows /\ left = map (fun t => snd t) rows).

  Lemma loaded : exists rows se, rows <> [] /\ line_ends center = Some se /\ center = map (fun t => fst (fst t)) rows /\
      right = map (fun t => snd (fst t)) rows /\ left = map (fun t => snd t) rows /\ mi = table_iface h rows se mi0.
  Proof.
    destruct RW as (rows & F & C & R & Lf). destruct (C99_load h ls xo yo mi0) as [(rows' & se & NE & F' & LE & E)|(_ & E)].
    - rewrite E in LD. inversion LD; subst mi.
      assert (rows' = rows) as ->.
      { clear - F F'. revert rows F. induction F' as [|x y l l' A B IH]; intros rows F; inversion F; subst; [reflexivity|].
        f_equal; [eapply row_ok_fun; eauto|auto]. }
      exists rows, se. rewrite C. auto 10.
    - rewrite E in LD. discriminate.
  Qed.

  (* every query for lanes returns the one lane: number 0, driving, forward, with the centre line *)
  Theorem C99_one_lane nearest p n drv : nearest_ok nearest -> (0 < n)%nat ->
    exists l, find_nearest nearest mi p n drv = Some [l] /\
      l_id l = 0%N /\ l_type l = DRIVING /\ l_dir l = FORWARD /\ l_line l = center.
  Proof.
    intros NOK Hn. destruct loaded as (rows & se & NE & LE & C & R & Lf & E). exists (csv_lane center). split; [|auto].
    rewrite E. unfold find_nearest, table_iface. cbv zeta. cbn [mi_tree]. rewrite <- C.
    destruct (NOK [(se, csv_lane center)] (fun l => if drv then is_driving (l_type l) else true) p n Hn) as (rest & PM & LN & _).
    set (res := nearest _ _ _ _) in *. cbn [filter snd] in PM, LN.
    replace (if drv then is_driving (l_type (csv_lane center)) else true) with true in PM, LN by now destruct drv.
    cbn [length] in LN. destruct n; [lia|]. cbn [Nat.min] in LN. rewrite Nat.min_0_r in LN.
    destruct res as [|e [|e' r]]; try discriminate LN. apply Permutation_length_1_inv in PM. cbn [app] in PM. inversion PM; subst. reflexivity.
  Qed.
  (* a point is on the road exactly if it lies in the polygon of the left points and the right points reversed *)
  Theorem C99_find_lane nearest covers p : nearest_ok nearest ->
    exists l, l_id l = 0%N /\ l_line l = center /\
      find_lane nearest covers mi p = Some (if covers (left ++ rev right) p then Some l else None).
  Proof.
    intros NOK. exists (csv_lane center). split; [reflexivity|]. split; [reflexivity|]. unfold find_lane.
    destruct (C99_one_lane nearest p 20 false NOK ltac:(lia)) as (l & F & I1 & I2 & I3 & I4). rewrite F.
    assert (l = csv_lane center) as ->.
    { unfold find_nearest in F. destruct loaded as (rows & se & NE & LE & C & R & Lf & E). rewrite E in F.
      unfold table_iface in F. cbv zeta in F. cbn [mi_tree] in F. rewrite <- C in F.
      destruct (NOK [(se, csv_lane center)] (fun _ : xlane qp => true) p 20%nat ltac:(lia)) as (rest & PM & _).
      destruct (nearest [(se, csv_lane center)] (fun _ : xlane qp => true) p 20%nat) as [|e es]; [discriminate|].
      assert (In e [(se, csv_lane center)]) as [<-|[]] by (eapply Permutation_in; [apply Permutation_sym; exact PM|now left]).
      inversion F. reflexivity. }
    cbn [first_holding]. unfold is_in_lane. destruct loaded as (rows & se & NE & LE & C & R & Lf & E). rewrite E.
    unfold table_iface. cbv zeta. cbn [mi_graph]. unfold vertex_by_lane.
    cbn [g_v find_v v_id csv_lane l_id N.eqb nth_error v_poly]. rewrite <- R, <- Lf. destruct (covers (left ++ rev right) p); reflexivity.
  Qed.
  Theorem C99_bounding_box : exists b, mi_bbox mi = Some b /\ is_box (left ++ rev right) b.
  Proof.
    destruct loaded as (rows & se & NE & LE & C & R & Lf & E). rewrite E. unfold table_iface. cbv zeta. cbn [mi_bbox].
    rewrite <- R, <- Lf. pose proof (envelope_box (left ++ rev right)) as B.
    destruct (envelope (left ++ rev right)) as [b|]; [eauto|]. exfalso. apply app_eq_nil in B as (B & _).
    rewrite Lf in B. destruct rows; [congruence|discriminate].
  Qed.
  (* the corridor of an agent, wherever it is, whatever its goal and its route were; and the corridor between any
     two points: road 0, forward, its only lane corridor along the centre line *)
  Definition is_table_corridor (rc : rcorr qp) : Prop :=
    rc_ids rc = [0%N] /\ rc_dir rc = FORWARD /\
    exists lc, rc_unique rc = [lc] /\ lane_corridor rc 0%N = Some lc /\ lc_chain lc = [(0%N, 0%N)] /\
      lc_center lc = center /\ lc_fine lc = center /\ lc_polygon lc = left ++ rev right.
  Theorem C99_agent_corridor nearest L fuel ver D pos goal ar :
    exists rc, agent_corridor nearest L h fuel ver D pos goal ar mi = Done (mi, mkAR [0%N] FORWARD (Some rc), true) /\
      is_table_corridor rc.
  Proof.
    destruct loaded as (rows & se & NE & LE & C & R & Lf & E). unfold agent_corridor. rewrite E. unfold table_iface. cbv zeta.
    cbn [mi_csv mi_corr]. unfold get_corridor. rewrite m_find_insert_same, <- C, <- R, <- Lf. eexists. split; [reflexivity|].
    split; [reflexivity|]. split; [reflexivity|]. eexists. repeat split.
  Qed.
  Theorem C99_corridor_between_points nearest L fuel ver D start goal : nearest_ok nearest ->
    exists rc, corridor_from_points nearest L h fuel ver D start goal mi = Done (mi, Some rc) /\ is_table_corridor rc.
  Proof.
    intros NOK. unfold corridor_from_points, lane_at_polygon.
    destruct (C99_one_lane nearest start 1 true NOK ltac:(lia)) as (l1 & F1 & I1 & _ & J1 & _). rewrite F1.
    destruct (C99_one_lane nearest goal 1 true NOK ltac:(lia)) as (l2 & F2 & I2 & _). rewrite F2. clear F1 F2.
    destruct loaded as (rows & se & NE & LE & C & R & Lf & E). rewrite E. unfold table_iface. cbv zeta. rewrite <- C, <- R, <- Lf.
    cbn [mi_map mi_graph mi_corr]. unfold corridor_to_goal. rewrite I1, I2, J1.
    assert (FP : forall poly, find_drivable_lane_path ver D (mkGraph [mkVertex 0%N 0%N (csv_lane center) (Some poly)] []) 0%N 0%N = Some [0%N]).
    { intros poly. unfold find_drivable_lane_path, find_path. cbn. destruct ver; reflexivity. }
    rewrite FP. cbn [fold_right]. unfold road_for_lane, vertex_by_lane. cbn [g_v find_v v_id N.eqb].
    unfold vroad. cbn [g_v nth_error v_road]. unfold generate_corridor, get_corridor. rewrite m_find_insert_same.
    rewrite m_find_insert_same. eexists. split; [reflexivity|].
    split; [reflexivity|]. split; [reflexivity|]. eexists. repeat split.
  Qed.
End C99.

(* ------------------------------------------------------------------------------------ C100 *)

(* Lanes, polygons, graph and bounding box always are those of the map set last, whatever was loaded before:
   every query of points has the answer of a fresh interface. *)
Theorem C100_point_queries_follow_the_map m mi1 mi2 a b :
  set_map m mi1 = Some a -> set_map m mi2 = Some b ->
  mi_bbox a = mi_bbox b /\ mi_map a = mi_map b /\ mi_graph a = mi_graph b /\
  forall nearest covers p, 
    (forall n drv, find_nearest nearest a p n drv = find_nearest nearest b p n drv) /\
    find_lane nearest covers a p = find_lane nearest covers b p /\
    current_road_id nearest covers a p = current_road_id nearest covers b p.
Proof.
  intros A B. destruct (set_map_parts _ _ _ A) as (g & t & G & T & ->). destruct (set_map_parts _ _ _ B) as (g' & t' & G' & T' & ->).
  assert (g' = g) as -> by congruence. assert (t' = t) as -> by congruence. repeat split; auto.
  - unfold find_lane, find_nearest. cbn [mi_tree].
    destruct (nearest t _ p 20%nat) as [|e es]; [reflexivity|]. induction (map snd (e :: es)) as [|l ls IH]; [reflexivity|].
    cbn [first_holding]. unfold is_in_lane in *. cbn [mi_graph] in *. rewrite IH. reflexivity.
  - unfold current_road_id, current_lane_id.
    replace (find_lane nearest covers (mkMI (Some m) (Some g) t (envelope (map_points m)) (mi_corr mi2) (mi_csv mi2)) p)
      with (find_lane nearest covers (mkMI (Some m) (Some g) t (envelope (map_points m)) (mi_corr mi1) (mi_csv mi1)) p); [reflexivity|].
    unfold find_lane, find_nearest. cbn [mi_tree].
    destruct (nearest t _ p 20%nat) as [|e es]; [reflexivity|]. induction (map snd (e :: es)) as [|l ls IH]; [reflexivity|].
    cbn [first_holding]. unfold is_in_lane in *. cbn [mi_graph] in *. rewrite IH. reflexivity.
Qed.

(* Corridors do not: a corridor that was requested once is returned for the same roads and direction after any
   number of maps, and its lanes are the lanes of the map it was built from. *)
Theorem C100_corridors_survive (L : line_ops qp) h fuel m1 mi0 mi1 ids d mi1' rc m2 mi2 :
  map_ok m1 -> set_map m1 mi0 = Some mi1 -> mi_corr mi1 = [] ->
  request_corridor L h fuel ids d mi1 = Done (mi1', Some rc) -> set_map m2 mi1' = Some mi2 ->
  request_corridor L h fuel ids d mi2 = Done (mi2, Some rc) /\
  forall q c, get_lane (rc_roads rc) q = Some c -> In (fst q) ids /\ lane_of m1 (fst q) (cl_lane c).
Proof.
  intros OK S1 E0 R S2. destruct (set_map_parts _ _ _ S1) as (g & t & G & T & Em).
  unfold request_corridor in R. rewrite E0 in R. cbn [m_find] in R. rewrite Em in R. cbn [mi_map mi_graph mi_corr] in R.
  rewrite Em in E0. cbn [mi_corr] in E0. rewrite E0 in R. unfold generate_corridor in R. cbn [m_find] in R.
  destruct (build_corridor L fuel m1 g ids d) as [[rc'|]| |] eqn:B; try discriminate.
  cbn [mi_tree mi_bbox mi_csv] in R.
  assert (ER : mi1' = mkMI (Some m1) (Some g) t (envelope (map_points m1)) (m_insert (h d ids) rc' []) (mi_csv mi0) /\
               get_corridor h ids d (m_insert (h d ids) rc' []) = Some rc) by (split; congruence).
  destruct ER as (-> & Gc). unfold get_corridor in Gc. rewrite m_find_insert_same in Gc. assert (rc' = rc) as -> by congruence.
  split.
  - destruct (set_map_parts _ _ _ S2) as (g2 & t2 & G2 & T2 & ->). unfold request_corridor. cbn [mi_corr].
    rewrite m_find_insert_same. reflexivity.
  - intros q c Hq. destruct (C41_lanes_of_the_roads m1 g L fuel ids d rc OK G B) as (A & _).
    destruct (A q c Hq) as (I & Nm). split; auto. apply Nm.
Qed.

(* Loading a table marks the interface for good: under any OpenDRIVE map set later, every agent still gets the
   table's corridor. *)
Theorem C100_table_mark_survives h xo yo ls mi0 mi1 m mi2 nearest L fuel ver D pos goal ar :
  set_csv h (Some ls) xo yo mi0 = Done (mi1, true) -> set_map m mi1 = Some mi2 ->
  exists rc, agent_corridor nearest L h fuel ver D pos goal ar mi1 = Done (mi1, mkAR [0%N] FORWARD (Some rc), true) /\
    agent_corridor nearest L h fuel ver D pos goal ar mi2 = Done (mi2, mkAR [0%N] FORWARD (Some rc), true).
Proof.
  intros C S. destruct (C99_load h ls xo yo mi0) as [(rows & se & NE & F & LE & E)|(_ & E)]; rewrite E in C; [|discriminate].
  assert (mi1 = table_iface h rows se mi0) as -> by congruence.
  destruct (set_map_parts _ _ _ S) as (g & t & G & T & ->). unfold agent_corridor, table_iface. cbv zeta. cbn [mi_csv mi_corr].
  unfold get_corridor. rewrite m_find_insert_same. eexists. split; reflexivity.
Qed.

(* ------------------------------------------------------------------------------------ concrete cases *)

(* even-odd point-in-polygon test *)
Fixpoint crossings (l : list qp) (p : qp) : bool :=
  match l with
  | a :: ((b :: _) as r) =>
      let c := xorb (Qle_bool (snd a) (snd p)) (Qle_bool (snd b) (snd p)) &&
               negb (Qle_bool (fst a + (snd p - snd a) * (fst b - fst a) / (snd b - snd a)) (fst p)) in
      xorb c (crossings r p)
  | _ => false
  end.

Lemma ring_fun m l ring ring' : map_ok m -> ring_of m l ring -> ring_of m l ring' -> ring = ring'.
Proof.
  intros OK (r & s & i & q & rest & S & Il & Ii & Z0 & Pi & Li & ->) (r' & s' & i' & q' & rest' & S' & Il' & Ii' & _ & Pi' & Li' & ->).
  destruct (section_inj m r r' s s' l OK S S' Il Il') as (Er & Es). try subst r'. try subst s'.
  assert (i = i') as <-.
  { pose proof (ok_pos m OK r s S) as ND. unfold in_section in *.
    assert (K : forall x y : N * xlane qp, In x s -> In y s -> l_pos (snd x) = l_pos (snd y) -> x = y).
    { clear - ND. induction s as [|z s IH]; intros x y Ix Iy E; [destruct Ix|]. cbn in ND. inversion ND as [|u v NI ND']; subst.
      destruct Ix as [->|Ix], Iy as [->|Iy]; auto.
      - exfalso. apply NI. rewrite E. exact (in_map (fun kl : N * xlane qp => l_pos (snd kl)) _ _ Iy).
      - exfalso. apply NI. rewrite <- E. exact (in_map (fun kl : N * xlane qp => l_pos (snd kl)) _ _ Ix). }
    assert ((l_id i, i) = (l_id i', i')) by (apply K; auto; cbn [snd]; congruence). congruence. }
  rewrite Li in Li'. inversion Li'; subst. reflexivity.
Qed.

Example two_way_covers : forall l ring, ring_of two_way l ring -> (crossings ring (5, -1) = true <-> l = W2).
Proof.
  assert (S : section_of two_way 1 (secq [W1; W2; W3])) by (eexists; split; [left; reflexivity|cbn; auto]).
  assert (R2 : ring_of two_way W2 (l_line W1 ++ rev (l_line W2) ++ [(0, 0)])).
  { exists 1%N, (secq [W1; W2; W3]), W1, (0, 0), [(10, 0)]. repeat split; cbn; auto. discriminate. }
  assert (R3 : ring_of two_way W3 (l_line W1 ++ rev (l_line W3) ++ [(0, 0)])).
  { exists 1%N, (secq [W1; W2; W3]), W1, (0, 0), [(10, 0)]. repeat split; cbn; auto. discriminate. }
  intros l ring H. pose proof H as (r & s & i & q & rest & S' & Il & _ & Z0 & _).
  assert (Hl : lane_of two_way r l) by (exists s; auto). apply two_way_lane in Hl as [Hl|[Hl|Hl]]; subst l.
  - exfalso. now apply Z0.
  - rewrite (ring_fun two_way W2 ring _ two_way_ok H R2). split; [reflexivity|intros _; vm_compute; reflexivity].
  - rewrite (ring_fun two_way W3 ring _ two_way_ok H R3). split; [vm_compute; discriminate|discriminate].
Qed.
Example C98_refuted_nonvacuous : exists mi, set_map two_way new_iface = Some mi /\
    find_lane knn crossings mi (5, -1) = Some (Some W2) /\ find_nearest knn mi (5, -1) 1 true = Some [W3].
Proof.
  destruct (C98_nearest_is_not_where_you_are_refuted knn crossings knn_ok two_way_covers) as (mi & A & B & _ & C & _). eauto.
Qed.
Example C98_misses_nonvacuous : find_lane knn crossings u_turn_iface u_point = Some None /\
  crossings (l_line U1 ++ rev (l_line U2) ++ [(0, 0)]) u_point = true /\
  length (mi_tree u_turn_iface) = 21%nat.
Proof. vm_compute. auto. Qed.
Example C98_finds_nonvacuous : find_lane knn crossings two_way_iface (5, 2) = Some (Some W3) /\
  find_lane knn crossings two_way_iface (5, 20) = Some None /\
  current_road_id knn crossings two_way_iface (5, 2) = Some 1%N /\
  find_nearest knn two_way_iface (5, 2) 5 false = Some [W3; W2] /\
  mi_bbox two_way_iface = Some ((0, -6), (10, 3)).
Proof. vm_compute. auto 10. Qed.

Definition LQ : line_ops qp :=
  mkLineOps (fun a b => match a, b with [], _ | _, [] => None | _, _ => Some (a ++ b) end)
    (fun a => a) (fun a => a) (fun a b => match a, b with [], _ | _, [] => None | _, _ => Some a end)
    (fun a => inject_Z (Z.of_nat (length a))).
Definition hx : hash_fn := fun d ids => (match d with FORWARD => 0%N | BACKWARD => 1%N | BOTH => 2%N end + 3 * fold_right (fun i a => (i + 100 * a + 1)%N) 0%N ids)%N.
Definition D0 : dijkstra qp := fun _ _ _ v => v.
Example C98_corridor_nonvacuous :
  match corridor_from_points knn LQ hx 10 COUNT_ALL D0 (5, -1) (5, 2) two_way_iface with
  | Done (mi', Some rc) => rc_ids rc = [1%N] /\ rc_dir rc = BACKWARD /\ length (mi_corr mi') = 1%nat
  | _ => False
  end.
Proof. vm_compute. auto. Qed.

Definition table : list csv_line :=
  [[None; None]; [Some 0; Some 1; Some 2; Some 1; Some 1; Some 1; Some 3];
   [Some 1; Some 5; Some 2; Some 5; Some 1; Some 5; Some 3; None]].
Example C99_nonvacuous :
  match set_csv hx (Some table) 1 2 two_way_iface with
  | Done (mi, true) =>
      find_nearest knn mi (50, 50) 3 true = Some [csv_lane [(0, 0); (4, 0)]] /\
      find_lane knn crossings mi (2, 0) = Some (Some (csv_lane [(0, 0); (4, 0)])) /\
      find_lane knn crossings mi (2, 5) = Some None /\ mi_bbox mi = Some ((0, -1), (4, 1)) /\
      exists mi2, set_map two_way mi = Some mi2 /\ mi_csv mi2 = true
  | _ => False
  end.
Proof. vm_compute. repeat split; try reflexivity. eexists. split; reflexivity. Qed.
Example C99_bad_tables : set_csv hx (Some [[None]; [Some 0; Some 1]]) 0 0 new_iface = Crash /\
  set_csv hx (Some [[None]]) 0 0 new_iface = Crash /\ set_csv hx None 0 0 new_iface = Done (new_iface, false).
Proof. vm_compute. auto. Qed.

(* the same road, moved by 100 *)
Definition mv (l : xlane qp) := mkLane (l_id l) (l_pos l) (l_type l) (l_dir l) 0 0 None (map (fun q => (fst q + 100, snd q)) (l_line l)).
Definition moved : xmap qp := mkMap [(1%N, mkRoad (1000000%N, false) (1000000%N, false) [secq (map mv [W1; W2; W3])])] [].
(* moving the map: the corridor of road 1 is still the old one *)
Theorem C100_corridors_follow_the_map_refuted :
  exists mi1 rc mi2, request_corridor LQ hx 10 [1%N] FORWARD two_way_iface = Done (mi1, Some rc) /\
    set_map moved mi1 = Some mi2 /\ request_corridor LQ hx 10 [1%N] FORWARD mi2 = Done (mi2, Some rc) /\
    get_lane (rc_roads rc) (1%N, 2%N) <> None /\
    forall c, get_lane (rc_roads rc) (1%N, 2%N) = Some c -> cl_lane c = W2 /\ ~ exists r, lane_of moved r W2.
Proof.
  assert (R : exists mi1 rc, request_corridor LQ hx 10 [1%N] FORWARD two_way_iface = Done (mi1, Some rc) /\
     (exists mi2, set_map moved mi1 = Some mi2) /\ exists c, get_lane (rc_roads rc) (1%N, 2%N) = Some c /\ cl_lane c = W2).
  { vm_compute. do 2 eexists. split; [reflexivity|]. split; [eexists; reflexivity|]. eexists. split; reflexivity. }
  destruct R as (mi1 & rc & R1 & (mi2 & S2) & c0 & C0 & C1). exists mi1, rc, mi2. split; auto. split; auto. split.
  - apply (C100_corridors_survive LQ hx 10 two_way new_iface two_way_iface [1%N] FORWARD mi1 rc moved mi2 two_way_ok two_way_set); auto.
  - rewrite C0. split; [discriminate|]. intros c E. inversion E; subst c. split; auto.
    intros (r & s & (rd & Hr & Hs) & I). cbn in Hr. destruct Hr as [Hr|[]]. inversion Hr; subst. cbn [r_sections In] in Hs.
    destruct Hs as [<-|[]]. unfold in_section in I. cbn [secq map In] in I.
    destruct I as [I|[I|[I|[]]]]; inversion I as [[A B]]; discriminate.
Qed.
Example C100_nonvacuous : exists mi, set_map moved two_way_iface = Some mi /\ find_lane knn crossings mi (105, 2) = Some (Some (mv W3)) /\
  find_lane knn crossings mi (5, 2) = Some None.
Proof. eexists. split; [vm_compute; reflexivity|]. vm_compute. auto. Qed.

Print Assumptions C98_nearest_lanes.
Print Assumptions C98_all_lanes.
Print Assumptions C98_find_lane.
Print Assumptions C98_current_lane_and_road.
Print Assumptions C98_bounding_box.
Print Assumptions C98_no_map.
Print Assumptions C98_corridor_between_points.
Print Assumptions C98_store_kept.
Print Assumptions C98_nearest_is_not_where_you_are_refuted.
Print Assumptions C98_find_lane_misses_refuted.
Print Assumptions C99_load.
Print Assumptions C99_one_lane.
Print Assumptions C99_find_lane.
Print Assumptions C99_bounding_box.
Print Assumptions C99_agent_corridor.
Print Assumptions C99_corridor_between_points.
Print Assumptions C100_point_queries_follow_the_map.
Print Assumptions C100_corridors_survive.
Print Assumptions C100_table_mark_survives.
Print Assumptions C100_corridors_follow_the_map_refuted.
