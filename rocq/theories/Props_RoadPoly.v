(** C114: the drivable area of a road corridor. *)
From Coq Require Import List Bool NArith ZArith QArith Lia Lqa.
From Verif Require Import Model_RoadPoly.
Import ListNotations.

Section Area.
  Context {Poly Pt : Type}.
  Variable empty : Poly.
  Variable correct : Poly -> Poly.
  Variable union : Poly -> Poly -> list Poly.
  Variable buffer : Q -> Poly -> list Poly.
  Variable outer : Poly -> Poly.
  (** The points of a polygon. *)
  Variable region : Poly -> Pt -> Prop.
  (** What is used of boost::geometry: correct keeps the points, the exterior ring contains the polygon, the polygons of a union
      contain the points of both and no others. *)
  Hypothesis correct_region : forall a p, region (correct a) p <-> region a p.
  Hypothesis outer_region : forall a p, region a p -> region (outer a) p.
  Hypothesis union_region : forall a b p, (exists u, In u (union a b) /\ region u p) <-> region a p \/ region b p.

  Notation conc := (concatenate Poly correct union).
  Notation buf := (buffer_polygon Poly empty correct buffer outer).
  Notation road_poly := (compute_road_polygon Poly empty correct union buffer outer).
  Notation add := (add_polygon Poly empty correct union buffer outer).
  Notation jarea := (junction_area Poly empty correct union outer).
  Notation area := (road_area Poly empty correct union buffer outer).

  (** The buffered polygon is one polygon with exterior ring [b]. *)
  Definition buffers_to (a : Poly) (d : Q) (b : Poly) : Prop := exists x, buffer d (correct a) = [x] /\ b = outer x.
  (** Merging the polygons one by one never leaves more than one polygon; the result. *)
  Inductive merges : Poly -> list Poly -> Poly -> Prop :=
  | merges_nil : forall m, merges m [] m
  | merges_cons : forall m b r u w, union (correct m) (correct b) = [u] -> merges u r w -> merges m (b :: r) w.
  (** Shrinking [m] by [d] gives back every polygon of [ls] whose version grown by [d] is inside [m]. *)
  Definition shrinks_back (d : Q) (m e : Poly) (ls : list Poly) : Prop :=
    forall a b, In a ls -> buffers_to a d b -> (forall p, region b p -> region m p) -> forall p, region a p -> region e p.

  Lemma buf_ok a d b : buffers_to a d b -> buf a d = (true, b).
  Proof. intros (x & E & ->). unfold buffer_polygon. now rewrite E. Qed.
  Lemma merges_fold m l w : merges m l w -> fold_left conc l m = w.
  Proof.
    induction 1 as [|m b r u w E _ IH]; [reflexivity|]. cbn. unfold concatenate at 2. now rewrite E.
  Qed.
  Lemma merges_region m l w : merges m l w -> forall p, region w p <-> region m p \/ exists b, In b l /\ region b p.
  Proof.
    induction 1 as [m|m b r u w E _ IH]; intros p.
    - split; [now left|]. intros [H|(b & [] & _)]; exact H.
    - rewrite IH. assert (U : region u p <-> region m p \/ region b p).
      { rewrite <- (correct_region m), <- (correct_region b), <- union_region, E. split.
        - intros H. exists u. split; [now left|exact H].
        - intros (x & [<-|[]] & H). exact H. }
      rewrite U. split.
      + intros [[H|H]|(x & I & H)]; [now left|right; exists b; split; [now left|exact H]|right; exists x; split; [now right|exact H]].
      + intros [H|(x & [<-|I] & H)]; [now left; left|now left; right|right; eauto].
  Qed.
  Lemma fold_concat {A B : Type} (f : B -> A -> B) : forall ls m, fold_left (fun m l => fold_left f l m) ls m = fold_left f (concat ls) m.
  Proof. induction ls as [|l ls IH]; intros m; cbn; [reflexivity|]. now rewrite fold_left_app, IH. Qed.
  Lemma fold_map {A B C : Type} (f : C -> B -> C) (g : A -> B) : forall l m, fold_left (fun m x => f m (g x)) l m = fold_left f (map g l) m.
  Proof. induction l as [|x l IH]; intros m; cbn; auto. Qed.

  (** When every lane polygon can be grown, merging the grown ones one by one never falls apart, and the merged polygon can be
      shrunk back, every point of every lane of every corridor is inside the drivable area. *)
  Theorem C114_lanes_are_drivable : forall d corridors grown merged road,
    Forall2 (fun a b => buffers_to a d b) (concat corridors) grown -> merges empty grown merged ->
    buffers_to merged (- d) road -> shrinks_back d merged road (concat corridors) ->
    forall lane p, In lane (concat corridors) -> region lane p -> region (road_poly d corridors) p.
  Proof.
    intros d corridors grown merged road F M B SB lane p I H.
    assert (E : road_poly d corridors = road).
    { unfold compute_road_polygon. rewrite (fold_concat (fun m lane => conc m (snd (buf lane d)))).
      rewrite (fold_map conc (fun lane => snd (buf lane d))).
      assert (G : map (fun lane => snd (buf lane d)) (concat corridors) = grown).
      { clear - F. induction F as [|a b l l' E _ IH]; [reflexivity|]. cbn. rewrite IH. apply buf_ok in E. now rewrite E. }
      rewrite G, (merges_fold _ _ _ M). apply buf_ok in B. now rewrite B. }
    rewrite E.
    assert (J : exists b, In b grown /\ buffers_to lane d b).
    { clear - F I. induction F as [|a b l l' E _ IH]; [destruct I|]. destruct I as [<-|I]; [exists b; split; [now left|exact E]|].
      destruct (IH I) as (x & J & K). exists x. split; [now right|exact K]. }
    destruct J as (b & J & K). apply (SB lane b I K); [|exact H].
    intros q Hq. apply (merges_region _ _ _ M). right. eauto.
  Qed.

  (** The drivable area never has holes: only an exterior ring is kept (or nothing). *)
  Theorem C114_no_holes : forall d corridors, road_poly d corridors = empty \/ exists x, road_poly d corridors = outer x.
  Proof.
    intros d corridors. unfold compute_road_polygon, buffer_polygon. set (m := fold_left _ _ _).
    destruct (buffer (- d) (correct m)) as [|x [|y r]]; cbn; eauto.
  Qed.

  (** A merge that falls apart keeps the first of the polygons only. *)
  Theorem C114_first_part_is_kept : forall a b u w,
    union (correct a) (correct b) = u :: w -> conc a b = u.
  Proof. intros a b u w E. unfold concatenate. now rewrite E. Qed.

  (** A lane polygon that does not grow to one polygon counts like an empty one. *)
  Theorem C114_failed_lane_is_skipped : forall d pre lane post,
    (forall m, conc m empty = m) -> (forall b, ~ buffers_to lane d b) ->
    road_poly d (pre ++ [lane] :: post) = road_poly d (pre ++ post).
  Proof.
    intros d pre lane post CE NB. unfold compute_road_polygon. rewrite !fold_left_app. cbn [fold_left].
    assert (E : snd (buf lane d) = empty).
    { unfold buffer_polygon. destruct (buffer d (correct lane)) as [|x [|y r]] eqn:E; try reflexivity.
      elim (NB (outer x)). exists x. now split. }
    now rewrite E, CE.
  Qed.

  (** Adding a polygon keeps the area and adds the polygon, when both can be grown, overlap once grown and can be shrunk back. *)
  Theorem C114_add_polygon : forall d road input groad ginput merged res,
    buffers_to road d groad -> buffers_to input d ginput -> merges groad [ginput] merged ->
    buffers_to merged (- d) res -> shrinks_back d merged res [road; input] ->
    add d road input = res /\ forall p, region road p \/ region input p -> region (add d road input) p.
  Proof.
    intros d road input groad ginput merged res B1 B2 M B3 SB.
    assert (E : add d road input = res).
    { unfold add_polygon. rewrite (buf_ok _ _ _ B1), (buf_ok _ _ _ B2). cbn [snd].
      pose proof (merges_fold _ _ _ M) as F. cbn in F. rewrite F. now rewrite (buf_ok _ _ _ B3). }
    split; [exact E|]. rewrite E. intros p [H|H].
    - apply (SB road groad); auto; [now left|]. intros q Hq. apply (merges_region _ _ _ M). now left.
    - apply (SB input ginput); auto; [right; now left|]. intros q Hq. apply (merges_region _ _ _ M). right. exists ginput. split; [now left|exact Hq].
  Qed.

  (** An area that does not grow to one polygon is lost when a polygon is added: the result is the same for every such area. *)
  Theorem C114_area_lost_when_it_cannot_grow : forall d road road' input,
    (forall b, ~ buffers_to road d b) -> (forall b, ~ buffers_to road' d b) -> add d road input = add d road' input.
  Proof.
    assert (L : forall d a, (forall b, ~ buffers_to a d b) -> buf a d = (false, empty)).
    { intros d a N. unfold buffer_polygon. destruct (buffer d (correct a)) as [|x [|y r]] eqn:E; try reflexivity.
      elim (N (outer x)). exists x. now split. }
    intros d road road' input N N'. unfold add_polygon. now rewrite (L _ _ N), (L _ _ N').
  Qed.

  (* ----------------------------------------------------------------------- junctions *)
  (** [p] is the polygon of a driving lane of junction [j]. *)
  Definition of_junction (g : list (vtx Poly)) (j : N) (p : Poly) : Prop := In (mkV (Some j) true (Some p)) g.
  Definition junction_polys (g : list (vtx Poly)) (j : N) : list Poly :=
    flat_map (fun v => match v with mkV (Some i) true (Some p) => if N.eqb i j then [p] else [] | _ => [] end) g.
  Lemma junction_polys_in g j p : In p (junction_polys g j) <-> of_junction g j p.
  Proof.
    unfold junction_polys, of_junction. rewrite in_flat_map. split.
    - intros ([[i|] [|] [q|]] & I & J); try destruct J. destruct (N.eqb_spec i j); [|destruct J]. destruct J as [<-|[]]. now subst i.
    - intros I. exists (mkV (Some j) true (Some p)). split; [exact I|]. rewrite N.eqb_refl. now left.
  Qed.
  Lemma jarea_fold : forall g j m,
    fold_left (fun m v => if (match v_junction v with Some i => N.eqb i j | None => false end) && v_driving v
      then match v_polygon v with Some p => conc m p | None => m end else m) g m = fold_left conc (junction_polys g j) m.
  Proof.
    induction g as [|[[i|] [|] [q|]] g IH]; intros j m; cbn [fold_left v_junction v_driving v_polygon andb]; rewrite ?IH;
      cbn [junction_polys flat_map]; try fold (junction_polys g j); rewrite ?andb_true_r, ?andb_false_r; try reflexivity.
    - destruct (N.eqb i j); reflexivity.
    - destruct (N.eqb i j); reflexivity.
  Qed.
  (** The area of a junction contains the polygons of all its driving lanes, whatever their direction, when merging them never falls
      apart. *)
  Theorem C114_junction_area : forall g j merged, merges empty (junction_polys g j) merged ->
    forall p q, of_junction g j p -> region p q -> region (jarea g j) q.
  Proof.
    intros g j merged M p q I H. unfold junction_area, clear_inners. rewrite jarea_fold, (merges_fold _ _ _ M).
    apply outer_region, (merges_region _ _ _ M). right. exists p. split; [now apply junction_polys_in|exact H].
  Qed.
  (** Lanes of other junctions, lanes not for driving and lanes without polygon do not matter. *)
  Theorem C114_junction_area_depends_on_its_lanes_only : forall g g' j, junction_polys g j = junction_polys g' j -> jarea g j = jarea g' j.
  Proof. intros g g' j E. unfold junction_area. now rewrite !jarea_fold, E. Qed.

  (** The junctions whose area is added: exactly those of the corridors' lanes, one entry per lane. *)
  Theorem C114_junction_ids : forall ls j,
    (In j (junction_ids ls) <-> exists l, In l ls /\ In (Some j) l)
    /\ length (junction_ids ls) = length (filter (fun o => match o with Some _ => true | None => false end) (concat ls)).
  Proof.
    intros ls j. unfold junction_ids. split.
    - rewrite in_flat_map. split.
      + intros (l & I & J). apply in_flat_map in J as ([i|] & K & L); [|destruct L]. destruct L as [<-|[]]. eauto.
      + intros (l & I & J). exists l. split; [exact I|]. apply in_flat_map. exists (Some j). split; [exact J|now left].
    - induction ls as [|l ls IH]; [reflexivity|]. cbn. rewrite filter_app, !app_length, IH. f_equal.
      clear. induction l as [|[i|] l IH]; cbn; [reflexivity|now rewrite IH|exact IH].
  Qed.

  (** Adding the areas one after the other, each under the conditions of [C114_add_polygon]. *)
  Inductive adds (g : list (vtx Poly)) (d : Q) : Poly -> list N -> Prop :=
  | adds_nil : forall r, adds g d r []
  | adds_cons : forall r j js gr gi m res jm, merges empty (junction_polys g j) jm ->
      buffers_to r d gr -> buffers_to (jarea g j) d gi -> merges gr [gi] m -> buffers_to m (- d) res ->
      shrinks_back d m res [r; jarea g j] -> adds g d res js -> adds g d r (j :: js).
  Lemma adds_region g d : forall js r, adds g d r js ->
    let res := fold_left (fun r j => add d r (jarea g j)) js r in
    forall q, (region r q -> region res q) /\ (forall j p, In j js -> of_junction g j p -> region p q -> region res q).
  Proof.
    induction js as [|j js IH]; intros r A; cbn [fold_left]; intros q.
    - split; [auto|intros j p []].
    - inversion A as [|? ? ? gr gi m res jm MJ B1 B2 MM B3 SB AA]; subst.
      destruct (C114_add_polygon _ _ _ _ _ _ _ B1 B2 MM B3 SB) as [E K].
      destruct (IH res AA q) as [K1 K2]. rewrite E. split.
      + intros Hr. apply K1. rewrite <- E. apply K. now left.
      + intros j' p [<-|I] O Hp; [|eauto]. apply K1. rewrite <- E. apply K. right. eapply C114_junction_area; eauto.
  Qed.
  (** With full junction areas the drivable area contains the lanes of the corridor and every driving lane of the junctions its
      lanes pass; without, the rest of the road graph does not matter. *)
  Theorem C114_full_junction_area : forall g lanes grown merged road,
    let polys := map (map fst) lanes in
    Forall2 (fun a b => buffers_to a (3 # 10) b) (concat polys) grown -> merges empty grown merged ->
    buffers_to merged (- (3 # 10)) road -> shrinks_back (3 # 10) merged road (concat polys) ->
    adds g (1 # 10) (road_poly (3 # 10) polys) (junction_ids (map (map snd) lanes)) ->
    (forall lane p, In lane (concat polys) -> region lane p -> region (area true g lanes) p)
    /\ (forall l a j b p, In l lanes -> In (a, Some j) l -> of_junction g j b -> region b p -> region (area true g lanes) p)
    /\ (forall g', area false g lanes = area false g' lanes).
  Proof.
    intros g lanes grown merged road polys F M B SB A. unfold road_area. split; [|split].
    - intros lane p I H. apply (adds_region _ _ _ _ A). eapply C114_lanes_are_drivable; eauto.
    - intros l a j b p I J O H. apply (proj2 (adds_region _ _ _ _ A p) j b); auto.
      apply (proj1 (C114_junction_ids (map (map snd) lanes) j)). exists (map snd l). split; [now apply in_map|].
      apply in_map_iff. exists (a, Some j). now split.
    - reflexivity.
  Qed.
End Area.

(* ------------------------------------------------------------------------- a concrete geometry *)
(** Intervals of the line as polygons. *)
Definition ipoly : Type := option (Q * Q).
Definition iregion (a : ipoly) (p : Q) : Prop := match a with None => False | Some (l, u) => l <= p /\ p <= u end.
Definition iunion (a b : ipoly) : list ipoly :=
  match a, b with
  | None, None => []
  | None, x => [x]
  | x, None => [x]
  | Some (l, u), Some (l', u') =>
      if Qle_bool l' u && Qle_bool l u' then [Some (if Qle_bool l l' then l else l', if Qle_bool u u' then u' else u)] else [a; b]
  end.
Definition ibuffer (d : Q) (a : ipoly) : list ipoly :=
  match a with None => [] | Some (l, u) => if Qle_bool (l - d) (u + d) then [Some (l - d, u + d)] else [] end.
Definition iroad := compute_road_polygon ipoly None (fun a => a) iunion ibuffer (fun a => a).
Definition iarea := road_area ipoly None (fun a => a) iunion ibuffer (fun a => a).
Definition iadd := add_polygon ipoly None (fun a => a) iunion ibuffer (fun a => a).
Local Open Scope Q_scope.
(** The laws used of boost::geometry hold of intervals. *)
Lemma iunion_region : forall a b p,
  (exists u, In u (iunion a b) /\ iregion u p) <-> iregion a p \/ iregion b p.
Proof.
  intros [(l & u)|] [(l' & u')|] p; cbn.
  - destruct (Qle_bool l' u) eqn:E1; destruct (Qle_bool l u') eqn:E2; cbn.
    2,3,4: split; [intros (x & [<-|[<-|[]]] & H); [left|right]; exact H|intros [H|H]; [exists (Some (l, u))|exists (Some (l', u'))]; (split; [cbn; auto|exact H])].
    apply Qle_bool_iff in E1, E2.
    destruct (Qle_bool l l') eqn:E3; destruct (Qle_bool u u') eqn:E4; rewrite ?Qle_bool_iff in *.
    all: try (assert (N3 : l' < l) by (apply Qnot_le_lt; intros X; apply Qle_bool_iff in X; congruence));
         try (assert (N4 : u' < u) by (apply Qnot_le_lt; intros X; apply Qle_bool_iff in X; congruence)); idtac.
    all: split; [intros (x & [<-|[]] & H & H'); cbn in *|intros [[H H']|[H H']]; eexists; (split; [left; reflexivity|]); cbn].
    all: destruct (Qlt_le_dec p l), (Qlt_le_dec p l'), (Qlt_le_dec u p), (Qlt_le_dec u' p);
         first [split; Lqa.lra | left; split; Lqa.lra | right; split; Lqa.lra | exfalso; Lqa.lra].
  - split; [intros (x & [<-|[]] & H); now left|intros [H|[]]; eauto].
  - split; [intros (x & [<-|[]] & H); now right|intros [[]|H]; eauto].
  - split; [intros (x & [] & _)|intros [[]|[]]].
Qed.
(** Two connected lanes, the second passes junction 5 with a crossing lane of the other direction. *)
Definition igraph : list (vtx ipoly) :=
  [mkV (Some 5%N) true (Some (Some (10, 20))); mkV (Some 5%N) true (Some (Some (20, 27))); mkV (Some 5%N) false (Some (Some (27, 40)));
   mkV (Some 6%N) true (Some (Some (0, 100))); mkV None true (Some (Some (0, 100)))].
Example area_nonvacuous :
  (exists x y, iarea true igraph [[(Some (0, 10), None); (Some (10, 20), Some 5%N)]] = Some (x, y) /\ x == 0 /\ y == 27)
  /\ (exists x y, iarea false igraph [[(Some (0, 10), None); (Some (10, 20), Some 5%N)]] = Some (x, y) /\ x == 0 /\ y == 20).
Proof.
  split.
  - eexists _, _. split; [vm_compute; reflexivity|]. split; reflexivity.
  - eexists _, _. split; [vm_compute; reflexivity|]. split; reflexivity.
Qed.
(** The hypotheses of [C114_lanes_are_drivable] hold for these lanes. *)
Example lanes_nonvacuous : forall lane p, In lane [Some (0, 10); Some (10, 20)] -> iregion lane p ->
  iregion (iroad 1 [[Some (0, 10); Some (10, 20)]]) p.
Proof.
  apply (C114_lanes_are_drivable None (fun a => a) iunion ibuffer (fun a => a) iregion (fun a p => iff_refl _) iunion_region 1
    [[Some (0, 10); Some (10, 20)]] [Some (0 - 1, 10 + 1); Some (10 - 1, 20 + 1)] (Some (0 - 1, 20 + 1)) (Some (0 - 1 - - (1), 20 + 1 + - (1)))).
  - repeat constructor; (eexists; split; [reflexivity|reflexivity]).
  - eapply merges_cons; [reflexivity|]. eapply merges_cons; [reflexivity|]. constructor.
  - eexists. split; [reflexivity|reflexivity].
  - intros a b I B Sub p H. destruct I as [<-|[<-|[]]]; cbn in *; Lqa.lra.
Qed.
(** Refuted expectation: "every lane of the corridor is drivable": lanes that only a later lane connects are dropped, while in
    another order the same lanes give the whole area. *)
Theorem C114_every_lane_is_drivable_refuted :
  (exists x y, iroad (3 # 10) [[Some (0, 4)]; [Some (6, 10)]; [Some (4, 6)]] = Some (x, y) /\ x == 0 /\ y == 6)
  /\ (exists x y, iroad (3 # 10) [[Some (0, 4)]; [Some (4, 6)]; [Some (6, 10)]] = Some (x, y) /\ x == 0 /\ y == 10).
Proof. split; eexists _, _; (split; [vm_compute; reflexivity|]); split; reflexivity. Qed.
Print Assumptions C114_lanes_are_drivable.
Print Assumptions C114_full_junction_area.
Print Assumptions C114_every_lane_is_drivable_refuted.
