(** C71: evaluators of static safety distances. *)
From Coq Require Import List NArith ZArith QArith Bool Reals Lia Lra ClassicalDescription.
From Verif Require Import Base_Real Base_Geom Model_Map Proof_Map Model_World Spec_World Proof_World Proof_World2 Model_Eval Spec_Eval Proof_Eval
  Model_Line Model_Shape Toy_Eval Model_StaticDist.
Import ListNotations.

Section StaticDist.
  Context {T : Types} (O : Ops T).
  Variable pos : tState T -> tPoint T.
  Variable P : Type.
  Variables (foot wide : tShape T -> tState T -> P) (meets : P -> P -> bool).

  (** Another live agent enters the ego's safety zone or the ego enters its. *)
  Definition too_close (ow : observed T) : Prop :=
    exists j e a se sa, j <> ow_ego ow /\ get_agent (ow_world ow) (ow_ego ow) = Some e /\ get_agent (ow_world ow) j = Some a /\
      live_at O (ow_world ow) a /\ current_state e = Some se /\ current_state a = Some sa /\
      (meets (wide (ag_shape e) se) (foot (ag_shape a) sa) = true \/ meets (wide (ag_shape a) sa) (foot (ag_shape e) se) = true).

  Definition both (sh : tShape T) (s : tState T) (sh2 : tShape T) (s2 : tState T) : bool :=
    meets (wide sh s) (foot sh2 s2) || meets (wide sh2 s2) (foot sh s).
  Lemma near_loop_ego ego sh s l : near_loop P foot wide meets ego sh s l = ego_loop both ego sh s l.
  Proof.
    induction l as [|(k, a) r IH]; cbn [near_loop ego_loop]; [reflexivity|]. rewrite IH. unfold both.
    destruct (N.eqb ego (ag_id a)); [reflexivity|]. destruct (current_state a) as [s2|]; [|reflexivity].
    destruct (meets (wide sh s) _); [reflexivity|]. reflexivity.
  Qed.
  Lemma static_is_collision ow : static_check O pos P foot wide meets ow = option_map negb (eval_collision_ego O pos both (ow_world ow) (ow_ego ow)).
  Proof.
    unfold static_check, eval_collision_ego. destruct (get_agent (ow_world ow) (ow_ego ow)) as [a|]; [|reflexivity].
    destruct (current_state a) as [s|]; [|reflexivity]. destruct (get_nearest_agents O (ow_world ow) (pos s) 4) as [near|]; [|reflexivity].
    now rewrite near_loop_ego.
  Qed.
  Lemma too_close_collides ow : too_close ow <-> ego_collides O both (ow_world ow) (ow_ego ow).
  Proof.
    unfold too_close, ego_collides, both. split.
    - intros (j & e & a & se & sa & N & E & A & L & Se & Sa & M). exists j, e, a, se, sa. rewrite orb_true_iff. intuition.
    - intros (j & e & a & se & sa & N & E & A & L & Se & Sa & M). apply orb_true_iff in M. exists j, e, a, se, sa. intuition.
  Qed.

  (** C71. The static check reports a violation only if there is one ... *)
  Theorem C71_violations_are_real : forall dist (ow : observed T), world_ok (ow_world ow) -> index_fresh O (ow_world ow) -> knn_contract O dist ->
    exists ok, static_check O pos P foot wide meets ow = Some ok /\ (ok = false -> too_close ow).
  Proof.
    intros dist ow H1 H2 H3. destruct (collision_ego_spec O pos both (ow_world ow) (ow_ego ow) dist H1 H2 H3) as (b & Hb & Hs & _).
    exists (negb b). rewrite static_is_collision, Hb. split; [reflexivity|]. intro K. apply too_close_collides. destruct b; [auto|discriminate].
  Qed.
  (** ... and, with at most four agents in the world, exactly then. *)
  Theorem C71_violations_up_to_four_agents : forall dist (ow : observed T), world_ok (ow_world ow) -> index_fresh O (ow_world ow) -> knn_contract O dist ->
    (length (w_agents (ow_world ow)) <= 4)%nat ->
    exists ok, static_check O pos P foot wide meets ow = Some ok /\ (ok = false <-> too_close ow).
  Proof.
    intros dist ow H1 H2 H3 H4. destruct (collision_ego_spec O pos both (ow_world ow) (ow_ego ow) dist H1 H2 H3) as (b & Hb & Hs & Hc).
    exists (negb b). rewrite static_is_collision, Hb. split; [reflexivity|]. rewrite too_close_collides. destruct b; cbn; split; intros; auto; try discriminate.
    now rewrite Hc.
  Qed.

  (** C71. An ego that is not in the world never violates. *)
  Theorem C71_missing_ego : forall ow, get_agent (ow_world ow) (ow_ego ow) = None -> static_check O pos P foot wide meets ow = Some true.
  Proof. intros ow H. unfold static_check. now rewrite H. Qed.

  (** C71. The result of the evaluator is the number of violations seen since its construction; it never decreases. *)
  Theorem C71_counts_violations : forall (check : observed T -> option bool) n l, (forall ow, In ow l -> check ow <> None) ->
    exists m, count_all check n l = Some m /\
      m = (n + Z.of_nat (length (filter (fun ow => match check ow with Some false => true | _ => false end) l)))%Z /\ (n <= m)%Z.
  Proof.
    intros check n l. revert n. induction l as [|ow l IH]; intros n H; cbn [count_all].
    - exists n. cbn. split; [reflexivity|]. lia.
    - unfold count_check. assert (K : check ow <> None) by (apply H; now left). destruct (check ow) as [ok|] eqn:E; [|congruence].
      destruct (IH (n + (if ok then 0 else 1))%Z) as (m & -> & -> & L); [intros x Hx; apply H; now right|].
      eexists. split; [reflexivity|]. cbn [filter]. rewrite E. destruct ok; cbn [length]; lia.
  Qed.
  (** C71. Asked for a world that does not hold the agent, evaluation fails (an exception). *)
  Theorem C71_world_without_agent : forall (check : observed T -> option bool) n w id, get_agent w id = None -> count_world O check n w id = None.
  Proof. intros check n w id H. unfold count_world, observe_world. cbn [observe_ids]. now rewrite H. Qed.
  (** C71. With the transparent observer, evaluating a world is evaluating the ego's view of a copy of it. *)
  Theorem C71_world_with_agent : forall (check : observed T -> option bool) n w id a, transparent_observer O -> get_agent w id = Some a ->
    count_world O check n w id = count_check check n (mkObserved (clone_world O w) id).
  Proof. intros check n w id a Ht H. unfold count_world, observe_world. cbn [observe_ids]. rewrite H, Ht. reflexivity. Qed.

  (** C71. The drivable area variant: the ego's inflated footprint is not inside its road corridor. *)
  Theorem C71_drivable_area : forall on_road (ow : observed T) a s r, get_agent (ow_world ow) (ow_ego ow) = Some a -> current_state a = Some s ->
    on_road a s = Some r -> area_check on_road ow = Some r.
  Proof. intros on_road ow a s r H1 H2 H3. unfold area_check. now rewrite H1, H2. Qed.
End StaticDist.

(** C71. With five agents a violation is missed: the four nearest entries of the index include the ego itself. *)
Definition z_wide (h c : Toy_Eval.pt) : rect := mkRect c (fst h + 1, snd h)%Z.
Definition z_foot (h c : Toy_Eval.pt) : rect := mkRect c h.
Theorem C71_five_agents_refuted : exists (T : Types) (O : Ops T) pos (P : Type) foot wide meets dist (ow : observed T),
  world_ok (ow_world ow) /\ index_fresh O (ow_world ow) /\ knn_contract O dist /\ length (w_agents (ow_world ow)) = 5%nat /\
  too_close O P foot wide meets ow /\ static_check O pos P foot wide meets ow = Some true.
Proof.
  exists PT, PO, (fun s => s), rect, z_foot, z_wide, rects_meet, (fun b p => inject_Z (dist2 b p)), (mkObserved (T:=PT) long_ego 1%N).
  split; [apply long_ego_ok|]. split; [apply long_ego_fresh|]. split; [apply PO_knn|]. split; [reflexivity|]. split; [|vm_compute; reflexivity].
  exists 5%N. do 4 eexists. split; [discriminate|]. split; [reflexivity|]. split; [reflexivity|]. split; [split; reflexivity|].
  split; [reflexivity|]. split; [reflexivity|]. left. reflexivity.
Qed.
Example C71_nonvacuous :
  static_check PO (fun s => s) rect z_foot z_wide rects_meet (mkObserved (T:=PT) short_list 1%N) = Some false /\
  static_check PO (fun s => s) rect z_foot z_wide rects_meet (mkObserved (T:=PT) short_list 3%N) = Some true /\
  count_all (static_check PO (fun s => s) rect z_foot z_wide rects_meet) 0
    [mkObserved (T:=PT) short_list 1%N; mkObserved short_list 3%N; mkObserved short_list 1%N] = Some 2%Z.
Proof. vm_compute. auto. Qed.

(* ------------------------------------------------------------------------- rectangles *)
Local Open Scope R_scope.
Local Notation pt := Base_Geom.pt.
(** A vehicle reaching r back, f forward, b to the right and l to the left of its reference point. *)
Record box : Type := mkBox { bx_r : R; bx_f : R; bx_b : R; bx_l : R }.
Definition proper (b : box) : Prop := 0 < bx_r b /\ 0 <= bx_f b /\ 0 < bx_b b /\ 0 <= bx_l b.
Definition corners (b : box) : list pt :=
  [(- bx_r b, - bx_b b); (- bx_r b, bx_l b); (bx_f b, bx_l b); (bx_f b, - bx_b b); (- bx_r b, - bx_b b)].
(** The point u ahead and v to the left of a pose. *)
Definition at_pose (p : pose) (q : pt) : pt :=
  (px p + fst q * cos (pth p) - snd q * sin (pth p), py p + fst q * sin (pth p) + snd q * cos (pth p)).
(** The points covered by the vehicle. *)
Definition covers (b : box) (p : pose) (z : pt) : Prop :=
  exists u v, - bx_r b <= u <= bx_f b /\ - bx_b b <= v <= bx_l b /\ z = at_pose p (u, v).
(** Contract of Collide for rectangles: the rings of two placed boxes meet iff the boxes have a common point. *)
Definition sized (b : box) : Prop := 0 <= bx_r b + bx_f b /\ 0 <= bx_b b + bx_l b.
Definition collide_contract (meets : list pt -> list pt -> bool) : Prop :=
  forall a p b q, sized a -> sized b -> meets (map (at_pose p) (corners a)) (map (at_pose q) (corners b)) = true <-> exists z, covers a p z /\ covers b q z.
Definition grow (dx dy : R) (b : box) : box := mkBox (bx_r b + dx) (bx_f b + dx) (bx_b b + dy) (bx_l b + dy).

Lemma foot_ring_box s b p : center s = (0, 0, 0) -> obj s = corners b -> foot_ring s p = map (at_pose p) (corners b).
Proof.
  intros C E. unfold foot_ring, transform. cbn [obj with_obj]. rewrite C, E, !map_map. apply map_ext. intros (u, v).
  unfold shift_pt, rot_cw, at_pose, px, py, pth. cbn [fst snd]. rewrite cos_neg, sin_neg. f_equal; ring.
Qed.
Lemma inflate_box s b dx dy : center s = (0, 0, 0) -> obj s = corners b -> proper b ->
  obj (base_inflate s dx dy) = corners (grow dx dy b) /\ center (base_inflate s dx dy) = (0, 0, 0).
Proof.
  intros C E (P1 & P2 & P3 & P4). unfold base_inflate. cbn [obj center with_obj]. rewrite C, E. split; [|reflexivity].
  rewrite !map_map.
  assert (K : forall q, shift_pt (px (0, 0, 0)) (py (0, 0, 0)) (rot_cw (- pth (0, 0, 0)) (inflate_pt dx dy (rot_cw (pth (0, 0, 0)) (shift_pt (- px (0, 0, 0)) (- py (0, 0, 0)) q)))) = inflate_pt dx dy q).
  { intros (u, v). unfold px, py, pth. cbn [fst snd].
    assert (Z : forall w, rot_cw 0 w = w) by (intros (x, y); unfold rot_cw; cbn [fst snd]; rewrite cos_0, sin_0; f_equal; ring).
    rewrite Ropp_0, !Z. assert (S0 : forall w, shift_pt 0 0 w = w) by (intros (x, y); unfold shift_pt; cbn [fst snd]; f_equal; ring). now rewrite !S0. }
  rewrite (map_ext _ _ K). unfold corners, grow. cbn [map bx_r bx_f bx_b bx_l].
  assert (I1 : inflate_pt dx dy (- bx_r b, - bx_b b) = (- (bx_r b + dx), - (bx_b b + dy))).
  { unfold inflate_pt. cbn [fst snd]. destruct (Rleb_spec 0 (- bx_r b)); [lra|]. destruct (Rleb_spec 0 (- bx_b b)); [lra|].
    destruct (Rltb_spec (- bx_r b) 0); [|lra]. destruct (Rltb_spec (- bx_b b) 0); [|lra]. cbn [andb]. f_equal; ring. }
  assert (I2 : inflate_pt dx dy (- bx_r b, bx_l b) = (- (bx_r b + dx), bx_l b + dy)).
  { unfold inflate_pt. cbn [fst snd]. destruct (Rleb_spec 0 (- bx_r b)); [lra|]. destruct (Rltb_spec (bx_l b) 0); [lra|]. destruct (Rltb_spec (- bx_r b) 0); [|lra]. cbn [andb]. f_equal; ring. }
  assert (I3 : inflate_pt dx dy (bx_f b, bx_l b) = (bx_f b + dx, bx_l b + dy)).
  { unfold inflate_pt. cbn [fst snd]. destruct (Rleb_spec 0 (bx_f b)); [|lra]. destruct (Rleb_spec 0 (bx_l b)); [|lra]. reflexivity. }
  assert (I4 : inflate_pt dx dy (bx_f b, - bx_b b) = (bx_f b + dx, - (bx_b b + dy))).
  { unfold inflate_pt. cbn [fst snd]. destruct (Rleb_spec 0 (bx_f b)); [|lra]. destruct (Rleb_spec 0 (- bx_b b)); [lra|]. destruct (Rltb_spec (- bx_b b) 0); [|lra]. cbn [andb]. f_equal; ring. }
  rewrite I1, I2, I3, I4. reflexivity.
Qed.
Lemma wide_ring_box s b dx dy p : center s = (0, 0, 0) -> obj s = corners b -> proper b ->
  wide_ring dx dy s p = map (at_pose p) (corners (grow dx dy b)).
Proof. intros C E P. destruct (inflate_box s b dx dy C E P) as (E' & C'). unfold wide_ring. now apply foot_ring_box. Qed.

(** C71. Rectangular vehicles, any headings: if the check finds no violation between two vehicles, their footprints are apart. *)
Theorem C71_no_violation_no_collision : forall meets s b s2 b2 dx dy p p2, collide_contract meets -> 0 <= dx -> 0 <= dy ->
  center s = (0, 0, 0) -> obj s = corners b -> proper b -> center s2 = (0, 0, 0) -> obj s2 = corners b2 -> proper b2 ->
  meets (wide_ring dx dy s p) (foot_ring s2 p2) = false ->
  ~ exists z, covers b p z /\ covers b2 p2 z.
Proof.
  intros meets s b s2 b2 dx dy p p2 M Dx Dy C E P C2 E2 P2 H (z & (u & v & Hu & Hv & ->) & Z2).
  rewrite (wide_ring_box s b dx dy p C E P), (foot_ring_box s2 b2 p2 C2 E2) in H.
  assert (K : meets (map (at_pose p) (corners (grow dx dy b))) (map (at_pose p2) (corners b2)) = true); [|congruence].
  apply M; [destruct P as (A1 & A2 & A3 & A4); unfold sized, grow; cbn [bx_r bx_f bx_b bx_l]; lra|destruct P2; unfold sized; lra|].
  eexists. split; [|exact Z2]. exists u, v. unfold grow. cbn [bx_r bx_f bx_b bx_l]. repeat split; lra.
Qed.

(** C71. Rectangular vehicles with the same heading: a violation is reported iff the gap along the heading is at most the
    longitudinal distance and the gap across it is at most the lateral one. *)
Definition gap1 (x lo hi x2 lo2 hi2 : R) : R := Rmax (x2 - lo2 - (x + hi)) (x - lo - (x2 + hi2)).
Theorem C71_required_distance : forall meets s b s2 b2 dx dy p p2, collide_contract meets -> 0 <= dx -> 0 <= dy ->
  center s = (0, 0, 0) -> obj s = corners b -> proper b -> center s2 = (0, 0, 0) -> obj s2 = corners b2 -> proper b2 -> pth p = pth p2 ->
  let lon q := px q * cos (pth p) + py q * sin (pth p) in let lat q := py q * cos (pth p) - px q * sin (pth p) in
  (meets (wide_ring dx dy s p) (foot_ring s2 p2) || meets (wide_ring dx dy s2 p2) (foot_ring s p) = true <->
   gap1 (lon p) (bx_r b) (bx_f b) (lon p2) (bx_r b2) (bx_f b2) <= dx /\ gap1 (lat p) (bx_b b) (bx_l b) (lat p2) (bx_b b2) (bx_l b2) <= dy).
Proof.
  intros meets s b s2 b2 dx dy p p2 M Dx Dy C E P C2 E2 P2 Th lon lat.
  rewrite orb_true_iff, (wide_ring_box s b dx dy p C E P), (wide_ring_box s2 b2 dx dy p2 C2 E2 P2), (foot_ring_box s b p C E), (foot_ring_box s2 b2 p2 C2 E2).
  assert (T : cos (pth p) * cos (pth p) + sin (pth p) * sin (pth p) = 1) by (pose proof (sin2_cos2 (pth p)) as K; unfold Rsqr in K; lra).
  assert (CV : forall c q z, pth q = pth p -> (covers c q z <-> - bx_r c <= (fst z * cos (pth p) + snd z * sin (pth p)) - lon q <= bx_f c /\
                                                           - bx_b c <= (snd z * cos (pth p) - fst z * sin (pth p)) - lat q <= bx_l c)).
  { intros c q (zx, zy) Hq. unfold covers, at_pose, lon, lat. rewrite Hq. cbn [fst snd]. set (co := cos (pth p)) in *. set (si := sin (pth p)) in *. split.
    - intros (u & v & Hu & Hv & K). injection K as -> ->.
      replace ((px q + u * co - v * si) * co + (py q + u * si + v * co) * si - (px q * co + py q * si)) with (u * (co * co + si * si)) by ring.
      replace ((py q + u * si + v * co) * co - (px q + u * co - v * si) * si - (py q * co - px q * si)) with (v * (co * co + si * si)) by ring.
      rewrite T. lra.
    - intros (Hu & Hv). exists ((zx * co + zy * si) - (px q * co + py q * si)), ((zy * co - zx * si) - (py q * co - px q * si)).
      split; [exact Hu|]. split; [exact Hv|]. f_equal.
      + transitivity (px q + (zx - px q) * (co * co + si * si)); [rewrite T; ring|ring].
      + transitivity (py q + (zy - py q) * (co * co + si * si)); [rewrite T; ring|ring]. }
  destruct P as (A1 & A2 & A3 & A4). destruct P2 as (B1 & B2 & B3 & B4).
  assert (G : forall c q d r, pth q = pth p -> pth r = pth p -> 0 <= bx_r c + bx_f c -> 0 <= bx_b c + bx_l c -> 0 <= bx_r d + bx_f d -> 0 <= bx_b d + bx_l d ->
    ((exists z, covers c q z /\ covers d r z) <-> lon r - bx_r d <= lon q + bx_f c /\ lon q - bx_r c <= lon r + bx_f d /\
                                                lat r - bx_b d <= lat q + bx_l c /\ lat q - bx_b c <= lat r + bx_l d)).
  { intros c q d r Hq Hr W1 W2 W3 W4. split.
    - intros (z & Z1 & Z2). apply CV in Z1; [|exact Hq]. apply CV in Z2; [|exact Hr]. lra.
    - intros (L1 & L2 & L3 & L4).
      set (g := Rmax (lon q - bx_r c) (lon r - bx_r d)). set (h := Rmax (lat q - bx_b c) (lat r - bx_b d)).
      exists (g * cos (pth p) - h * sin (pth p), g * sin (pth p) + h * cos (pth p)).
      assert (Hg : (g * cos (pth p) - h * sin (pth p)) * cos (pth p) + (g * sin (pth p) + h * cos (pth p)) * sin (pth p) = g).
      { transitivity (g * (cos (pth p) * cos (pth p) + sin (pth p) * sin (pth p))); [ring|rewrite T; ring]. }
      assert (Hh : (g * sin (pth p) + h * cos (pth p)) * cos (pth p) - (g * cos (pth p) - h * sin (pth p)) * sin (pth p) = h).
      { transitivity (h * (cos (pth p) * cos (pth p) + sin (pth p) * sin (pth p))); [ring|rewrite T; ring]. }
      split; apply CV; auto; cbn [fst snd]; rewrite Hg, Hh; unfold g, h, Rmax; destruct (Rle_dec _ _), (Rle_dec _ _); lra. }
  unfold collide_contract in M. rewrite !M, !G by (unfold sized, grow; cbn [bx_r bx_f bx_b bx_l]; auto; lra).
  unfold grow, gap1. cbn [bx_r bx_f bx_b bx_l]. unfold Rmax. destruct (Rle_dec _ _), (Rle_dec _ _); lra.
Qed.

(** C71. For a shape whose rear edge runs through the reference point, the zone does not extend backwards: the rear edge of the
    inflated shape lies dx AHEAD of the vehicle's own rear edge. *)
Theorem C71_reference_on_rear_edge_refuted : forall dx dy f w, 0 < dx -> 0 < f -> 0 < w -> 0 <= dy ->
  forall s, center s = (0, 0, 0) -> obj s = [(0, - w); (0, w); (f, w); (f, - w); (0, - w)] ->
  forall q, In q (wide_ring dx dy s (0, 0, 0)) -> dx <= fst q.
Proof.
  intros dx dy f w Hdx Hf Hw Hdy s C E q.
  unfold wide_ring, transform, base_inflate. cbn [obj center with_obj]. rewrite C, E. unfold px, py, pth. cbn [fst snd map].
  assert (Z : forall x, rot_cw 0 x = x) by (intros (x, y); unfold rot_cw; cbn [fst snd]; rewrite cos_0, sin_0; f_equal; ring).
  rewrite Ropp_0, !Z. unfold shift_pt, inflate_pt. cbn [fst snd].
  replace (0 + 0) with 0 by ring. replace (f + 0) with f by ring. replace (- w + 0) with (- w) by ring. replace (w + 0) with w by ring.
  destruct (Rleb_spec 0 0); [|lra]. destruct (Rleb_spec 0 w); [|lra]. destruct (Rleb_spec 0 (- w)); [lra|]. destruct (Rltb_spec (- w) 0); [|lra].
  destruct (Rleb_spec 0 f); [|lra]. cbn [andb fst snd In].
  intros [<-|[<-|[<-|[<-|[<-|[]]]]]]; cbn [fst]; lra.
Qed.

(** The contract can be met: the region of a ring of four corners is the parallelogram they span. *)
Definition spans (l : list pt) (z : pt) : Prop :=
  exists A B C D E u v, l = [A; B; C; D; E] /\ 0 <= u <= 1 /\ 0 <= v <= 1 /\
    z = (fst A + u * (fst D - fst A) + v * (fst B - fst A), snd A + u * (snd D - snd A) + v * (snd B - snd A)).
Lemma part_of lo hi x : 0 <= lo + hi -> (- lo <= x <= hi <-> exists t, 0 <= t <= 1 /\ x = - lo + t * (hi + lo)).
Proof.
  intro H. split.
  - intros Hx. destruct (Req_dec (lo + hi) 0) as [K|K]; [exists 0; split; lra|].
    exists ((x + lo) / (lo + hi)). assert (E : (x + lo) / (lo + hi) * (lo + hi) = x + lo) by (field; lra). split; [split; nra|lra].
  - intros (t & Ht & ->). split; nra.
Qed.
Lemma spans_covers b p z : sized b -> (spans (map (at_pose p) (corners b)) z <-> covers b p z).
Proof.
  intros (S1 & S2). unfold spans, covers. split.
  - intros (A & B & C & D & E & u & v & K & Hu & Hv & ->). unfold corners in K. cbn [map] in K. injection K as <- <- <- <- <-.
    exists (- bx_r b + u * (bx_f b + bx_r b)), (- bx_b b + v * (bx_l b + bx_b b)).
    split; [apply part_of; eauto|]. split; [apply part_of; eauto|]. unfold at_pose. cbn [fst snd]. f_equal; ring.
  - intros (u & v & Hu & Hv & ->). apply part_of in Hu as (t & Ht & ->); [|exact S1]. apply part_of in Hv as (w & Hw & ->); [|exact S2].
    do 5 eexists. exists t, w. split; [unfold corners; cbn [map]; reflexivity|]. split; [exact Ht|]. split; [exact Hw|].
    unfold at_pose. cbn [fst snd]. f_equal; ring.
Qed.
(** Two cars (two metres wide, four long) in line, one metre apart: too close for a required distance of two metres, not for a half. *)
Definition car_box : box := mkBox 1 3 1 1.
Definition box_shape (b : box) : shape := mkShape (corners b) (0, 0, 0) 0 0 0 0.
Example C71_rectangles_nonvacuous : exists meets, collide_contract meets /\
  meets (wide_ring 2 1 (box_shape car_box) (0, 0, 0)) (foot_ring (box_shape car_box) (5, 0, 0)) ||
    meets (wide_ring 2 1 (box_shape car_box) (5, 0, 0)) (foot_ring (box_shape car_box) (0, 0, 0)) = true /\
  meets (wide_ring (1 / 2) 1 (box_shape car_box) (0, 0, 0)) (foot_ring (box_shape car_box) (5, 0, 0)) ||
    meets (wide_ring (1 / 2) 1 (box_shape car_box) (5, 0, 0)) (foot_ring (box_shape car_box) (0, 0, 0)) = false.
Proof.
  set (meets := fun l m => if excluded_middle_informative (exists z, spans l z /\ spans m z) then true else false).
  assert (M : collide_contract meets).
  { intros a p b q Ha Hb. unfold meets. destruct (excluded_middle_informative _) as [(z & A & B)|N].
    - split; [intros _|auto]. exists z. split; [apply (spans_covers a p z Ha), A|apply (spans_covers b q z Hb), B].
    - split; [discriminate|]. intros (z & A & B). exfalso. apply N. exists z. split; [apply (spans_covers a p z Ha), A|apply (spans_covers b q z Hb), B]. }
  assert (Pr : proper car_box) by (unfold proper, car_box; cbn; lra).
  exists meets. split; [exact M|]. split.
  - apply (C71_required_distance meets (box_shape car_box) car_box (box_shape car_box) car_box 2 1 (0, 0, 0) (5, 0, 0)); auto; try lra.
    unfold px, py, pth. cbn. rewrite cos_0, sin_0. unfold gap1, Rmax. destruct (Rle_dec _ _), (Rle_dec _ _); lra.
  - apply not_true_is_false. intro K.
    apply (C71_required_distance meets (box_shape car_box) car_box (box_shape car_box) car_box (1 / 2) 1 (0, 0, 0) (5, 0, 0)) in K; auto; try lra.
    revert K. unfold px, py, pth. cbn. rewrite cos_0, sin_0. unfold gap1, Rmax. destruct (Rle_dec _ _), (Rle_dec _ _); lra.
Qed.
Print Assumptions C71_violations_are_real. Print Assumptions C71_violations_up_to_four_agents. Print Assumptions C71_missing_ego.
Print Assumptions C71_counts_violations. Print Assumptions C71_world_without_agent. Print Assumptions C71_world_with_agent.
Print Assumptions C71_drivable_area. Print Assumptions C71_five_agents_refuted. Print Assumptions C71_no_violation_no_collision.
Print Assumptions C71_required_distance. Print Assumptions C71_reference_on_rear_edge_refuted.
