(** Proofs about polylines. *)
From Coq Require Import Reals List Bool Lra Lia Psatz Arith.
From Verif Require Import Base_Real Base_Geom Model_Line Spec_Line.
Import ListNotations.
Local Open Scope R_scope.

Lemma bg_length_plen l : bg_length l = polyline_length l.
Proof. reflexivity. Qed.

Lemma plen_step l : forall i p q, nth_error l i = Some p -> nth_error l (S i) = Some q ->
  polyline_length (firstn (S (S i)) l) = polyline_length (firstn (S i) l) + dist p q.
Proof.
  induction l as [|a l IH]; intros i p q Hp Hq; [destruct i; discriminate|].
  destruct i as [|i].
  - cbn in Hp. inversion Hp; subst. destruct l as [|b l]; [discriminate|]. cbn in Hq. inversion Hq; subst.
    cbn. lra.
  - destruct l as [|b l]; [destruct i; discriminate|]. cbn [nth_error] in Hp, Hq.
    specialize (IH i p q Hp Hq).
    change (firstn (S (S (S i))) (a :: b :: l)) with (a :: b :: firstn (S i) l).
    change (firstn (S (S i)) (a :: b :: l)) with (a :: b :: firstn i l).
    change (firstn (S (S i)) (b :: l)) with (b :: firstn (S i) l) in IH.
    change (firstn (S i) (b :: l)) with (b :: firstn i l) in IH.
    cbn [polyline_length] in *. rewrite IH. ring.
Qed.
Lemma plen_nonneg l : 0 <= polyline_length l.
Proof.
  induction l as [|p [|q r] IH]; [cbn; lra|cbn; lra|].
  cbn [polyline_length] in *. pose proof (dist_nonneg p q). lra.
Qed.

Lemma rs_loop_length l : forall acc p, length (rs_loop acc p l) = length l.
Proof. induction l; intros; cbn; auto. Qed.
Lemma rs_loop_nth l : forall acc p i, (i < length l)%nat ->
  nth_error (rs_loop acc p l) i = Some (acc + polyline_length (p :: firstn (S i) l)).
Proof.
  induction l as [|a l IH]; intros acc p i H; [cbn in H; lia|].
  destruct i as [|i].
  - cbn. rewrite (dist_sym a p). f_equal. ring.
  - cbn [rs_loop nth_error]. cbn [length] in H. rewrite IH by lia. f_equal.
    change (firstn (S (S i)) (a :: l)) with (a :: firstn (S i) l).
    cbn [polyline_length]. rewrite (dist_sym a p). ring.
Qed.
Lemma recompute_spec l : arc_lengths_of l (recompute l).
Proof.
  destruct l as [|p [|q r]].
  - split; auto. cbn. intros i H. lia.
  - split; auto. cbn. intros i H. assert (i = 0%nat) by lia. subst. reflexivity.
  - unfold recompute. split; [apply rs_loop_length|]. intros i H. rewrite rs_loop_nth by exact H.
    f_equal. change (firstn (S i) (p :: q :: r)) with (p :: firstn i (q :: r)).
    cbn [polyline_length]. rewrite dist_refl. ring.
Qed.
Lemma nth_error_ext {A} (l m : list A) : (forall i, nth_error l i = nth_error m i) -> l = m.
Proof.
  revert m. induction l as [|a l IH]; intros [|b m] H; auto.
  - specialize (H 0%nat). discriminate.
  - specialize (H 0%nat). discriminate.
  - pose proof (H 0%nat) as H0. cbn in H0. inversion H0; subst. f_equal. apply IH. intros i. apply (H (S i)).
Qed.
Lemma arc_lengths_unique l s : arc_lengths_of l s -> s = recompute l.
Proof.
  intros [L H]. destruct (recompute_spec l) as [L' H']. apply nth_error_ext. intros i.
  destruct (lt_dec i (length l)) as [X|X].
  - rewrite H, H' by auto. reflexivity.
  - rewrite (proj2 (nth_error_None s i)), (proj2 (nth_error_None (recompute l) i)) by lia. reflexivity.
Qed.

Definition S_ (l : list pt) (i : nat) : R := polyline_length (firstn (S i) l).

Lemma S_0 l : S_ l 0 = 0.
Proof. unfold S_. destruct l; reflexivity. Qed.
Lemma S_step l i p q : nth_error l i = Some p -> nth_error l (S i) = Some q -> S_ l (S i) = S_ l i + dist p q.
Proof. apply plen_step. Qed.
Lemma S_last l : (0 < length l)%nat -> S_ l (length l - 1) = polyline_length l.
Proof. intros H. unfold S_. rewrite firstn_all2 by lia. reflexivity. Qed.

Lemma nth_some {A} (l : list A) i : (i < length l)%nat -> exists x, nth_error l i = Some x.
Proof. intros H. destruct (nth_error l i) eqn:E; eauto. apply nth_error_None in E. lia. Qed.
Lemma nth_lt {A} (l : list A) i x : nth_error l i = Some x -> (i < length l)%nat.
Proof. intros H. apply nth_error_Some. congruence. Qed.

(** The distance between two vertices is at most the arc length between them. *)
Lemma vertex_dist l i j p q : (i <= j)%nat -> nth_error l i = Some p -> nth_error l j = Some q ->
  dist p q <= S_ l j - S_ l i.
Proof.
  intros Hij Hp. revert q. induction Hij as [|j Hij IH]; intros q Hq.
  - assert (p = q) by congruence. subst. rewrite dist_refl. lra.
  - destruct (nth_some l j) as [r Hr]; [apply nth_lt in Hq; lia|].
    specialize (IH r Hr). rewrite (S_step l j r q Hr Hq). pose proof (dist_tri p r q). lra.
Qed.
Lemma S_mono l i j : (i <= j)%nat -> (j < length l)%nat -> S_ l i <= S_ l j.
Proof.
  intros H Hj. destruct (nth_some l i) as [p Hp]; [lia|]. destruct (nth_some l j) as [q Hq]; [lia|].
  pose proof (vertex_dist l i j p q H Hp Hq). pose proof (dist_nonneg p q). lra.
Qed.

Lemma at_arclength_lip l s s' P Q : at_arclength l s P -> at_arclength l s' Q -> dist P Q <= Rabs (s - s').
Proof.
  assert (G : forall i j s s' P Q p q p' q' t t', (i < j)%nat ->
    nth_error l i = Some p -> nth_error l (S i) = Some q -> 0 <= t <= 1 -> P = lerp t p q -> s = S_ l i + dist p P ->
    nth_error l j = Some p' -> nth_error l (S j) = Some q' -> 0 <= t' <= 1 -> Q = lerp t' p' q' -> s' = S_ l j + dist p' Q ->
    dist P Q <= s' - s).
  { clear. intros i j s s' P Q p q p' q' t t' Hij Hp Hq Ht EP Es Hp' Hq' Ht' EQ Es'.
    pose proof (vertex_dist l (S i) j q p' Hij Hq Hp') as V. pose proof (S_step l i p q Hp Hq) as E.
    assert (dist P q = dist p q - dist p P).
    { subst P. rewrite dist_lerp_r, dist_lerp_l by lra. ring. }
    pose proof (dist_tri P q Q). pose proof (dist_tri q p' Q). lra. }
  intros (i & p & q & t & Hp & Hq & Ht & EP & Es) (j & p' & q' & t' & Hp' & Hq' & Ht' & EQ & Es').
  fold (S_ l i) in Es. fold (S_ l j) in Es'.
  destruct (lt_eq_lt_dec i j) as [[H|H]|H].
  - pose proof (G i j s s' P Q p q p' q' t t' H Hp Hq Ht EP Es Hp' Hq' Ht' EQ Es') as D.
    pose proof (dist_nonneg P Q). rewrite Rabs_minus_sym, Rabs_pos_eq; lra.
  - subst j. assert (p' = p) by congruence. assert (q' = q) by congruence. subst.
    rewrite dist_lerp, !dist_lerp_l by lra.
    replace (S_ l i + t * dist p q - (S_ l i + t' * dist p q)) with ((t - t') * dist p q) by ring.
    rewrite Rabs_mult, (Rabs_pos_eq (dist p q)) by apply dist_nonneg. lra.
  - pose proof (G j i s' s Q P p' q' p q t' t H Hp' Hq' Ht' EQ Es' Hp Hq Ht EP Es) as D.
    rewrite dist_sym. pose proof (dist_nonneg Q P). rewrite Rabs_pos_eq; lra.
Qed.
Lemma at_arclength_unique l s P Q : at_arclength l s P -> at_arclength l s Q -> P = Q.
Proof.
  intros H1 H2. pose proof (at_arclength_lip l s s P Q H1 H2) as H.
  replace (s - s) with 0 in H by ring. rewrite Rabs_R0 in H. apply dist_zero. pose proof (dist_nonneg P Q). lra.
Qed.
Lemma at_arclength_range l s P : at_arclength l s P -> 0 <= s <= polyline_length l.
Proof.
  intros (i & p & q & t & Hp & Hq & Ht & EP & Es). fold (S_ l i) in Es.
  assert (Li : (S i < length l)%nat) by (eapply nth_lt; eauto).
  pose proof (S_mono l 0 i ltac:(lia) ltac:(lia)) as A. rewrite S_0 in A.
  pose proof (S_mono l (S i) (length l - 1) ltac:(lia) ltac:(lia)) as B. rewrite S_last in B by lia.
  rewrite (S_step l i p q Hp Hq) in B. pose proof (dist_nonneg p P).
  assert (dist p P <= dist p q). { subst P. rewrite dist_lerp_l by lra. pose proof (dist_nonneg p q). nra. }
  lra.
Qed.
Lemma at_arclength_vertex l i p : nth_error l i = Some p -> (2 <= length l)%nat -> at_arclength l (S_ l i) p.
Proof.
  intros Hp HL. destruct (nth_error l (S i)) as [q|] eqn:Hq.
  - exists i, p, q, 0. repeat split; try lra; auto. now rewrite lerp0. fold (S_ l i). rewrite dist_refl. lra.
  - apply nth_error_None in Hq. pose proof (nth_lt l i p Hp). destruct i as [|i]; [lia|].
    destruct (nth_some l i) as [r Hr]; [lia|]. exists i, r, p, 1. repeat split; try lra; auto.
    now rewrite lerp1. fold (S_ l i). rewrite (S_step l i r p Hr Hp). reflexivity.
Qed.
Lemma at_arclength_on l s P : at_arclength l s P -> on_polyline l P.
Proof. intros (i & p & q & t & Hp & Hq & Ht & EP & Es). exists i, t, p, q. auto. Qed.

(** Searching in the stored arc lengths. *)
Lemma upper_bound_spec l s :
  (upper_bound l s <= length l)%nat /\
  (forall i x, (i < upper_bound l s)%nat -> nth_error l i = Some x -> x <= s) /\
  (forall x, nth_error l (upper_bound l s) = Some x -> s < x).
Proof.
  induction l as [|a l [IH1 [IH2 IH3]]]; cbn.
  - repeat split; intros; try lia. discriminate.
  - destruct (Rltb_spec s a).
    + repeat split; intros; try lia. cbn in *. match goal with X : Some _ = Some _ |- _ => inversion X; subst; lra end.
    + split; [lia|]. split.
      * intros [|i] x Hi Hx; cbn in Hx; [inversion Hx; subst; lra|]. apply (IH2 i); auto; lia.
      * exact IH3.
Qed.
Lemma lower_bound_spec l s :
  (lower_bound l s <= length l)%nat /\
  (forall i x, (i < lower_bound l s)%nat -> nth_error l i = Some x -> x < s) /\
  (forall x, nth_error l (lower_bound l s) = Some x -> s <= x).
Proof.
  induction l as [|a l [IH1 [IH2 IH3]]]; cbn.
  - repeat split; intros; try lia. discriminate.
  - destruct (Rltb_spec a s).
    + split; [lia|]. split.
      * intros [|i] x Hi Hx; cbn in Hx; [inversion Hx; subst; lra|]. apply (IH2 i); auto; lia.
      * exact IH3.
    + repeat split; intros; try lia. cbn in *. match goal with X : Some _ = Some _ |- _ => inversion X; subst; lra end.
Qed.

Definition consistent (l : line) : Prop := arc_lengths_of (pts l) (ss l).

Lemma cons_nth l i : consistent l -> (i < length (pts l))%nat -> nth_error (ss l) i = Some (S_ (pts l) i).
Proof. intros [_ H] Hi. apply H, Hi. Qed.
Lemma cons_last l : consistent l -> (0 < length (pts l))%nat -> last_opt (ss l) = Some (polyline_length (pts l)).
Proof.
  intros H Hl. unfold last_opt. rewrite (proj1 H), (cons_nth l) by (auto; lia). rewrite S_last; auto.
Qed.

Lemma segment_end_cons l s : consistent l -> (2 <= length (pts l))%nat -> 0 <= s < polyline_length (pts l) ->
  exists i p q, segment_end_idx l s = S i /\ nth_error (pts l) i = Some p /\ nth_error (pts l) (S i) = Some q /\
    S_ (pts l) i <= s < S_ (pts l) (S i) /\ upper_bound (ss l) s = S i.
Proof.
  intros C L H. destruct (upper_bound_spec (ss l) s) as [U1 [U2 U3]].
  assert (LS : length (ss l) = length (pts l)) by apply C.
  assert (U4 : upper_bound (ss l) s <> length (ss l)).
  { intros E. pose proof (cons_nth l (length (pts l) - 1) C ltac:(lia)) as N.
    specialize (U2 (length (pts l) - 1)%nat _ ltac:(lia) N). rewrite S_last in U2 by lia. lra. }
  unfold segment_end_idx. cbv zeta. destruct (Nat.eqb_spec (upper_bound (ss l) s) (length (ss l))); [tauto|].
  destruct (upper_bound (ss l) s) as [|i] eqn:E; rewrite ?E in *.
  - exfalso. pose proof (U3 _ (cons_nth l 0 C ltac:(lia))) as X. rewrite S_0 in X. lra.
  - assert (Li : (S i < length (pts l))%nat) by lia.
    destruct (nth_some (pts l) i) as [p Hp]; [lia|]. destruct (nth_some (pts l) (S i)) as [q Hq]; [lia|].
    exists i, p, q. repeat split; auto.
    + apply (U2 i); [lia|]. apply cons_nth; auto; lia.
    + apply U3. apply cons_nth; auto; lia.
Qed.

Lemma get_point_spec l s : consistent l -> (2 <= length (pts l))%nat ->
  exists P, get_point_at_s l s = Some P /\ at_arclength (pts l) (clamp 0 (polyline_length (pts l)) s) P.
Proof.
  intros C L. pose proof (plen_nonneg (pts l)) as PN. unfold get_point_at_s. cbv zeta.
  destruct (Nat.leb_spec (length (pts l)) 1); [lia|]. unfold clamp.
  destruct (Rleb_spec s 0).
  - destruct (nth_some (pts l) 0) as [p Hp]; [lia|]. exists p. split; auto.
    replace (Rmax 0 _) with 0.
    2:{ rewrite Rmin_right by lra. rewrite Rmax_left; lra. }
    rewrite <- (S_0 (pts l)). apply at_arclength_vertex; auto.
  - rewrite cons_last by (auto; lia). destruct (Rleb_spec (polyline_length (pts l)) s).
    + destruct (nth_some (pts l) (length (pts l) - 1)) as [p Hp]; [lia|]. exists p. split; auto.
      replace (Rmax 0 _) with (polyline_length (pts l)).
      2:{ rewrite Rmin_left by lra. rewrite Rmax_right; lra. }
      rewrite <- S_last by lia. apply at_arclength_vertex; auto.
    + destruct (segment_end_cons l s C L ltac:(lra)) as (i & p & q & E & Hp & Hq & HS & _).
      pose proof (nth_lt _ _ _ Hq) as Lq.
      rewrite E, (cons_nth l i), (cons_nth l (S i)), Hp, Hq by (auto; lia).
      destruct (Reqb_spec (S_ (pts l) (S i) - S_ (pts l) i) 0); [lra|].
      pose proof (S_step (pts l) i p q Hp Hq) as ES.
      eexists. split; [reflexivity|].
      replace (Rmax 0 _) with s.
      2:{ rewrite Rmin_right by lra. rewrite Rmax_right; lra. }
      assert (D : 0 < dist p q) by lra.
      exists i, p, q, ((s - S_ (pts l) i) / (S_ (pts l) (S i) - S_ (pts l) i)).
      assert (B : 0 <= (s - S_ (pts l) i) / (S_ (pts l) (S i) - S_ (pts l) i) <= 1).
      { rewrite ES. replace (S_ (pts l) i + dist p q - S_ (pts l) i) with (dist p q) by ring.
        split; [apply Rmult_le_pos; [lra|left; apply Rinv_0_lt_compat; lra]|].
        apply Rmult_le_reg_r with (dist p q); auto. unfold Rdiv. rewrite Rmult_assoc, Rinv_l by lra. lra. }
      split; [auto|]. split; [auto|]. split; [exact B|]. split; [reflexivity|].
      fold (S_ (pts l) i).
      change (_, _) with (lerp ((s - S_ (pts l) i) / (S_ (pts l) (S i) - S_ (pts l) i)) p q).
      rewrite dist_lerp_l by lra. rewrite ES.
      replace (S_ (pts l) i + dist p q - S_ (pts l) i) with (dist p q) by ring. field. lra.
Qed.

(** Nearest point of a segment. *)
Lemma sq_nonneg x : 0 <= x * x.
Proof. apply Rle_0_sqr. Qed.
Lemma seg_dist2_min p a b t : 0 <= t <= 1 -> seg_dist2 p a b <= dist2 p (lerp t a b).
Proof.
  intros Ht. unfold seg_dist2. cbv zeta. destruct p as [p1 p2], a as [a1 a2], b as [b1 b2]. cbn [fst snd].
  set (vx := b1 - a1). set (vy := b2 - a2). set (wx := p1 - a1). set (wy := p2 - a2).
  unfold lerp, dist2. cbn [fst snd]. fold vx vy.
  replace (p1 - (a1 + t * vx)) with (wx - t * vx) by (unfold wx; ring).
  replace (p2 - (a2 + t * vy)) with (wy - t * vy) by (unfold wy; ring).
  replace (p1 - b1) with (wx - vx) by (unfold wx, vx; ring).
  replace (p2 - b2) with (wy - vy) by (unfold wy, vy; ring). fold wx wy.
  destruct (Rleb_spec (wx * vx + wy * vy) 0) as [H|H].
  - nra.
  - destruct (Rleb_spec (vx * vx + vy * vy) (wx * vx + wy * vy)) as [H'|H'].
    + assert (0 <= (1 - t) * ((wx * vx + wy * vy) - (vx * vx + vy * vy))) by (apply Rmult_le_pos; lra).
      assert (0 <= (1 - t) * (1 - t) * (vx * vx + vy * vy)).
      { apply Rmult_le_pos; [apply sq_nonneg|]. pose proof (sq_nonneg vx). pose proof (sq_nonneg vy). lra. }
      clearbody vx vy wx wy. nra.
    + set (c := wx * vx + wy * vy) in *. set (n := vx * vx + vy * vy) in *.
      replace (p1 - (a1 + c / n * vx)) with (wx - c / n * vx) by (unfold wx; ring).
      replace (p2 - (a2 + c / n * vy)) with (wy - c / n * vy) by (unfold wy; ring).
      assert (E : c = c / n * n) by (field; lra).
      set (u := c / n) in *.
      assert (D : (wx - t * vx) * (wx - t * vx) + (wy - t * vy) * (wy - t * vy) -
                  ((wx - u * vx) * (wx - u * vx) + (wy - u * vy) * (wy - u * vy)) =
                  (t * t - u * u) * n - 2 * (t - u) * c) by (unfold n, c; ring).
      rewrite E in D. assert (0 <= (t - u) * (t - u) * n).
      { apply Rmult_le_pos; [apply sq_nonneg|]. unfold n. pose proof (sq_nonneg vx). pose proof (sq_nonneg vy). lra. }
      clearbody u n. nra.
Qed.

Lemma sq_sum_zero a b : a * a + b * b = 0 -> a = 0 /\ b = 0.
Proof. apply Rplus_sqr_eq_0. Qed.

Lemma nearest_on_segment_spec a b p sa sb idx : a <> b ->
  exists P t, nearest_on_segment a b p sa sb idx = Some (P, (1 - t) * sa + t * sb, idx) /\
    0 <= t <= 1 /\ P = lerp t a b /\ dist2 p P = seg_dist2 p a b.
Proof.
  intros Hab. unfold nearest_on_segment, seg_dist2. cbv zeta.
  destruct p as [p1 p2], a as [a1 a2], b as [b1 b2]. cbn [fst snd].
  set (den := a1 * a1 - 2 * a1 * b1 + a2 * a2 - 2 * a2 * b2 + b1 * b1 + b2 * b2).
  assert (ED : (b1 - a1) * (b1 - a1) + (b2 - a2) * (b2 - a2) = den) by (unfold den; ring).
  assert (DP : 0 < den).
  { rewrite <- ED. destruct (Rle_lt_or_eq_dec 0 ((b1 - a1) * (b1 - a1) + (b2 - a2) * (b2 - a2))) as [X|X];
      [pose proof (sq_nonneg (b1 - a1)); pose proof (sq_nonneg (b2 - a2)); lra|auto|].
    symmetry in X. apply sq_sum_zero in X. exfalso. apply Hab. f_equal; lra. }
  destruct (Reqb_spec den 0); [lra|]. rewrite ED.
  set (c := (p1 - a1) * (b1 - a1) + (p2 - a2) * (b2 - a2)).
  assert (EL : - (a1 * b1 + a2 * b2 + a1 * p1 + a2 * p2 - b1 * p1 - b2 * p2 - a1 * a1 - a2 * a2) / den = c / den).
  { unfold c. f_equal. ring. }
  rewrite EL. set (u := c / den).
  assert (EC : c = u * den) by (unfold u; field; lra).
  destruct (Rltb_spec u 0).
  - exists (a1, a2), 0. rewrite lerp0. repeat split; try lra.
    + replace ((1 - 0) * sa + 0 * sb) with sa by ring. reflexivity.
    + destruct (Rleb_spec c 0); [reflexivity|nra].
  - destruct (Rltb_spec 1 u).
    + exists (b1, b2), 1. rewrite lerp1. repeat split; try lra.
      * replace ((1 - 1) * sa + 1 * sb) with sb by ring. reflexivity.
      * destruct (Rleb_spec c 0); [nra|]. destruct (Rleb_spec den c); [reflexivity|nra].
    + assert (EP : forall x y, x = a1 + u * (b1 - a1) -> y = a2 + u * (b2 - a2) -> (x, y) = lerp u (a1, a2) (b1, b2)).
      { intros x y -> ->. reflexivity. }
      eexists. exists u. split; [reflexivity|]. split; [lra|].
      assert (EPP : forall P, P = lerp u (a1, a2) (b1, b2) ->
         P = lerp u (a1, a2) (b1, b2) /\ dist2 (p1, p2) P =
         (if Rleb c 0 then dist2 (p1, p2) (a1, a2) else if Rleb den c then dist2 (p1, p2) (b1, b2)
          else dist2 (p1, p2) (lerp u (a1, a2) (b1, b2)))).
      { intros P ->. split; [reflexivity|]. destruct (Rleb_spec c 0).
        - assert (Z : u = 0) by nra. rewrite Z, lerp0. reflexivity.
        - destruct (Rleb_spec den c); [|reflexivity]. assert (Z : u = 1) by nra. rewrite Z, lerp1. reflexivity. }
      apply EPP. apply EP.
      * unfold u, c, den. field. fold den. lra.
      * unfold u, c, den. field. fold den. lra.
Qed.

Definition seg_d2 (l : list pt) (p : pt) (i : nat) : option R :=
  match nth_error l i, nth_error l (S i) with Some a, Some b => Some (seg_dist2 p a b) | _, _ => None end.

Lemma min_seg_spec l p : forall k best bi,
  let r := min_seg l p k best bi in
  (r = bi /\ (forall i d, seg_d2 l p i = Some d -> match best with None => False | Some m => m <= d end)) \/
  (exists j dj, r = (k + j)%nat /\ seg_d2 l p j = Some dj /\
     (forall i d, seg_d2 l p i = Some d -> dj <= d) /\
     (forall i d, (i < j)%nat -> seg_d2 l p i = Some d -> dj < d) /\
     match best with None => True | Some m => dj < m end).
Proof.
  induction l as [|a l IH]; intros k best bi r.
  - left. split; auto. intros i d H. unfold seg_d2 in H. destruct i; discriminate.
  - destruct l as [|b l].
    + left. split; auto. intros i d H. unfold seg_d2 in H. destruct i as [|[|i]]; discriminate.
    + unfold r. set (d0 := seg_dist2 p a b).
      change (min_seg (a :: b :: l) p k best bi) with
        (if match best with None => true | Some m => Rltb d0 m end
         then min_seg (b :: l) p (S k) (Some d0) k else min_seg (b :: l) p (S k) best bi). clear r.
      assert (E0 : seg_d2 (a :: b :: l) p 0 = Some d0) by reflexivity.
      assert (ES : forall i, seg_d2 (a :: b :: l) p (S i) = seg_d2 (b :: l) p i) by reflexivity.
      assert (Case : (match best with None => true | Some m => Rltb d0 m end) = true /\
                     match best with None => True | Some m => d0 < m end \/
                     (match best with None => true | Some m => Rltb d0 m end) = false /\ exists m, best = Some m /\ m <= d0).
      { destruct best as [m|]; [|left; auto]. destruct (Rltb_spec d0 m); [left|right]; eauto. }
      destruct Case as [[-> HB]|[-> [m [-> HB]]]].
      * specialize (IH (S k) (Some d0) k). cbv zeta in IH.
        destruct IH as [[Er H]|(j & dj & Er & Hj & H1 & H2 & H3)].
        -- right. exists 0%nat, d0. split; [rewrite Er; lia|]. split; [auto|]. split.
           ++ intros [|i] d Hd; [rewrite E0 in Hd; inversion Hd; lra|]. rewrite ES in Hd. apply (H i d Hd).
           ++ split; [intros; lia|auto].
        -- right. exists (S j), dj. split; [rewrite Er; lia|]. rewrite ES. split; [auto|]. split.
           ++ intros [|i] d Hd; [rewrite E0 in Hd; inversion Hd; lra|]. rewrite ES in Hd. eauto.
           ++ split.
              ** intros [|i] d Hi Hd; [rewrite E0 in Hd; inversion Hd; lra|]. rewrite ES in Hd. apply (H2 i); auto; lia.
              ** destruct best; [lra|auto].
      * specialize (IH (S k) (Some m) bi). cbv zeta in IH.
        destruct IH as [[Er H]|(j & dj & Er & Hj & H1 & H2 & H3)].
        -- left. split; [auto|]. intros [|i] d Hd; [rewrite E0 in Hd; inversion Hd; lra|]. rewrite ES in Hd. apply (H i d Hd).
        -- right. exists (S j), dj. split; [rewrite Er; lia|]. rewrite ES. split; [auto|]. split.
           ++ intros [|i] d Hd; [rewrite E0 in Hd; inversion Hd; lra|]. rewrite ES in Hd. eauto.
           ++ split.
              ** intros [|i] d Hi Hd; [rewrite E0 in Hd; inversion Hd; lra|]. rewrite ES in Hd. apply (H2 i); auto; lia.
              ** auto.
Qed.

Lemma seg_dist2_degenerate p a : seg_dist2 p a a = dist2 p a.
Proof.
  unfold seg_dist2. cbv zeta. destruct (Rleb_spec ((fst p - fst a) * (fst a - fst a) + (snd p - snd a) * (snd a - snd a)) 0) as [|H]; auto.
  exfalso. replace (fst a - fst a) with 0 in H by ring. replace (snd a - snd a) with 0 in H by ring. lra.
Qed.
Lemma seg_dist2_end p a b : seg_dist2 p a b <= dist2 p b.
Proof. rewrite <- (lerp1 a b) at 2. apply seg_dist2_min. lra. Qed.

Lemma min_seg_cons l p : (2 <= length l)%nat ->
  exists a b, let i := min_seg l p 0 None 0 in
  nth_error l i = Some a /\ nth_error l (S i) = Some b /\
  (forall j d, seg_d2 l p j = Some d -> seg_dist2 p a b <= d) /\
  (forall j d, (j < i)%nat -> seg_d2 l p j = Some d -> seg_dist2 p a b < d).
Proof.
  intros L. pose proof (min_seg_spec l p 0 None 0) as H. cbv zeta in H. destruct H as [[_ H]|(j & dj & E & Hj & H1 & H2 & _)].
  - exfalso. destruct l as [|a [|b l]]; cbn in L; try lia. apply (H 0%nat (seg_dist2 p a b)). reflexivity.
  - rewrite E. cbn [plus]. unfold seg_d2 in Hj at 1.
    destruct (nth_error l j) as [a|] eqn:Ea; [|discriminate]. destruct (nth_error l (S j)) as [b|] eqn:Eb; [|discriminate].
    inversion Hj; subst dj. exists a, b. auto.
Qed.
